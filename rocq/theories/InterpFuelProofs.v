(** The fuel of the example interpreter does not matter once it is enough (C54). *)
From Verif Require Import Base IdModel TypeModel IrModel LayoutModel ArithModel InterpModel.

(** [r'] is [r], unless [r] ran out of fuel. *)
Definition upto {A} (r r' : xres A) : Prop := r = XDeep ∨ r' = r.
Lemma upto_refl {A} (r : xres A) : upto r r.
Proof. by right. Qed.
Lemma upto_bind {A B} (m m' : xres A) (k k' : A → xres B) :
  upto m m' → (∀ a, upto (k a) (k' a)) → upto (m ≫= k) (m' ≫= k').
Proof.
  intros [->| ->] H; [by left|]. destruct m as [a| | | |]; try (by right). exact (H a).
Qed.
Lemma x_each_upto f f' l : (∀ v n, upto (f v n) (f' v n)) → ∀ n, upto (x_each f l n) (x_each f' l n).
Proof.
  intros H. induction l as [|v l IH]; intros n; [apply upto_refl|]. apply upto_bind; [apply H|]. intros [y n1].
  apply upto_bind; [apply IH|]. intros [ys n2]. apply upto_refl.
Qed.
Lemma x_const_upto m k : ∀ v n, upto (x_const k m v n) (x_const (S k) m v n).
Proof.
  induction k as [|k IH]; intros v n; [by left|]. cbn [x_const].
  apply upto_bind; [apply upto_refl|]. intros d. destruct (v_kind d); try apply upto_refl.
  apply upto_bind; [apply x_each_upto; exact IH|]. intros [l n']. apply upto_refl.
Qed.
Section fuel.
Context {E : Type} (C : xconfig E) (p : program) (vars : gmap N xval).
Lemma x_value_upto k fd vs v n : upto (x_value p vars k fd vs v n) (x_value p vars (S k) fd vs v n).
Proof.
  unfold x_value. destruct (is_global_id v); [apply upto_refl|].
  apply upto_bind; [apply upto_refl|]. intros d. destruct (is_const (v_kind d)); [apply x_const_upto|apply upto_refl].
Qed.
Lemma x_eval_upto k fd F v (W : xworld E) : upto (x_eval p vars k fd F v W) (x_eval p vars (S k) fd F v W).
Proof. apply upto_bind; [apply x_value_upto|]. intros [x n]. apply upto_refl. Qed.
Ltac step := first [apply upto_refl | apply x_eval_upto | apply upto_bind; [|intros ?]].
Lemma x_params_upto k fd ps : ∀ args (W : xworld E) F, upto (x_params p vars k fd ps args W F) (x_params p vars (S k) fd ps args W F).
Proof.
  induction ps as [|q ps IH]; intros [|a args] W F; try apply upto_refl. cbn [x_params].
  apply upto_bind; [apply upto_refl|]. intros _. apply upto_bind; [apply x_eval_upto|]. intros [x W1]. apply IH.
Qed.
Notation runner := (fdata → list value → xworld E → xframe → xres (xval * xworld E * xframe)).
Definition upto_go (go go' : runner) : Prop := ∀ fd is W F, upto (go fd is W F) (go' fd is W F).
Lemma x_func_upto go go' fd args W : upto_go go go' → upto (x_func C go fd args W) (x_func C go' fd args W).
Proof.
  intros H. unfold x_func. destruct (f_ty fd); try apply upto_refl. destruct (negb _); [apply upto_refl|].
  destruct (l_bbs (f_layout fd)) as [|[b is] l]; [apply upto_refl|]. destruct (params_exist fd); [|apply upto_refl].
  apply upto_bind; [apply H|]. intros [[x W1] F1]. apply upto_refl.
Qed.
Lemma x_goto_upto go go' k fd b args W F : upto_go go go' →
  upto (x_goto p vars go k fd b args W F) (x_goto p vars go' (S k) fd b args W F).
Proof.
  intros H. apply upto_bind; [apply upto_refl|]. intros bd. apply upto_bind; [apply x_params_upto|]. intros [W1 F1].
  apply upto_bind; [apply upto_refl|]. intros is. apply H.
Qed.
Lemma x_inst_upto go go' k fd v d W F : upto_go go go' →
  upto (x_inst C p vars go k fd v d W F) (x_inst C p vars go' (S k) fd v d W F).
Proof.
  intros H. unfold x_inst. destruct (v_kind d); try apply upto_refl.
  - apply upto_bind; [apply x_eval_upto|]. intros [s W1]. apply upto_refl.
  - apply upto_bind; [apply x_eval_upto|]. intros [x W1]. apply upto_bind; [apply x_eval_upto|]. intros [s W2]. apply upto_refl.
  - apply upto_bind; [apply x_eval_upto|]. intros [i W1]. destruct i; try apply upto_refl.
    apply upto_bind; [apply upto_refl|]. intros sz. apply upto_bind; [apply x_eval_upto|]. intros [s W2]. apply upto_refl.
  - apply upto_bind; [apply x_eval_upto|]. intros [i W1]. destruct i; try apply upto_refl.
    apply upto_bind; [apply upto_refl|]. intros sz. apply upto_bind; [apply x_eval_upto|]. intros [s W2]. apply upto_refl.
  - apply upto_bind; [apply x_eval_upto|]. intros [x W1]. apply upto_bind; [apply x_eval_upto|]. intros [s W2]. apply upto_refl.
  - apply upto_bind.
    + apply upto_bind; [|intros [xs n]; apply upto_refl]. apply x_each_upto. intros w n. apply x_value_upto.
    + intros [xs W1]. apply upto_bind; [apply upto_refl|]. intros gd.
      apply upto_bind; [by apply x_func_upto|]. intros [x W2]. apply upto_refl.
Qed.
Lemma x_insts_upto go go' k fd is : upto_go go go' → ∀ W F,
  upto (x_insts C p vars go k fd is W F) (x_insts C p vars go' (S k) fd is W F).
Proof.
  intros H. induction is as [|v is IH]; intros W F; [apply upto_refl|]. cbn [x_insts].
  apply upto_bind; [apply upto_refl|]. intros d.
  destruct (v_kind d) as [| | | | | | | | | | | | |c t f ta fa|t args| |[r|]];
    try (apply upto_bind; [by apply x_inst_upto|]; intros [W1 F1]; apply IH).
  - apply upto_bind; [apply x_eval_upto|]. intros [x W1]. destruct (x_bool x); by apply x_goto_upto.
  - by apply x_goto_upto.
  - apply upto_bind; [apply x_eval_upto|]. intros [x W1]. apply upto_refl.
  - apply upto_refl.
Qed.
Lemma x_bb_upto k : upto_go (x_bb C p vars k) (x_bb C p vars (S k)).
Proof.
  induction k as [|k IH]; intros fd is W F; [by left|].
  change (x_bb C p vars (S (S k)) fd is W F) with (x_insts C p vars (x_bb C p vars (S k)) (S k) fd is W F).
  change (x_bb C p vars (S k) fd is W F) with (x_insts C p vars (x_bb C p vars k) k fd is W F).
  by apply x_insts_upto.
Qed.
End fuel.
Lemma x_globals_upto {E} k p l : ∀ vars (W : xworld E), upto (x_globals k p l vars W) (x_globals (S k) p l vars W).
Proof.
  induction l as [|v l IH]; intros vars W; [apply upto_refl|]. cbn [x_globals].
  apply upto_bind; [apply upto_refl|]. intros d. destruct (v_kind d); try apply upto_refl.
  apply upto_bind; [apply x_const_upto|]. intros [x n]. apply IH.
Qed.
Lemma interpret_upto {E} (C : xconfig E) k order p e : upto (interpret C k order p e) (interpret C (S k) order p e).
Proof.
  apply upto_bind; [apply x_globals_upto|]. intros [vars W]. destruct (x_main p order) as [fd|]; [|apply upto_refl].
  apply upto_bind; [apply x_func_upto, x_bb_upto|]. intros [x W1]. apply upto_refl.
Qed.
Lemma interpret_more {E} (C : xconfig E) k j order p e r :
  interpret C k order p e = r → r ≠ XDeep → interpret C (k + j) order p e = r.
Proof.
  intros H Hr. induction j as [|j IH]; [by rewrite Nat.add_0_r|]. rewrite Nat.add_succ_r.
  destruct (interpret_upto C (k + j) order p e) as [Hd|Hd]; congruence.
Qed.
