(** Two programs, the second an optimized form of the first, and the example interpreter
    (C54, C55). *)
From Coq Require Import Lia.
From Verif Require Import Base IdModel TypeModel IrModel LayoutModel ArithModel InterpModel TypeSpec UsesSpec DfgSpec DceSpec
  InterpSimProofs.

Lemma find_bb_in b l is : find_bb b l = Some is → (b, is) ∈ l.
Proof.
  induction l as [|[c js] l IH]; [done|]. simpl. destruct (c =? b)%N eqn:Ec.
  - intros [= ->]. apply N.eqb_eq in Ec as ->. by left.
  - intros H. right. by apply IH.
Qed.
Lemma find_bb_forall2 (R : list value → list value → Prop) b l l' is :
  Forall2 (λ x x', x'.1 = x.1 ∧ R x.2 x'.2) l l' → find_bb b l = Some is → ∃ is', find_bb b l' = Some is' ∧ R is is'.
Proof.
  induction 1 as [|[c js] [c' js'] l l' [Hc HR] _ IH]; [done|]. simpl in *. subst c'.
  destruct (c =? b)%N; [|done]. intros [= <-]. by exists js'.
Qed.

(** ** Functions *)
(** The constants [a] of [m] and [q] of [m'] have the same value, up to depth [k]. *)
Fixpoint ceq (k : nat) (m m' : gmap N vdata) (a q : value) : Prop :=
  match k with
  | O => True
  | S k => ∃ d d', m !! a = Some d ∧ m' !! q = Some d' ∧
      match v_kind d with
      | KInteger z => v_kind d' = KInteger z
      | KZeroInit => v_kind d' = KZeroInit ∧ v_ty d' = v_ty d
      | KUndef => v_kind d' = KUndef
      | KAggregate es => ∃ es', v_kind d' = KAggregate es' ∧ Forall2 (ceq k m m') es es'
      | _ => False
      end
  end.
Section funs.
Context (fd fd' : fdata).
Definition operand (v : value) : Prop := is_Some (vals fd !! v) → alive (vals fd') v.
Definition folded_as (d d' : vdata) : Prop := is_const (v_kind d) = false ∧ is_const (v_kind d') = true.
(** The parameters [ps] get the arguments [args]; in the second function these are [ps'] and [args']. *)
Inductive binds : list value → list value → list value → list value → Prop :=
  | B_none args args' : binds [] args [] args'
  | B_end ps ps' : binds ps [] ps' []
  | B_keep q ps a args ps' args' d d' i : vals fd !! q = Some d → vals fd' !! q = Some d' →
      v_kind d = KBlockArg i → v_kind d' = KBlockArg i → v_ty d' = v_ty d → operand a →
      binds ps args ps' args' → binds (q :: ps) (a :: args) (q :: ps') (a :: args')
  | B_drop q ps a args ps' args' : ¬ alive (vals fd') q →
      binds ps args ps' args' → binds (q :: ps) (a :: args) ps' args'
  | B_fold q q2 ps a args ps' args' d d' : alive (vals fd') q2 → vals fd !! q2 = None → operand a →
      vals fd !! q = Some d → vals fd' !! q = Some d' → folded_as d d' → (∀ k, ceq k (vals fd) (vals fd') a q) →
      binds ps args ps' args' → binds (q :: ps) (a :: args) (q2 :: ps') (a :: args').
Definition goes (b : bblock) (args args' : list value) : Prop :=
  ∀ bd, blks fd !! b = Some bd → ∃ bd', blks fd' !! b = Some bd' ∧ binds (bb_params bd) args (bb_params bd') args'.
Definition same_kind (k k' : vkind) : Prop :=
  match k with
  | KJump b args => ∃ args', k' = KJump b args' ∧ goes b args args'
  | KBranch c t f ta fa => ∃ ta' fa', k' = KBranch c t f ta' fa' ∧ goes t ta ta' ∧ goes f fa fa'
  | _ => k' = k
  end.
Definition same_as (d d' : vdata) : Prop := v_ty d' = v_ty d ∧ same_kind (v_kind d) (v_kind d').
Definition same (v : value) : Prop := ∃ d d', vals fd !! v = Some d ∧ vals fd' !! v = Some d' ∧ same_as d d'.
(** An instruction on constants that was computed. *)
Definition computed (checks : bool) (d d' : vdata) : Prop := ∃ op l r dl dr a b,
  v_kind d = KBinary op l r ∧ vals fd !! l = Some dl ∧ vals fd !! r = Some dr ∧
  v_kind dl = KInteger a ∧ v_kind dr = KInteger b ∧
  ((∃ c, v_kind d' = KInteger c ∧ exec_op checks op a b = Some c) ∨ v_kind d' = KUndef ∧ exec_op checks op a b = None).
(** The instructions of a block, without some that have no effect and whose result is
    computed or gone. *)
Inductive thins (checks : bool) : list value → list value → Prop :=
  | T_nil : thins checks [] []
  | T_keep v is is' : same v → thins checks is is' → thins checks (v :: is) (v :: is')
  | T_drop v d is is' : vals fd !! v = Some d → ¬ effectful (v_kind d) →
      (∀ d', vals fd' !! v = Some d' → computed checks d d') → thins checks is is' → thins checks (v :: is) is'.
(** The second function is an optimized form of the first one. *)
Record opt_fun (checks : bool) : Prop := {
  of_ty : f_ty fd' = f_ty fd;
  of_name : f_name fd' = f_name fd;
  of_params : f_params fd' = f_params fd;
  of_param : ∀ q, q ∈ f_params fd → is_Some (vals fd !! q) → same q;
  of_sort : ∀ v d d', vals fd !! v = Some d → vals fd' !! v = Some d' → same_as d d' ∨ folded_as d d';
  of_op : ∀ v d d' e, vals fd !! v = Some d → vals fd' !! v = Some d' → same_as d d' →
    e ∈ operands (v_kind d') → operand e;
  of_layout : Forall2 (λ x x', x'.1 = x.1 ∧ thins checks x.2 x'.2) (l_bbs (f_layout fd)) (l_bbs (f_layout fd'));
}.
End funs.
Record opt_program (checks : bool) (p p' : program) : Prop := {
  op_values : ∀ v, (λ d, (v_ty d, v_kind d)) <$> p_values p' !! v = (λ d, (v_ty d, v_kind d)) <$> p_values p !! v;
  op_inst : p_inst_layout p' = p_inst_layout p;
  op_funcs : ∀ f, match p_funcs p !! f, p_funcs p' !! f with
    | Some fd, Some fd' => opt_fun fd fd' checks
    | None, None => True
    | _, _ => False
    end;
}.
(** Nothing is folded. *)
Definition nothing_folded (p p' : program) : Prop := ∀ f fd fd' v d d',
  p_funcs p !! f = Some fd → p_funcs p' !! f = Some fd' → vals fd !! v = Some d → vals fd' !! v = Some d' → ¬ folded_as d d'.
Lemma same_folded fd fd' d d' : same_as fd fd' d d' → folded_as d d' → False.
Proof.
  intros [_ Hs] [H1 H2]. destruct (v_kind d); simpl in Hs; try (rewrite Hs in H2; done).
  - destruct Hs as (? & ? & Hk & _). by rewrite Hk in H2.
  - destruct Hs as (? & Hk & _). by rewrite Hk in H2.
Qed.
Lemma same_not_folded fd fd' v d d' : same fd fd' v → vals fd !! v = Some d → vals fd' !! v = Some d' → ¬ folded_as d d'.
Proof.
  intros (d1 & d1' & H1 & H1' & Hs) H2 H2' Hf. rewrite H1 in H2. rewrite H1' in H2'. injection H2 as <-. injection H2' as <-.
  by eapply same_folded.
Qed.
Lemma same_const fd fd' d d' : same_as fd fd' d d' → is_const (v_kind d') = is_const (v_kind d) ∧
  (is_const (v_kind d) = true → v_kind d' = v_kind d).
Proof.
  intros [_ Hs]. destruct (v_kind d); simpl in Hs; try (rewrite Hs; done).
  - destruct Hs as (? & ? & -> & _). done.
  - destruct Hs as (? & -> & _). done.
Qed.
Lemma computed_folded fd checks d d' : computed fd checks d d' → folded_as d d'.
Proof. intros (op & l & r & dl & dr & a & b & Hk & _ & _ & _ & _ & [(c & Hk' & _)|[Hk' _]]); unfold folded_as; by rewrite Hk, Hk'. Qed.

(** ** Constants *)
(** Cloning a value of a constant is making the constant again. *)
Lemma makes_list_clone_nil J : makes_list J (λ n, XOk (xclones [] n)) (λ n, XOk ([], n)).
Proof. exact (makes_list_nil J). Qed.
Lemma xclones_cons x l n : xclones (x :: l) n = (let '(y, n1) := xclone x n in let '(ys, n2) := xclones l n1 in (y :: ys, n2)).
Proof. done. Qed.
Lemma makes_list_clone_cons J x l r s : makes J (λ n, XOk (xclone x n)) r → makes_list J (λ n, XOk (xclones l n)) s →
  makes_list J (λ n, XOk (xclones (x :: l) n)) (λ n, '(y, n1) ← r n; '(ys, n2) ← s n1; XOk (y :: ys, n2)).
Proof.
  intros H1 H2 J1 n n' y m HJ F H. eapply (makes_list_cons J _ _ _ _ H1 H2 J1); [done|done|].
  rewrite xclones_cons in H. cbn [mbind xres_bind]. destruct (xclone x n) as [z n1]. cbn [mbind xres_bind].
  destruct (xclones l n1) as [zs n2]. exact H.
Qed.
Lemma makes_clone_arr J i l r : makes_list J (λ n, XOk (xclones l n)) r →
  makes J (λ n, XOk (xclone (XArr i l) n)) (λ n, '(l, n') ← r (n + 1)%N; XOk (XArr n l, n')).
Proof.
  intros H1 J1 n n' y m HJ F H. eapply (makes_arr J _ _ H1 J1); [done|done|].
  rewrite xclone_arr in H. cbn [mbind xres_bind]. destruct (xclones l (n + 1)) as [z n1]. exact H.
Qed.
Lemma x_many_clone J r k : (∀ n x m, r n = XOk (x, m) → makes J (λ n, XOk (xclone x n)) r) →
  ∀ n l m, x_many r k n = XOk (l, m) → makes_list J (λ n, XOk (xclones l n)) (x_many r k).
Proof.
  intros Hr. induction k as [|k IH]; intros n l m H.
  - injection H as <- <-. exact (makes_list_nil J).
  - cbn [x_many] in H. apply xbind_ok in H as ([y n1] & Hy & ([ys n2] & Hys & [= <- <-])%xbind_ok).
    exact (makes_list_clone_cons J _ _ _ _ (Hr _ _ _ Hy) (IH _ _ _ Hys)).
Qed.
Lemma x_zeroinit_clone J t : ∀ n x m, x_zeroinit t n = XOk (x, m) → makes J (λ n, XOk (xclone x n)) (x_zeroinit t).
Proof.
  induction t as [| |base len IH|base IH|ps ret IH1 IH2] using ty_ind'; intros n x m H; try done.
  - injection H as <- <-. exact (makes_same J (XInt 0) (λ J, eq_refl)).
  - cbn [x_zeroinit] in H. apply xbind_ok in H as ([l n'] & Hl & [= <- <-]).
    apply makes_clone_arr. by eapply x_many_clone.
  - injection H as <- <-. apply (makes_same J (XPtr None 0 0)). intros J1. split; [constructor|done].
Qed.
Lemma x_each_clone J (f f' : value → N → xres (xval * N)) (R : value → value → Prop) es es' : Forall2 R es es' →
  (∀ e e', R e e' → ∀ n x m, f e n = XOk (x, m) → makes J (λ n, XOk (xclone x n)) (f' e')) →
  ∀ n l m, x_each f es n = XOk (l, m) → makes_list J (λ n, XOk (xclones l n)) (x_each f' es').
Proof.
  intros HR Hf. induction HR as [|e e' es es' He _ IH]; intros n l m H.
  - injection H as <- <-. exact (makes_list_nil J).
  - cbn [x_each] in H. apply xbind_ok in H as ([y n1] & Hy & ([ys n2] & Hys & [= <- <-])%xbind_ok).
    apply makes_list_clone_cons; [by apply (Hf e e' He _ _ _ Hy)|]. by eapply IH.
Qed.
Lemma x_const_clone J m m' k : ∀ f a q, (k ≤ f)%nat → ceq k m m' a q →
  ∀ n x j, x_const k m a n = XOk (x, j) → makes J (λ n, XOk (xclone x n)) (x_const f m' q).
Proof.
  induction k as [|k IH]; intros f a q Hf Hc n x j H; [done|].
  destruct f as [|f]; [lia|]. destruct Hc as (d & d' & Hd & Hd' & Hc). cbn [x_const] in H. rewrite Hd in H. cbn [xneed mbind xres_bind] in H.
  cbn [x_const]. rewrite Hd'. cbn [xneed mbind xres_bind].
  destruct (v_kind d) as [z| | |es| | | | | | | | | | | | |] eqn:Ek; try done.
  - rewrite Hc. injection H as <- <-. exact (makes_same J (XInt z) (λ J, eq_refl)).
  - destruct Hc as [Hk Ht]. rewrite Hk, Ht. by eapply x_zeroinit_clone.
  - rewrite Hc. injection H as <- <-. exact (makes_same J XUndef (λ J, I)).
  - destruct Hc as (es' & Hk & Hes). rewrite Hk.
    apply xbind_ok in H as ([l n'] & Hl & [= <- <-]). apply makes_clone_arr. eapply x_each_clone; [exact Hes| |exact Hl].
    intros e e' He. apply IH; [lia|done].
Qed.

Section opt.
Context {E : Type} (C : xconfig E) (p p' : program) (vars vars' : gmap N xval).
Context (HO : opt_program (c_checks C) p p').
Context (Hsep : ∀ f fd v, p_funcs p !! f = Some fd → is_Some (p_values p !! v) → vals fd !! v = None).
Context (Hvars : ∀ f fd v, p_funcs p !! f = Some fd → is_Some (vals fd !! v) → vars !! v = None).
(** The second run may recurse deeper, by [delta]; the first one by no more than [bound]. *)
Context (delta bound : nat) (Hbound : (bound < delta)%nat ∨ nothing_folded p p').
Implicit Types W : xworld E.

Definition pair (fd fd' : fdata) : Prop := ∃ f, p_funcs p !! f = Some fd ∧ p_funcs p' !! f = Some fd'.
Lemma pair_opt fd fd' : pair fd fd' → opt_fun fd fd' (c_checks C).
Proof. intros (f & H1 & H2). pose proof (op_funcs _ _ _ HO f) as H. by rewrite H1, H2 in H. Qed.
Lemma pair_get f fd : p_funcs p !! f = Some fd → ∃ fd', p_funcs p' !! f = Some fd' ∧ pair fd fd'.
Proof.
  intros Hf. pose proof (op_funcs _ _ _ HO f) as H. rewrite Hf in H.
  destruct (p_funcs p' !! f) as [fd'|] eqn:E'; [|done]. exists fd'. split; [done|]. by exists f.
Qed.
Lemma pair_delta fd fd' v d d' : pair fd fd' → vals fd !! v = Some d → vals fd' !! v = Some d' → folded_as d d' → (bound < delta)%nat.
Proof. intros (f & H1 & H2) Hd Hd' Hf. destruct Hbound as [H|H]; [done|]. exfalso. exact (H _ _ _ _ _ _ H1 H2 Hd Hd' Hf). Qed.
Lemma locals_maps fd fd' : pair fd fd' → const_maps (vals fd) (vals fd').
Proof.
  intros HP. pose proof (pair_opt _ _ HP) as OF.
  assert (∀ v d d', vals fd !! v = Some d → vals fd' !! v = Some d' → is_const (v_kind d) = true → same_as fd fd' d d') as Hs.
  { intros v d d' Hd Hd' Hc. destruct (of_sort _ _ _ OF _ _ _ Hd Hd') as [Hs|[Hf _]]; [done|congruence]. }
  split.
  - intros v d d' Hd Hd' Hc. pose proof (Hs _ _ _ Hd Hd' Hc) as Ha. split; [apply Ha|]. by apply (same_const _ _ _ _ Ha).
  - intros v d d' e Hd Hd' Hc He. pose proof (Hs _ _ _ Hd Hd' Hc) as Ha. apply (of_op _ _ _ OF v d d'); [done..|].
    by rewrite (proj2 (same_const _ _ _ _ Ha) Hc).
Qed.
Lemma global_kind v d : p_values p !! v = Some d → ∃ d', p_values p' !! v = Some d' ∧ v_ty d' = v_ty d ∧ v_kind d' = v_kind d.
Proof.
  intros Hd. pose proof (op_values _ _ _ HO v) as H. rewrite Hd in H.
  destruct (p_values p' !! v) as [d'|]; [|done]. exists d'. split; [done|]. simpl in H. injection H as H1 H2. done.
Qed.
Lemma globals_maps : const_maps (p_values p) (p_values p').
Proof.
  split.
  - intros v d d' Hd Hd' _. destruct (global_kind _ _ Hd) as (d2 & H2 & Ht & Hk). rewrite Hd' in H2. by injection H2 as <-.
  - intros v d d' e _ _ _ _ [d2 Hd]. destruct (global_kind _ _ Hd) as (d3 & H2 & _). by eauto.
Qed.

(** ** Operands *)
Definition varsrel (J : gmap N N) : Prop := ∀ v, option_Forall2 (vrel J) (vars !! v) (vars' !! v).
Lemma varsrel_mono J J2 : J ⊆ J2 → varsrel J → varsrel J2.
Proof. intros S H v. eapply ovrel_mono; [exact S|apply H]. Qed.
(** The constant [v] has the value [x]. *)
Definition cval (fd' : fdata) (v : value) (x : xval) : Prop :=
  ∀ f, (delta ≤ f)%nat → makes ∅ (λ n, XOk (xclone x n)) (x_const f (vals fd') v).
Notation frame fd fd' J W W' F F' := (frel (same fd fd') J (x_next W) (x_next W') F F').
(** The state of both runs *)
Record srel (fd fd' : fdata) (J : gmap N N) (W W' : xworld E) (F F' : xframe) : Prop := {
  sr_w : wrel J W W';
  sr_v : varsrel J;
  sr_f : frame fd fd' J W W' F F';
  sr_c : ∀ v d d' x, vals fd !! v = Some d → vals fd' !! v = Some d' → folded_as d d' →
    xf_vals F !! v = Some x → cval fd' v x;
}.
Lemma x_value_ok fd fd' J W W' F F' k v : pair fd fd' → srel fd fd' J W W' F F' → operand fd fd' v →
  makes J (x_value p vars k fd (xf_vals F) v) (x_value p' vars' (delta + k) fd' (xf_vals F') v).
Proof.
  intros HP [_ HV HF HC] Ho. unfold x_value. destruct (is_global_id v).
  - apply makes_need. intros d Hd. destruct (global_kind _ _ Hd) as (d' & Hd' & _ & Hk).
    exists d'. split; [done|]. rewrite Hk. destruct (is_const (v_kind d)); [by apply makes_fail|].
    apply makes_need. intros x Hx. specialize (HV v). rewrite Hx in HV.
    inversion HV as [? x' Hxx E1 E2|]; subst. exists x'. split; [done|]. by apply makes_clone.
  - apply makes_need. intros d Hd. destruct (Ho (mk_is_Some _ _ Hd)) as [d' Hd'].
    exists d'. split; [done|].
    destruct (of_sort _ _ _ (pair_opt _ _ HP) _ _ _ Hd Hd') as [Hs|Hf].
    + rewrite (proj1 (same_const _ _ _ _ Hs)). destruct (is_const (v_kind d)).
      * apply x_const_ok; [by apply locals_maps|lia|done].
      * apply makes_need. intros x Hx. specialize (HV v).
        destruct HV as [y y' Hy|]; [injection Hx as <-; exists y'; split; [done|by apply makes_clone]|].
        destruct (fr_vals _ _ _ _ _ _ HF v x) as (x' & Hx' & Hxx); [by exists d, d'|done|].
        exists x'. split; [done|]. by apply makes_clone.
    + pose proof Hf as [Hc Hc']. rewrite Hc, Hc'. destruct HP as (f & Hp & _).
      rewrite (Hvars _ _ v Hp) by (by exists d).
      intros J1 n n' x m HJ Fn H. apply xbind_ok in H as (y & Hy%xneed_ok & H).
      refine (HC _ _ _ _ Hd Hd' Hf Hy (delta + k)%nat _ J1 n n' x m _ Fn H); [lia|]. apply map_empty_subseteq.
Qed.
Lemma srel_step fd fd' J W W' F F' J2 W2 W2' : srel fd fd' J W W' F F' → wgrows J W W' J2 W2 W2' →
  wrel J2 W2 W2' → srel fd fd' J2 W2 W2' F F'.
Proof.
  intros [S1 S2 S3 S4] G HW. constructor; [done| |by eapply frel_grows|done].
  eapply varsrel_mono; [apply G|done].
Qed.
Lemma srel_insert fd fd' J W W' F F' v x x' : srel fd fd' J W W' F F' → same fd fd' v → vrel J x x' →
  srel fd fd' J W W' (x_insert v x F) (x_insert v x' F').
Proof.
  intros [S1 S2 S3 S4] Hs Hx. constructor; [done..|by apply frel_insert|].
  intros w d d' y Hd Hd' Hf Hy; simpl in Hy; revert Hy; intros [[<- _]|[_ Hy]]%lookup_insert_Some; [|by eapply S4].
  exfalso. by eapply same_not_folded.
Qed.
Lemma srel_insert_l fd fd' J W W' F F' v x : srel fd fd' J W W' F F' → ¬ same fd fd' v →
  (∀ d d', vals fd !! v = Some d → vals fd' !! v = Some d' → folded_as d d' → cval fd' v x) →
  srel fd fd' J W W' (x_insert v x F) F'.
Proof.
  intros [S1 S2 S3 S4] Hs Hx. constructor; [done..|by apply frel_insert_l|].
  intros w d d' y Hd Hd' Hf Hy; simpl in Hy; revert Hy; intros [[<- <-]|[_ Hy]]%lookup_insert_Some; [by eapply Hx|by eapply S4].
Qed.
Lemma srel_insert_r fd fd' J W W' F F' v x : srel fd fd' J W W' F F' → ¬ same fd fd' v →
  srel fd fd' J W W' F (x_insert v x F').
Proof. intros [S1 S2 S3 S4] Hs. constructor; [done..|by apply frel_insert_r|done]. Qed.
Lemma x_eval_ok fd fd' J W W' F F' fuel v x W1 : pair fd fd' → srel fd fd' J W W' F F' → operand fd fd' v →
  x_eval p vars fuel fd F v W = XOk (x, W1) →
  ∃ x' W1' J1, x_eval p' vars' (delta + fuel) fd' F' v W' = XOk (x', W1') ∧ wgrows J W W' J1 W1 W1' ∧
    srel fd fd' J1 W1 W1' F F' ∧ vrel J1 x x'.
Proof.
  intros HP HS Ho ([y m] & Hy & [= <- <-])%xbind_ok.
  pose proof (x_value_ok fd fd' J W W' F F' fuel v HP HS Ho) as M.
  destruct (M _ _ (x_next W') _ _ (reflexivity J) (wr_fine _ _ _ (sr_w _ _ _ _ _ _ _ HS)) Hy) as (x' & m' & J1 & E1 & G & R).
  exists x', (x_upto W' m'), J1. split; [unfold x_eval; by rewrite E1|]. split; [done|]. split; [|done].
  eapply srel_step; [done|done|]. eapply wrel_upto; [apply HS|done].
Qed.
(** Only the first run evaluates. *)
Lemma x_eval_l fd fd' J W W' F F' fuel v x W1 : srel fd fd' J W W' F F' → x_eval p vars fuel fd F v W = XOk (x, W1) →
  srel fd fd' J W1 W' F F' ∧ (x_next W ≤ x_next W1)%N ∧ x_mem W1 = x_mem W.
Proof.
  intros HS ([y m] & Hy & [= <- <-])%xbind_ok.
  assert (x_next W ≤ m)%N as L.
  { unfold x_value in Hy. destruct (is_global_id v).
    - apply xbind_ok in Hy as (d & _ & Hy). destruct (is_const (v_kind d)); [done|].
      apply xbind_ok in Hy as (z & _ & [= Hz]). pose proof (xclone_le z (x_next W)) as L. by rewrite Hz in L.
    - apply xbind_ok in Hy as (d & _ & Hy). destruct (is_const (v_kind d)); [by eapply x_const_le|].
      apply xbind_ok in Hy as (z & _ & [= Hz]). pose proof (xclone_le z (x_next W)) as L. by rewrite Hz in L. }
  split; [|done]. eapply srel_step; [done| |apply wrel_upto_l; [apply HS|done]].
  apply grows_le; [apply HS|done|lia].
Qed.

(** ** Instructions *)
Lemma frel_box A J W W' F F' v x x' J2 : wrel J W W' → frel A J (x_next W) (x_next W') F F' →
  J2 = <[x_next W := x_next W']> J → 
  frel A J2 (x_next (x_box x W).2) (x_next (x_box x' W').2)
    (XFrame (<[v := XPtr (Some (Ptr (x_next W) [])) 0 0]> (xf_vals F)) (xf_allocs F ++ [x_next W]))
    (XFrame (<[v := XPtr (Some (Ptr (x_next W') [])) 0 0]> (xf_vals F')) (xf_allocs F' ++ [x_next W'])).
Proof.
  intros HW [A1 A2 A3 A4] ->. pose proof (grows_new _ _ _ (wr_fine _ _ _ HW)) as G. constructor; simpl.
  - intros w y Hw [[<- <-]|[Hne H]]%lookup_insert_Some.
    + eexists. rewrite lookup_insert. split; [done|]. split; [|done]. constructor. split; [|constructor].
      simpl. by rewrite lookup_insert.
    + destruct (A1 _ _ Hw H) as (y' & Hy & Hr). exists y'. rewrite lookup_insert_ne by done.
      split; [done|]. eapply vrel_mono; [apply G|done].
  - intros b b' [[<- <-]|[Hne H]]%lookup_insert_Some; rewrite !elem_of_app, !elem_of_list_singleton.
    + split; by right.
    + pose proof (fi_dom _ _ _ (wr_fine _ _ _ HW) _ _ H) as [L1 L2]. rewrite (A2 _ _ H).
      split; (intros [?|?]; [by left|lia]).
  - intros b [Hb%A3|Hb%elem_of_list_singleton]%elem_of_app; lia.
  - intros b [Hb%A4|Hb%elem_of_list_singleton]%elem_of_app; lia.
Qed.
Lemma x_alloc_ok fd fd' J W W' F F' v d d' W1 F1 : same fd fd' v → srel fd fd' J W W' F F' → v_ty d' = v_ty d →
  x_alloc v d W F = XOk (W1, F1) → ∃ W1' F1' J1, x_alloc v d' W' F' = XOk (W1', F1') ∧
    wgrows J W W' J1 W1 W1' ∧ srel fd fd' J1 W1 W1' F1 F1'.
Proof.
  intros Hv HS Ht H. unfold x_alloc in *. rewrite Ht. destruct (v_ty d) as [| | |base|]; try done.
  apply xbind_ok in H as ([x m] & Hx & H).
  destruct (x_zeroinit_ok J base J _ (x_next W') _ _ (reflexivity J) (wr_fine _ _ _ (sr_w _ _ _ _ _ _ _ HS)) Hx) as (x' & m' & J1 & Hx' & G1 & R1).
  pose proof (wrel_upto _ _ _ _ _ _ (sr_w _ _ _ _ _ _ _ HS) G1) as HW1.
  assert (srel fd fd' J1 (x_upto W m) (x_upto W' m') F F') as HS1 by (by eapply srel_step).
  rewrite Hx'. unfold x_box in *. cbn [mbind xres_bind] in *. injection H as <- <-.
  eexists _, _, (<[m := m']> J1). split; [done|].
  assert (grows J1 m m' (<[m := m']> J1) (m + 1) (m' + 1)) as G2 by (apply grows_new, HW1).
  split; [exact (grows_trans _ _ _ _ _ _ _ _ _ G1 G2)|]. constructor.
  - exact (wrel_box _ _ _ _ _ HW1 R1).
  - eapply varsrel_mono; [apply G2|apply HS1].
  - exact (frel_box _ _ _ _ _ _ v x x' _ HW1 (sr_f _ _ _ _ _ _ _ HS1) eq_refl).
  - intros w e e' y He He' Hf Hy; simpl in Hy; revert Hy; intros [[<- _]|[_ Hy]]%lookup_insert_Some.
    + exfalso. by eapply same_not_folded.
    + by eapply (sr_c _ _ _ _ _ _ _ HS1).
Qed.
Lemma x_load_ok fd fd' J W W' F F' fuel v src W1 F1 : pair fd fd' → same fd fd' v → srel fd fd' J W W' F F' → operand fd fd' src →
  x_load p vars fuel fd v src W F = XOk (W1, F1) → ∃ W1' F1' J1, x_load p' vars' (delta + fuel) fd' v src W' F' = XOk (W1', F1') ∧
    wgrows J W W' J1 W1 W1' ∧ srel fd fd' J1 W1 W1' F1 F1'.
Proof.
  intros HP Hv HS Ho ([s W0] & Hs & H)%xbind_ok.
  destruct (x_eval_ok _ _ _ _ _ _ _ _ _ _ _ HP HS Ho Hs) as (s' & W0' & J0 & Hs' & G0 & HS0 & R0).
  unfold x_load. rewrite Hs'. cbn [mbind xres_bind].
  destruct s as [| | |[q|] i l|[a|]]; try done.
  apply vrel_ptr_inv in R0 as (q' & -> & Hq). inversion Hq as [? q1 Hqq E1 E2|]; subst.
  apply xbind_ok in H as (x & Hx & H).
  destruct (x_read_ok _ _ _ _ _ _ (sr_w _ _ _ _ _ _ _ HS0) Hqq Hx) as (x' & Hx' & Rx).
  rewrite Hx'. cbn [mbind xres_bind].
  destruct (xclone_ok x J0 (x_next W0) (x_next W0') x' (wr_fine _ _ _ (sr_w _ _ _ _ _ _ _ HS0)) Rx) as (J1 & G1 & R1).
  destruct (xclone x (x_next W0)) as [y n], (xclone x' (x_next W0')) as [y' n']. simpl in G1, R1.
  injection H as <- <-. eexists _, _, J1. split; [done|]. split; [exact (grows_trans _ _ _ _ _ _ _ _ _ G0 G1)|].
  apply srel_insert; [|done|done]. eapply srel_step; [done|done|]. apply (wrel_upto _ _ _ _ _ _ (sr_w _ _ _ _ _ _ _ HS0) G1).
Qed.
Lemma x_store_ok fd fd' J W W' F F' fuel val dest W1 F1 : pair fd fd' → srel fd fd' J W W' F F' →
  operand fd fd' val → operand fd fd' dest →
  x_store p vars fuel fd val dest W F = XOk (W1, F1) → ∃ W1' F1' J1, x_store p' vars' (delta + fuel) fd' val dest W' F' = XOk (W1', F1') ∧
    wgrows J W W' J1 W1 W1' ∧ srel fd fd' J1 W1 W1' F1 F1'.
Proof.
  intros HP HS Ho1 Ho2 ([x W0] & Hx & ([s W2] & Hs & H)%xbind_ok)%xbind_ok.
  destruct (x_eval_ok _ _ _ _ _ _ _ _ _ _ _ HP HS Ho1 Hx) as (x' & W0' & J0 & Hx' & G0 & HS0 & Rx).
  destruct (x_eval_ok _ _ _ _ _ _ _ _ _ _ _ HP HS0 Ho2 Hs) as (s' & W2' & J2 & Hs' & G2 & HS2 & Rs).
  unfold x_store. rewrite Hx'. cbn [mbind xres_bind]. rewrite Hs'. cbn [mbind xres_bind].
  destruct s as [| | |[q|] i l|[a|]]; try done; [|by destruct x].
  apply vrel_ptr_inv in Rs as (q' & -> & Hq). inversion Hq as [? q1 Hqq E1 E2|]; subst.
  apply xbind_ok in H as (m & Hm & [= <- <-]).
  destruct (x_write_ok _ _ _ _ _ _ x' _ (sr_w _ _ _ _ _ _ _ HS2) Hqq (vrel_mono _ _ _ (gr_sub _ _ _ _ _ _ G2) _ Rx) Hm) as (m' & Hm' & HW).
  rewrite Hm'. cbn [mbind xres_bind]. eexists _, _, J2. split; [done|].
  split; [exact (grows_trans _ _ _ _ _ _ _ _ _ G0 G2)|].
  eapply srel_step; [exact HS2| |exact HW]. apply grows_refl. apply HS2.
Qed.
Lemma x_getptr_ok fd fd' J W W' F F' fuel v d d' src index W1 F1 : pair fd fd' → same fd fd' v → srel fd fd' J W W' F F' → v_ty d' = v_ty d →
  operand fd fd' src → operand fd fd' index →
  x_getptr C p vars fuel fd v d src index W F = XOk (W1, F1) →
  ∃ W1' F1' J1, x_getptr C p' vars' (delta + fuel) fd' v d' src index W' F' = XOk (W1', F1') ∧
    wgrows J W W' J1 W1 W1' ∧ srel fd fd' J1 W1 W1' F1 F1'.
Proof.
  intros HP Hv HS Ht Ho1 Ho2 ([i W0] & Hi & H)%xbind_ok.
  destruct (x_eval_ok _ _ _ _ _ _ _ _ _ _ _ HP HS Ho2 Hi) as (i' & W0' & J0 & Hi' & G0 & HS0 & Ri).
  unfold x_getptr. rewrite Hi'. cbn [mbind xres_bind]. destruct i as [|off| | |]; try done.
  apply vrel_int_inv in Ri as ->. rewrite Ht. apply xbind_ok in H as (sz & -> & H). cbn [mbind xres_bind].
  apply xbind_ok in H as ([s W2] & Hs & H).
  destruct (x_eval_ok _ _ _ _ _ _ _ _ _ _ _ HP HS0 Ho1 Hs) as (s' & W2' & J2 & Hs' & G2 & HS2 & Rs).
  rewrite Hs'. cbn [mbind xres_bind]. apply xbind_ok in H as (x & Hx & [= <- <-]).
  destruct (x_get_pointer_ok _ _ _ _ _ _ Rs Hx) as (x' & -> & Rx). cbn [mbind xres_bind].
  eexists _, _, J2. split; [done|]. split; [exact (grows_trans _ _ _ _ _ _ _ _ _ G0 G2)|]. by apply srel_insert.
Qed.
Lemma x_elem_pointer_ok J W W' s s' off size x : wrel J W W' → vrel J s s' →
  x_elem_pointer (x_mem W) s off size = XOk x →
  ∃ x', x_elem_pointer (x_mem W') s' off size = XOk x' ∧ vrel J x x'.
Proof.
  intros HW Rs H. destruct s as [| | |[q|] i l|a]; try done.
  - apply vrel_ptr_inv in Rs as (q' & -> & Hq). inversion Hq as [? q1 Hqq E1 E2|]; subst.
    unfold x_elem_pointer in *. apply xbind_ok in H as (a & Ha & H).
    destruct (x_read_ok _ _ _ _ _ _ HW Hqq Ha) as (a' & -> & Ra). cbn [mbind xres_bind].
    destruct a as [| |id l'| |]; try done. apply vrel_arr_inv in Ra as (id' & l2 & -> & Hid & Hl).
    rewrite <- (Forall2_length _ _ _ Hl). revert H. apply x_get_pointer_ok. split; [|done]. constructor.
    destruct Hqq as [Hb Hp]. split; [done|]. simpl. apply Forall2_app; [done|]. constructor; [|constructor]. by split.
  - apply vrel_raw_inv in Rs as ->. exists x. split; [done|]. unfold x_elem_pointer in H.
    destruct a as [a|]; [|by injection H as <-]. apply xbind_ok in H as (b & _ & [= <-]). done.
Qed.
Lemma x_getelemptr_ok fd fd' J W W' F F' fuel v d d' src index W1 F1 : pair fd fd' → same fd fd' v → srel fd fd' J W W' F F' → v_ty d' = v_ty d →
  operand fd fd' src → operand fd fd' index →
  x_getelemptr C p vars fuel fd v d src index W F = XOk (W1, F1) →
  ∃ W1' F1' J1, x_getelemptr C p' vars' (delta + fuel) fd' v d' src index W' F' = XOk (W1', F1') ∧
    wgrows J W W' J1 W1 W1' ∧ srel fd fd' J1 W1 W1' F1 F1'.
Proof.
  intros HP Hv HS Ht Ho1 Ho2 ([i W0] & Hi & H)%xbind_ok.
  destruct (x_eval_ok _ _ _ _ _ _ _ _ _ _ _ HP HS Ho2 Hi) as (i' & W0' & J0 & Hi' & G0 & HS0 & Ri).
  unfold x_getelemptr. rewrite Hi'. cbn [mbind xres_bind]. destruct i as [|off| | |]; try done.
  apply vrel_int_inv in Ri as ->. rewrite Ht. apply xbind_ok in H as (sz & -> & H). cbn [mbind xres_bind].
  apply xbind_ok in H as ([s W2] & Hs & H).
  destruct (x_eval_ok _ _ _ _ _ _ _ _ _ _ _ HP HS0 Ho1 Hs) as (s' & W2' & J2 & Hs' & G2 & HS2 & Rs).
  rewrite Hs'. cbn [mbind xres_bind]. apply xbind_ok in H as (x & Hx & [= <- <-]).
  destruct (x_elem_pointer_ok _ _ _ _ _ _ _ _ (sr_w _ _ _ _ _ _ _ HS2) Rs Hx) as (x' & -> & Rx). cbn [mbind xres_bind].
  eexists _, _, J2. split; [done|]. split; [exact (grows_trans _ _ _ _ _ _ _ _ _ G0 G2)|]. by apply srel_insert.
Qed.
Lemma x_binary_ok fd fd' J W W' F F' fuel v op l r W1 F1 : pair fd fd' → same fd fd' v → srel fd fd' J W W' F F' →
  operand fd fd' l → operand fd fd' r →
  x_binary C p vars fuel fd v op l r W F = XOk (W1, F1) →
  ∃ W1' F1' J1, x_binary C p' vars' (delta + fuel) fd' v op l r W' F' = XOk (W1', F1') ∧
    wgrows J W W' J1 W1 W1' ∧ srel fd fd' J1 W1 W1' F1 F1'.
Proof.
  intros HP Hv HS Ho1 Ho2 ([x W0] & Hx & ([s W2] & Hs & H)%xbind_ok)%xbind_ok.
  destruct (x_eval_ok _ _ _ _ _ _ _ _ _ _ _ HP HS Ho1 Hx) as (x' & W0' & J0 & Hx' & G0 & HS0 & Rx).
  destruct (x_eval_ok _ _ _ _ _ _ _ _ _ _ _ HP HS0 Ho2 Hs) as (s' & W2' & J2 & Hs' & G2 & HS2 & Rs).
  unfold x_binary. rewrite Hx'. cbn [mbind xres_bind]. rewrite Hs'. cbn [mbind xres_bind].
  destruct x as [|a| | |]; try done. destruct s as [|b| | |]; try done.
  apply vrel_int_inv in Rx as ->. apply vrel_int_inv in Rs as ->.
  apply xbind_ok in H as (c & -> & [= <- <-]). cbn [mbind xres_bind].
  eexists _, _, J2. split; [done|]. split; [exact (grows_trans _ _ _ _ _ _ _ _ _ G0 G2)|]. by apply srel_insert.
Qed.

(** ** Entering blocks *)
Lemma x_eval_const fd k v d F W x W1 : (∃ f, p_funcs p !! f = Some fd) → vals fd !! v = Some d → is_const (v_kind d) = true →
  x_eval p vars k fd F v W = XOk (x, W1) → ∃ n m, x_const k (vals fd) v n = XOk (x, m).
Proof.
  intros (f & Hf) Hd Hc ([y m] & Hy & [= <- <-])%xbind_ok. unfold x_value in Hy. destruct (is_global_id v).
  - apply xbind_ok in Hy as (e & He%xneed_ok & _). rewrite (Hsep _ _ v Hf) in Hd by (by exists e). done.
  - rewrite Hd in Hy. cbn [xneed mbind xres_bind] in Hy. rewrite Hc in Hy. by eauto.
Qed.
Lemma x_params_ok fd fd' fuel : pair fd fd' → (fuel ≤ bound)%nat → ∀ ps args ps' args', binds fd fd' ps args ps' args' →
  ∀ J W W' F F' W1 F1, srel fd fd' J W W' F F' →
  x_params p vars fuel fd ps args W F = XOk (W1, F1) →
  ∃ W1' F1' J1, x_params p' vars' (delta + fuel) fd' ps' args' W' F' = XOk (W1', F1') ∧
    wgrows J W W' J1 W1 W1' ∧ srel fd fd' J1 W1 W1' F1 F1'.
Proof.
  intros HP Hfuel ps args ps' args' HB.
  induction HB as [args args'|ps ps'|q ps a args ps' args' d d' i Hd Hd' Hk Hk' Ht Ho HB IH|q ps a args ps' args' Hq HB IH
    |q q2 ps a args ps' args' d d' Hq2 Hn Ho Hd Hd' Hf Hc HB IH]; intros J W W' F F' W1 F1 HS H.
  - cbn [x_params] in *. injection H as <- <-. eexists _, _, J. split; [done|]. split; [apply grows_refl, HS|done].
  - assert (XOk (W, F) = XOk (W1, F1)) as [= <- <-] by (by destruct ps). eexists W', F', J. split; [by destruct ps'|].
    split; [apply grows_refl, HS|done].
  - cbn [x_params] in H. apply xbind_ok in H as (dq & Hdq & ([x W0] & Hx & H)%xbind_ok).
    destruct (x_eval_ok _ _ _ _ _ _ _ _ _ _ _ HP HS Ho Hx) as (x' & W0' & J0 & Hx' & G0 & HS0 & Rx).
    assert (same fd fd' q) as Hs. { exists d, d'. split_and!; [done|done|]. split; [done|]. rewrite Hk, Hk'. done. }
    destruct (IH J0 W0 W0' _ _ W1 F1 (srel_insert _ _ _ _ _ _ _ q _ _ HS0 Hs Rx) H) as (W1' & F1' & J1 & H1 & G1 & HS1).
    exists W1', F1', J1. cbn [x_params]. rewrite Hd'. cbn [xneed mbind xres_bind].
    rewrite Hx'. split; [exact H1|]. split; [by eapply grows_trans|done].
  - cbn [x_params] in H. apply xbind_ok in H as (dq & Hdq & ([x W0] & Hx & H)%xbind_ok).
    destruct (x_eval_l _ _ _ _ _ _ _ _ _ _ _ HS Hx) as (HS0 & L & _).
    destruct (IH J W0 W' (x_insert q x F) F' W1 F1) as (W1' & F1' & J1 & H1 & G1 & HS1); [|exact H|].
    { apply srel_insert_l; [done| |].
      - intros (? & e & _ & He & _). apply Hq. by exists e.
      - intros ? e _ He. exfalso. apply Hq. by exists e. }
    exists W1', F1', J1. split; [exact H1|]. split; [|done].
    eapply grows_trans; [|exact G1]. apply grows_le; [apply HS|done|lia].
  - cbn [x_params] in H. apply xbind_ok in H as (dq & Hdq & ([x W0] & Hx & H)%xbind_ok).
    destruct (x_eval_ok _ _ _ _ _ _ _ _ _ _ _ HP HS Ho Hx) as (x' & W0' & J0 & Hx' & G0 & HS0 & Rx).
    pose proof (pair_delta _ _ _ _ _ HP Hd Hd' Hf) as Hb.
    assert (cval fd' q x) as Hcv.
    { pose proof (Hc 1%nat) as (da & db & Hda & _ & Hca).
      destruct (x_eval_const fd fuel a da F W x W0) as (n & m & Hm); [destruct HP as (f & ? & _); by exists f|done| |done|].
      { destruct (v_kind da); done. }
      intros f Hl. eapply x_const_clone; [|apply Hc|exact Hm]. lia. }
    destruct (IH J0 W0 W0' (x_insert q x F) (x_insert q2 x' F') W1 F1) as (W1' & F1' & J1 & H1 & G1 & HS1); [|exact H|].
    { apply srel_insert_r; [apply srel_insert_l; [done| |done]|].
      - intros Hs. by eapply same_not_folded.
      - intros (e & _ & He & _). by rewrite Hn in He. }
    exists W1', F1', J1. cbn [x_params]. destruct Hq2 as [d2 Hd2]. rewrite Hd2. cbn [xneed mbind xres_bind].
    rewrite Hx'. split; [exact H1|]. split; [by eapply grows_trans|done].
Qed.

Notation runner := (fdata → list value → xworld E → xframe → xres (xval * xworld E * xframe)).
Definition runs (go go' : runner) : Prop := ∀ fd fd' is is' J W W' F F' x W2 F2,
  pair fd fd' → thins fd fd' (c_checks C) is is' → srel fd fd' J W W' F F' → go fd is W F = XOk (x, W2, F2) →
  ∃ x' W2' F2' J2, go' fd' is' W' F' = XOk (x', W2', F2') ∧
    wgrows J W W' J2 W2 W2' ∧ srel fd fd' J2 W2 W2' F2 F2' ∧ vrel J2 x x'.

Lemma x_goto_ok go go' fd fd' fuel b args args' J W W' F F' x W2 F2 : runs go go' → pair fd fd' → (fuel ≤ bound)%nat →
  srel fd fd' J W W' F F' → goes fd fd' b args args' →
  x_goto p vars go fuel fd b args W F = XOk (x, W2, F2) →
  ∃ x' W2' F2' J2, x_goto p' vars' go' (delta + fuel) fd' b args' W' F' = XOk (x', W2', F2') ∧
    wgrows J W W' J2 W2 W2' ∧ srel fd fd' J2 W2 W2' F2 F2' ∧ vrel J2 x x'.
Proof.
  intros HR HP Hfuel HS Hg (bd & Hbd%xneed_ok & ([W1 F1] & H1 & (is & His%xneed_ok & H)%xbind_ok)%xbind_ok)%xbind_ok.
  pose proof (pair_opt _ _ HP) as OF. destruct (Hg _ Hbd) as (bd' & Hbd' & HB).
  destruct (x_params_ok _ _ fuel HP Hfuel _ _ _ _ HB _ _ _ _ _ _ _ HS H1) as (W1' & F1' & J1 & E1 & G1 & HS1).
  unfold x_goto. rewrite Hbd'. cbn [xneed mbind xres_bind]. rewrite E1. cbn [mbind xres_bind].
  destruct (find_bb_forall2 _ _ _ _ _ (of_layout _ _ _ OF) His) as (is' & -> & HT). cbn [xneed mbind xres_bind].
  destruct (HR _ _ is is' _ _ _ _ _ _ _ _ HP HT HS1 H) as (x' & W2' & F2' & J2 & E2 & G2 & HS2 & Rx).
  exists x', W2', F2', J2. split; [done|]. split; [by eapply grows_trans|done].
Qed.

(** ** Calls *)
Lemma x_words_ok J l l' ws : Forall2 (vrel J) l l' → x_words l = XOk ws → x_words l' = XOk ws.
Proof.
  intros Hl. revert ws. induction Hl as [|x x' l l' Hx _ IH]; intros ws H; [done|].
  cbn [x_words] in *. apply xbind_ok in H as (w & Hw & (ws' & Hws & [= <-])%xbind_ok).
  assert (x_word x' = XOk w) as ->.
  { destruct x as [|z|i m|q i m|a].
    - by apply vrel_undef_inv in Hx as ->.
    - by apply vrel_int_inv in Hx as ->.
    - done.
    - apply vrel_ptr_inv in Hx as (q' & -> & Hq). destruct Hq; done.
    - by apply vrel_raw_inv in Hx as ->. }
  cbn [mbind xres_bind]. by rewrite (IH _ Hws).
Qed.
Lemma x_of_word_ok J w t x : x_of_word w t = XOk x → vrel J x x.
Proof. destruct t; try done; intros [= <-]; done. Qed.
Lemma x_extern_call_ok fd fd' args args' J W W' x W1 : pair fd fd' → Forall2 (vrel J) args args' →
  wrel J W W' → x_extern_call C fd args W = XOk (x, W1) →
  ∃ x' W1', x_extern_call C fd' args' W' = XOk (x', W1') ∧ wgrows J W W' J W1 W1' ∧ wrel J W1 W1' ∧ vrel J x x'.
Proof.
  intros HP Ha HW H. pose proof (pair_opt _ _ HP) as CL. unfold x_extern_call in *.
  rewrite (of_name _ _ _ CL), (of_ty _ _ _ CL), <- (Forall2_length _ _ _ Ha).
  destruct (f_name fd) as [|c name]; [done|]. destruct (f_ty fd) as [| | | |ps ret]; try done.
  destruct (existsb _ _); [done|]. destruct (c_ext C name) as [g|]; [|done].
  destruct (28 <? length args)%nat; [done|]. apply xbind_ok in H as (ws & Hws & H).
  rewrite (x_words_ok _ _ _ _ Ha Hws). cbn [mbind xres_bind]. rewrite <- (wr_extern _ _ _ HW).
  destruct (g ws (x_extern W)) as [e w]. apply xbind_ok in H as (y & Hy & [= <- <-]). rewrite Hy. cbn [mbind xres_bind].
  eexists _, _. split; [done|]. split; [apply grows_refl; apply HW|].
  split; [|by eapply x_of_word_ok]. destruct HW as [A1 A2 A3 A4 A5]. constructor; done.
Qed.
Lemma x_args_ok J ps : ∀ args args' m m', Forall2 (vrel J) args args' →
  (∀ v x, m !! v = Some x → ∃ x', m' !! v = Some x' ∧ vrel J x x') →
  ∀ v x, x_args ps args m !! v = Some x → ∃ x', x_args ps args' m' !! v = Some x' ∧ vrel J x x'.
Proof.
  induction ps as [|q ps IH]; intros args args' m m' Ha Hm; [done|].
  destruct Ha as [|a a' args args' Haa Ha]; [done|]. cbn [x_args]. apply (IH _ _ _ _ Ha).
  intros v x [[<- <-]|[Hne Hv]]%lookup_insert_Some.
  - exists a'. by rewrite lookup_insert.
  - rewrite lookup_insert_ne by done. by apply Hm.
Qed.
Lemma x_args_keys ps : ∀ args m v x, x_args ps args m !! v = Some x → v ∈ ps ∨ m !! v = Some x.
Proof.
  induction ps as [|q ps IH]; intros args m v x H; [by right|]. destruct args as [|a args]; [by right|].
  cbn [x_args] in H. destruct (IH _ _ _ _ H) as [Hv|[[<- _]|[_ Hv]]%lookup_insert_Some]; [left; by right|left; by left|by right].
Qed.
Lemma x_func_ok go go' fd fd' args args' J W W' x W1 : runs go go' → pair fd fd' → Forall2 (vrel J) args args' →
  wrel J W W' → varsrel J → x_func C go fd args W = XOk (x, W1) →
  ∃ x' W1' J1, x_func C go' fd' args' W' = XOk (x', W1') ∧ wgrows J W W' J1 W1 W1' ∧ wrel J1 W1 W1' ∧ vrel J1 x x'.
Proof.
  intros HR HP Ha HW HV H. pose proof (pair_opt _ _ HP) as OF. unfold x_func in *.
  rewrite (of_ty _ _ _ OF), <- (Forall2_length _ _ _ Ha).
  destruct (f_ty fd) as [| | | |ps ret]; try done. destruct (negb _); [done|].
  pose proof (of_layout _ _ _ OF) as HL.
  destruct (l_bbs (f_layout fd)) as [|[b is] rest] eqn:El; inversion HL as [|? [b' is'] ? rest' [_ HT] _ E1 E2]; subst.
  - destruct (x_extern_call_ok _ _ _ _ _ _ _ _ _ HP Ha HW H) as (x' & W1' & E1 & G & HW1 & R). by exists x', W1', J.
  - destruct (params_exist fd) eqn:Hpe; [|done]. simpl in HT.
    assert (params_exist fd' = true) as ->.
    { unfold params_exist in *. rewrite (of_params _ _ _ OF). apply forallb_forall. intros q Hq.
      assert (match vals fd !! q with Some _ => true | None => false end = true) as Hs
        by exact (proj1 (forallb_forall _ _) Hpe q Hq).
      destruct (vals fd !! q) as [d|] eqn:Hd; [|done].
      destruct (of_param _ _ _ OF q) as (? & d' & _ & Hd' & _); [by apply elem_of_list_In|by exists d|by rewrite Hd']. }
    apply xbind_ok in H as ([[y W2] F2] & H & [= <- <-]).
    destruct (HR fd fd' is is' J W W' (XFrame (x_args (f_params fd) args ∅) []) (XFrame (x_args (f_params fd') args' ∅) []) y W2 F2 HP HT) as (y' & W2' & F2' & J2 & E2' & G2 & HS2 & R); [|exact H|].
    + constructor; [done..| |].
      * constructor; simpl.
        -- intros v z _ Hz. rewrite (of_params _ _ _ OF). revert Hz. by apply x_args_ok.
        -- intros ? ? _. split; intros Hb; inversion Hb.
        -- intros ? Hb. inversion Hb.
        -- intros ? Hb. inversion Hb.
      * simpl. intros v d d' z Hd Hd' Hf [Hv|Hv]%x_args_keys; [|by rewrite lookup_empty in Hv].
        exfalso. eapply same_not_folded; [|exact Hd|exact Hd'|exact Hf]. apply (of_param _ _ _ OF); [done|by exists d].
    + rewrite E2'. cbn [mbind xres_bind]. eexists _, _, J2. split; [done|]. split; [done|]. split; [|done].
      apply wrel_drop; [apply HS2|]. apply (fr_allocs _ _ _ _ _ _ (sr_f _ _ _ _ _ _ _ HS2)).
Qed.
Lemma x_call_ok go go' fd fd' fuel v f args J W W' F F' W1 F1 : runs go go' → pair fd fd' → same fd fd' v → srel fd fd' J W W' F F' →
  (∀ a, a ∈ args → operand fd fd' a) →
  x_call C p vars go fuel fd v f args W F = XOk (W1, F1) →
  ∃ W1' F1' J1, x_call C p' vars' go' (delta + fuel) fd' v f args W' F' = XOk (W1', F1') ∧
    wgrows J W W' J1 W1 W1' ∧ srel fd fd' J1 W1 W1' F1 F1'.
Proof.
  intros HR HP Hv HS Ho ([xs W0] & ([xs' n] & Hxs & [= <- <-])%xbind_ok & (gd & Hgd%xneed_ok & ([x W2] & Hx & [= <- <-])%xbind_ok)%xbind_ok)%xbind_ok.
  assert (makes_list J (x_each (x_value p vars fuel fd (xf_vals F)) args) (x_each (x_value p' vars' (delta + fuel) fd' (xf_vals F')) args)) as M.
  { apply x_each_ok. intros a Ha. by eapply x_value_ok; [|exact HS|apply Ho]. }
  destruct (M _ _ (x_next W') _ _ (reflexivity J) (wr_fine _ _ _ (sr_w _ _ _ _ _ _ _ HS)) Hxs) as (ys & n' & J1 & E1 & G1 & R1).
  assert (srel fd fd' J1 (x_upto W n) (x_upto W' n') F F') as HS1.
  { eapply srel_step; [done|exact G1|]. eapply wrel_upto; [apply HS|done]. }
  destruct (pair_get _ _ Hgd) as (gd' & Hgd' & HP').
  destruct (x_func_ok _ _ _ _ _ _ _ _ _ _ _ HR HP' R1 (sr_w _ _ _ _ _ _ _ HS1) (sr_v _ _ _ _ _ _ _ HS1) Hx) as (x' & W2' & J2 & E2 & G2 & HW2 & R2).
  unfold x_call, x_evals. rewrite E1. cbn [mbind xres_bind]. rewrite Hgd'. cbn [xneed mbind xres_bind].
  rewrite E2. cbn [mbind xres_bind]. eexists _, _, J2. split; [done|]. split; [exact (grows_trans _ _ _ _ _ _ _ _ _ G1 G2)|].
  apply srel_insert; [|done|done]. by eapply srel_step.
Qed.

(** ** Blocks *)
Lemma x_inst_ok go go' fd fd' fuel v d d' J W W' F F' W1 F1 : runs go go' → pair fd fd' → srel fd fd' J W W' F F' →
  vals fd !! v = Some d → vals fd' !! v = Some d' → same_as fd fd' d d' →
  x_inst C p vars go fuel fd v d W F = XOk (W1, F1) →
  ∃ W1' F1' J1, x_inst C p' vars' go' (delta + fuel) fd' v d' W' F' = XOk (W1', F1') ∧
    wgrows J W W' J1 W1 W1' ∧ srel fd fd' J1 W1 W1' F1 F1'.
Proof.
  intros HR HP HS Hd Hd' Hs H. unfold x_inst in *.
  pose proof (λ u, of_op _ _ _ (pair_opt _ _ HP) v d d' u Hd Hd' Hs) as Hop.
  assert (same fd fd' v) as Hv by (by exists d, d'). destruct Hs as [Ht Hk].
  destruct (v_kind d); try done; simpl in Hk; rewrite Hk in Hop |- *; simpl in Hop.
  - by eapply x_alloc_ok.
  - eapply x_load_ok; [done|done|done| |done]. apply Hop. set_solver.
  - eapply x_store_ok; [done|done| | |done]; apply Hop; set_solver.
  - eapply x_getptr_ok; [done|done|done|done| | |done]; apply Hop; set_solver.
  - eapply x_getelemptr_ok; [done|done|done|done| | |done]; apply Hop; set_solver.
  - eapply x_binary_ok; [done|done|done| | |done]; apply Hop; set_solver.
  - eapply x_call_ok; [done|done|done|done|exact Hop|done].
Qed.
Lemma x_eval_int fd k v d z F W x W1 : (∃ f, p_funcs p !! f = Some fd) → vals fd !! v = Some d → v_kind d = KInteger z →
  x_eval p vars k fd F v W = XOk (x, W1) → x = XInt z.
Proof.
  intros Hf Hd Hk H. destruct (x_eval_const fd k v d F W x W1 Hf Hd) as (n & m & Hc); [by rewrite Hk|done|].
  destruct k as [|k]; [done|]. cbn [x_const] in Hc. rewrite Hd in Hc. cbn [xneed mbind xres_bind] in Hc.
  rewrite Hk in Hc. by injection Hc as <- _.
Qed.
(** An instruction without effect whose result nobody uses *)
Lemma x_inst_l go fd fd' fuel v d J W W' F F' W1 F1 : srel fd fd' J W W' F F' →
  pair fd fd' → vals fd !! v = Some d → (∀ d', vals fd' !! v = Some d' → computed fd (c_checks C) d d') → ¬ effectful (v_kind d) →
  x_inst C p vars go fuel fd v d W F = XOk (W1, F1) →
  srel fd fd' J W1 W' F1 F' ∧ (x_next W ≤ x_next W1)%N.
Proof.
  intros HS HP Hd Hcm He H.
  assert (¬ same fd fd' v) as Hns.
  { intros Hs. pose proof Hs as (? & d' & _ & Hd' & _). eapply same_not_folded; [exact Hs|exact Hd|exact Hd'|].
    by eapply computed_folded, Hcm. }
  assert (Hins : ∀ J W W' F F' x, srel fd fd' J W W' F F' → (∀ op l r, v_kind d ≠ KBinary op l r) →
    srel fd fd' J W W' (x_insert v x F) F').
  { intros ? ? ? ? ? ? HS1 Hb. apply srel_insert_l; [done|done|]. intros ? d' _ Hd' _.
    exfalso. destruct (Hcm _ Hd') as (op & l & r & ? & ? & ? & ? & Hk & _). by eapply Hb. }
  unfold x_inst in H. destruct (v_kind d) as [| | | | | | | | | | | |op l r| | | |] eqn:Ek; try done; try (exfalso; by apply He).
  - unfold x_alloc in H. destruct (v_ty d) as [| | |base|]; try done.
    apply xbind_ok in H as ([x m] & Hx & [= <- <-]). apply x_zeroinit_le in Hx.
    simpl. split; [|lia].
    pose proof (wrel_upto_l _ _ _ _ (sr_w _ _ _ _ _ _ _ HS) Hx) as HW1.
    destruct HS as [T1 T2 [A1 A2 A3 A4] T4]. constructor; [exact (wrel_box_l _ _ _ x HW1)|done| |].
    2: { intros w e e' y He1 He2 Hf Hy; simpl in Hy; revert Hy; intros [[<- _]|[_ Hy]]%lookup_insert_Some; [|by eapply T4].
      destruct (Hcm _ He2) as (op & l & r & ? & ? & ? & ? & Hk & _). by rewrite Ek in Hk. }
    constructor; simpl.
    + intros w y Hw [[<- <-]|[Hne Hy]]%lookup_insert_Some; [done|]. by apply A1.
    + intros b b' Hb. rewrite elem_of_app, elem_of_list_singleton, <- (A2 _ _ Hb).
      pose proof (fi_dom _ _ _ (wr_fine _ _ _ T1) _ _ Hb) as [L _]. split; [|by left]. intros [?|?]; [done|lia].
    + intros b [Hb%A3|Hb%elem_of_list_singleton]%elem_of_app; lia.
    + done.
  - apply xbind_ok in H as ([s W0] & Hs & H). destruct (x_eval_l _ _ _ _ _ _ _ _ _ _ _ HS Hs) as (HS0 & L & _).
    destruct s as [| | |[q|] i l|[a|]]; try done. apply xbind_ok in H as (x & _ & H).
    pose proof (xclone_le x (x_next W0)) as L2. destruct (xclone x (x_next W0)) as [y n]. injection H as <- <-. simpl in *.
    split; [|lia]. apply Hins; [|done]. eapply srel_step; [done| |apply wrel_upto_l; [apply HS0|done]].
    apply grows_le; [apply HS0|done|lia].
  - apply xbind_ok in H as ([i W0] & Hi & H). destruct (x_eval_l _ _ _ _ _ _ _ _ _ _ _ HS Hi) as (HS0 & L & _).
    destruct i; try done. apply xbind_ok in H as (sz & _ & ([s W2] & Hs & (x & _ & [= <- <-])%xbind_ok)%xbind_ok).
    destruct (x_eval_l _ _ _ _ _ _ _ _ _ _ _ HS0 Hs) as (HS2 & L2 & _). split; [by apply Hins|lia].
  - apply xbind_ok in H as ([i W0] & Hi & H). destruct (x_eval_l _ _ _ _ _ _ _ _ _ _ _ HS Hi) as (HS0 & L & _).
    destruct i; try done. apply xbind_ok in H as (sz & _ & ([s W2] & Hs & (x & _ & [= <- <-])%xbind_ok)%xbind_ok).
    destruct (x_eval_l _ _ _ _ _ _ _ _ _ _ _ HS0 Hs) as (HS2 & L2 & _). split; [by apply Hins|lia].
  - apply xbind_ok in H as ([x W0] & Hx & ([s W2] & Hs & H)%xbind_ok).
    destruct (x_eval_l _ _ _ _ _ _ _ _ _ _ _ HS Hx) as (HS0 & L & _).
    destruct (x_eval_l _ _ _ _ _ _ _ _ _ _ _ HS0 Hs) as (HS2 & L2 & _).
    destruct x as [|a| | |]; try done. destruct s as [|b| | |]; try done. apply xbind_ok in H as (c & Hc%xneed_ok & [= <- <-]).
    split; [|lia]. apply srel_insert_l; [done|done|]. intros ? d' _ Hd' _.
    pose proof (pair_delta _ _ _ _ _ HP Hd Hd' (computed_folded _ _ _ _ (Hcm _ Hd'))) as Hb.
    assert (∃ f, p_funcs p !! f = Some fd) as Hex by (destruct HP as (f & ? & _); by exists f).
    destruct (Hcm _ Hd') as (op1 & l1 & r1 & dl & dr & a1 & b1 & Hk & Hdl & Hdr & Hka & Hkb & Hres). rewrite Ek in Hk. injection Hk as <- <- <-.
    pose proof (x_eval_int _ _ _ _ _ _ _ _ _ Hex Hdl Hka Hx) as Ha. injection Ha as ->.
    pose proof (x_eval_int _ _ _ _ _ _ _ _ _ Hex Hdr Hkb Hs) as Hb'. injection Hb' as ->.
    rewrite Hc in Hres. destruct Hres as [(c1 & Hk' & [= ->])|[_ ?]]; [|done].
    intros g Hg. destruct g as [|g]; [lia|]. cbn [x_const]. rewrite Hd'. cbn [xneed mbind xres_bind]. rewrite Hk'.
    exact (makes_same ∅ (XInt c1) (λ J, eq_refl)).
Qed.
Definition ends (k : vkind) : bool :=
  match k with KBranch _ _ _ _ _ | KJump _ _ | KReturn _ => true | _ => false end.
Lemma x_insts_inst go fuel fd v is d (W : xworld E) F q (vs : gmap N xval) : vals fd !! v = Some d → ends (v_kind d) = false →
  x_insts C q vs go fuel fd (v :: is) W F =
  ('(W1, F1) ← x_inst C q vs go fuel fd v d W F; x_insts C q vs go fuel fd is W1 F1).
Proof. intros Hd He. cbn [x_insts]. rewrite Hd. cbn [xneed mbind xres_bind]. by destruct (v_kind d). Qed.
Lemma x_insts_ok go go' fuel : (fuel ≤ bound)%nat → runs go go' → runs (x_insts C p vars go fuel) (x_insts C p' vars' go' (delta + fuel)).
Proof.
  intros Hfuel HR fd fd' is is' J W W' F F' x W2 F2 HP HT. revert J W W' F F' x W2 F2.
  induction HT as [|v is is' Hv HT IH|v d is is' Hd Hne Hcm HT IH]; intros J W W' F F' x W2 F2 HS H; [done| |].
  - destruct Hv as (d & d' & Hd & Hd' & Hs). destruct (ends (v_kind d)) eqn:He.
    + pose proof (λ u, of_op _ _ _ (pair_opt _ _ HP) v d d' u Hd Hd' Hs) as Hop. destruct Hs as [Ht Hk].
      cbn [x_insts] in H |- *. rewrite Hd in H. rewrite Hd'. cbn [xneed mbind xres_bind] in H |- *.
      destruct (v_kind d) as [| | | | | | | | | | | | |c t f ta fa|t args| |o]; try done; cbn [same_kind] in Hk.
      * destruct Hk as (ta' & fa' & Hk & Hgt & Hgf). rewrite Hk in Hop |- *.
        apply xbind_ok in H as ([y W1] & Hy & H).
        destruct (x_eval_ok _ _ _ _ _ _ _ _ _ _ _ HP HS (Hop c ltac:(simpl; set_solver)) Hy) as (y' & W1' & J1 & E1 & G1 & HS1 & R1).
        rewrite E1. cbn [mbind xres_bind].
        assert (x_bool y' = x_bool y) as ->.
        { destruct y; [by apply vrel_undef_inv in R1 as ->|by apply vrel_int_inv in R1 as ->| | |].
          - by apply vrel_arr_inv in R1 as (? & ? & -> & _).
          - by apply vrel_ptr_inv in R1 as (? & -> & _).
          - by apply vrel_raw_inv in R1 as ->. }
        destruct (x_bool y).
        -- destruct (x_goto_ok go go' fd fd' fuel t ta ta' J1 W1 W1' F F' x W2 F2 HR HP Hfuel HS1 Hgt H)
             as (x' & W2' & F2' & J2 & E2 & G2 & HS2 & R2).
           exists x', W2', F2', J2. split; [done|]. split; [by eapply grows_trans|done].
        -- destruct (x_goto_ok go go' fd fd' fuel f fa fa' J1 W1 W1' F F' x W2 F2 HR HP Hfuel HS1 Hgf H)
             as (x' & W2' & F2' & J2 & E2 & G2 & HS2 & R2).
           exists x', W2', F2', J2. split; [done|]. split; [by eapply grows_trans|done].
      * destruct Hk as (args' & Hk & Hg). rewrite Hk.
        exact (x_goto_ok go go' fd fd' fuel t args args' J W W' F F' x W2 F2 HR HP Hfuel HS Hg H).
      * rewrite Hk in Hop |- *. destruct o as [r|].
        -- apply xbind_ok in H as ([y W1] & Hy & [= <- <- <-]).
           destruct (x_eval_ok _ _ _ _ _ _ _ _ _ _ _ HP HS (Hop r ltac:(simpl; set_solver)) Hy) as (y' & W1' & J1 & E1 & G1 & HS1 & R1).
           exists y', W1', F', J1. rewrite E1. done.
        -- injection H as <- <- <-. exists XUndef, W', F', J. split; [done|]. split; [apply grows_refl, HS|done].
    + rewrite (x_insts_inst _ _ _ _ _ _ _ _ _ _ Hd He) in H.
      assert (ends (v_kind d') = false) as He'.
      { destruct Hs as [_ Hk]. destruct (v_kind d); try done; simpl in Hk; by rewrite Hk. }
      rewrite (x_insts_inst _ _ _ _ _ d') by done.
      apply xbind_ok in H as ([W1 F1] & H1 & H).
      destruct (x_inst_ok _ _ _ _ _ _ _ _ _ _ _ _ _ _ _ HR HP HS Hd Hd' Hs H1) as (W1' & F1' & J1 & E1 & G1 & HS1).
      destruct (IH _ _ _ _ _ _ _ _ HS1 H) as (x' & W2' & F2' & J2 & E2 & G2 & HS2 & R2).
      exists x', W2', F2', J2. rewrite E1. split; [done|]. split; [by eapply grows_trans|done].
  - assert (ends (v_kind d) = false) as He by (destruct (v_kind d); try done; exfalso; by apply Hne).
    rewrite (x_insts_inst _ _ _ _ _ _ _ _ _ _ Hd He) in H. apply xbind_ok in H as ([W1 F1] & H1 & H).
    destruct (x_inst_l _ _ _ _ _ _ _ _ _ _ _ _ _ HS HP Hd Hcm Hne H1) as [HS1 L].
    destruct (IH _ _ _ _ _ _ _ _ HS1 H) as (x' & W2' & F2' & J2 & E2 & G2 & HS2 & R2).
    exists x', W2', F2', J2. split; [done|]. split; [|done]. eapply grows_trans; [|exact G2].
    apply grows_le; [apply HS|done|lia].
Qed.
Lemma x_bb_ok fuel : (fuel ≤ bound)%nat → runs (x_bb C p vars fuel) (x_bb C p' vars' (delta + fuel)).
Proof.
  induction fuel as [|k IH]; intros Hf; [intros ? ? ? ? ? ? ? ? ? ? ? ? ? ? ? H; discriminate H|].
  rewrite Nat.add_succ_r. apply x_insts_ok; [lia|]. apply IH. lia.
Qed.
End opt.

(** ** Programs *)
Lemma x_globals_ok {E} (C : xconfig E) p p' delta fuel l : opt_program (c_checks C) p p' → ∀ vars vars' J (W W' : xworld E) vars1 W1,
  wrel J W W' → varsrel vars vars' J → x_globals fuel p l vars W = XOk (vars1, W1) →
  ∃ vars1' W1' J1, x_globals (delta + fuel) p' l vars' W' = XOk (vars1', W1') ∧ wrel J1 W1 W1' ∧ varsrel vars1 vars1' J1.
Proof.
  intros Hcp. induction l as [|v l IH]; intros vars vars' J W W' vars1 W1 HW HV H.
  - injection H as <- <-. by exists vars', W', J.
  - cbn [x_globals] in H |- *. apply xbind_ok in H as (d & Hd%xneed_ok & H).
    destruct (global_kind C _ _ Hcp _ _ Hd) as (d' & -> & _ & Hk). cbn [xneed mbind xres_bind]. rewrite Hk.
    destruct (v_kind d) as [| | | | | | |init| | | | | | | | |]; try done.
    apply xbind_ok in H as ([x n] & Hx & H).
    destruct (x_const_ok J _ _ (globals_maps C _ _ Hcp) fuel (delta + fuel)%nat init) with (J := J) (n := x_next W) (n' := x_next W') (x := x) (m := n)
      as (x' & n' & J1 & Hx' & G1 & R1); [lia| |done|apply HW|done|].
    { intros [e He]. destruct (global_kind C _ _ Hcp _ _ He) as (e' & He' & _). by exists e'. }
    rewrite Hx'. cbn [mbind xres_bind]. unfold x_box in *. cbv zeta in *.
    pose proof (wrel_upto _ _ _ _ _ _ HW G1) as HW1. pose proof (wrel_box _ _ _ _ _ HW1 R1) as HW2.
    assert (grows J1 n n' (<[n := n']> J1) (n + 1) (n' + 1)) as G2 by (apply grows_new, HW1).
    eapply IH; [exact HW2| |exact H].
    intros w. destruct (decide (w = v)) as [->|Hne].
    + rewrite !lookup_insert. constructor. split; [|done]. constructor. split; [|constructor].
      simpl. by rewrite lookup_insert.
    + rewrite !lookup_insert_ne by done. eapply ovrel_mono; [|apply HV].
      etrans; [apply G1|apply G2].
Qed.
Lemma x_globals_keys {E} fuel p l : ∀ vars (W : xworld E) vars1 W1, x_globals fuel p l vars W = XOk (vars1, W1) →
  ∀ v, is_Some (vars1 !! v) → is_Some (vars !! v) ∨ is_Some (p_values p !! v).
Proof.
  induction l as [|u l IH]; intros vars W vars1 W1 H v Hv; [injection H as <- <-; by left|].
  cbn [x_globals] in H. apply xbind_ok in H as (d & Hd%xneed_ok & H).
  destruct (v_kind d) as [| | | | | | |init| | | | | | | | |]; try done.
  apply xbind_ok in H as ([x n] & Hx & H). unfold x_box in H. cbv zeta in H.
  destruct (IH _ _ _ _ H v Hv) as [[y [[<- _]|[_ Hy]]%lookup_insert_Some]|Hp]; [right; by exists d|left; by exists y|by right].
Qed.
Lemma x_main_in p order fd : x_main p order = Some fd → ∃ f, f ∈ order ∧ p_funcs p !! f = Some fd ∧ f_name fd = "@main"%string.
Proof.
  induction order as [|f order IH]; [done|]. cbn [x_main]. intros H.
  destruct (p_funcs p !! f) as [gd|] eqn:Hf.
  - destruct (String.eqb (f_name gd) "@main") eqn:En.
    + injection H as <-. apply String.eqb_eq in En. exists f. split; [by left|done].
    + destruct (IH H) as (g & Hg & H'). exists g. split; [by right|done].
  - destruct (IH H) as (g & Hg & H'). exists g. split; [by right|done].
Qed.
Lemma x_main_some p order f fd : f ∈ order → p_funcs p !! f = Some fd → f_name fd = "@main"%string →
  (∀ g gd, p_funcs p !! g = Some gd → f_name gd = "@main"%string → g = f) → x_main p order = Some fd.
Proof.
  intros Hin Hf Hn Hu. induction order as [|g order IH]; [inversion Hin|]. cbn [x_main].
  destruct (p_funcs p !! g) as [gd|] eqn:Hg.
  - destruct (String.eqb (f_name gd) "@main") eqn:En.
    + apply String.eqb_eq in En. rewrite (Hu g gd) in Hg by done. rewrite Hf in Hg. done.
    + apply IH. apply elem_of_cons in Hin as [->|?]; [|done]. rewrite Hf in Hg. injection Hg as <-.
      by rewrite Hn in En.
  - apply IH. apply elem_of_cons in Hin as [->|?]; [|done]. by rewrite Hf in Hg.
Qed.
Lemma interpret_opt {E} (C : xconfig E) delta fuel order order' p p' e z e1 :
  opt_program (c_checks C) p p' →
  (∀ f fd v, p_funcs p !! f = Some fd → is_Some (p_values p !! v) → vals fd !! v = None) →
  (fuel < delta)%nat ∨ nothing_folded p p' →
  (∀ f g fd gd, p_funcs p !! f = Some fd → p_funcs p !! g = Some gd → f_name fd = f_name gd → f = g) →
  (∀ f, f ∈ order → is_Some (p_funcs p !! f) → f ∈ order') →
  interpret C fuel order p e = XOk (z, e1) → interpret C (delta + fuel) order' p' e = XOk (z, e1).
Proof.
  intros Hcp Hsep Hbd Hun Hord ([vars W] & Hg & H)%xbind_ok.
  destruct (x_globals_ok C p p' delta fuel (p_inst_layout p) Hcp ∅ ∅ ∅ (XWorld ∅ 0 e) (XWorld ∅ 0 e) vars W) as (vars' & W' & J & Hg' & HW & HV).
  - constructor; simpl; [apply fine_empty|done| |done|done]. intros ? ?. by rewrite lookup_empty.
  - intros v. rewrite lookup_empty. constructor.
  - exact Hg.
  - assert (Hvars : ∀ f fd v, p_funcs p !! f = Some fd → is_Some (vals fd !! v) → vars !! v = None).
    { intros f fd v Hf [d Hd]. destruct (vars !! v) eqn:Ev; [|done].
      destruct (x_globals_keys _ _ _ _ _ _ _ Hg v) as [[y Hy]|Hp]; [by eauto|by rewrite lookup_empty in Hy|].
      by rewrite (Hsep _ _ _ Hf Hp) in Hd. }
    unfold interpret. rewrite (op_inst _ _ _ Hcp), Hg'. cbn [mbind xres_bind].
    destruct (x_main p order) as [fd|] eqn:Hm; [|done].
    destruct (x_main_in _ _ _ Hm) as (f & Hf & Hfd & Hname).
    destruct (pair_get C _ _ Hcp _ _ Hfd) as (fd' & Hfd' & HP).
    rewrite (x_main_some p' order' f fd').
    + apply xbind_ok in H as ([x W1] & Hx & H).
      destruct (x_func_ok C p p' vars vars' Hcp delta _ _ fd fd' [] [] J W W' x W1
        (x_bb_ok C p p' vars vars' Hcp Hsep Hvars delta fuel Hbd fuel (le_n _)) HP (Forall2_nil _) HW HV Hx) as (x' & W1' & J1 & Hx' & G & HW1 & R).
      rewrite Hx'. cbn [mbind xres_bind]. destruct x as [|y| | |]; try done.
      apply vrel_int_inv in R as ->. injection H as <- <-. by rewrite (wr_extern _ _ _ HW1).
    + apply Hord; [done|]. by exists fd.
    + done.
    + by rewrite (of_name _ _ _ (pair_opt C _ _ Hcp _ _ HP)).
    + intros g gd' Hgd' Hn. destruct (p_funcs p !! g) as [gd|] eqn:Hgd.
      * destruct (pair_get C _ _ Hcp _ _ Hgd) as (gd2 & Hgd2 & HP2). rewrite Hgd' in Hgd2. injection Hgd2 as <-.
        apply (Hun g f gd fd); [done..|]. rewrite Hname, <- Hn. symmetry. apply (of_name _ _ _ (pair_opt C _ _ Hcp _ _ HP2)).
      * pose proof (op_funcs _ _ _ Hcp g) as Hc. by rewrite Hgd, Hgd' in Hc.
Qed.
