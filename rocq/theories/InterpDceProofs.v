(** Dead code elimination and the example interpreter (C54). *)
From Coq Require Import Lia.
From Verif Require Import Base IdModel TypeModel IrModel LayoutModel ArithModel InterpModel UsesSpec DfgSpec LayoutSpec DceSpec
  InterpSimProofs InterpOptProofs.

Section dce.
Context (p p' : program) (checks : bool).
Context (Hcp : cleaned_program p p') (Hnd : no_dangling p') (Hsep : separated p) (Hsh : shapes_ok p).
Context (Hpar : ∀ f fd q d, p_funcs p !! f = Some fd → q ∈ f_params fd → vals fd !! q = Some d →
  ¬ removable (v_kind d)).

Lemma global_same v : is_Some (p_values p' !! v) → is_Some (p_values p !! v).
Proof.
  pose proof (cp_values _ _ Hcp v) as H. intros [d Hd]. rewrite Hd in H.
  destruct (p_values p !! v); [by eauto|done].
Qed.
Context (f : func) (fd fd' : fdata) (Hf : p_funcs p !! f = Some fd) (Hf' : p_funcs p' !! f = Some fd').
Lemma pair_cleaned : cleaned fd fd'.
Proof. pose proof (cp_funcs _ _ Hcp f) as H. by rewrite Hf, Hf' in H. Qed.
Lemma op_alive u d' e : vals fd' !! u = Some d' → e ∈ operands (v_kind d') → operand fd fd' e.
Proof.
  intros Hu He Hs. destruct Hnd as (_ & D & _).
  destruct (D f fd' u e Hf') as [Hg|Hl]; [by exists d'| |done].
  apply global_same in Hg. apply (sp_global _ Hsep _ _ _ Hf) in Hg. rewrite Hg in Hs. by destruct Hs.
Qed.
Lemma binds_still ps : ∀ args, (∀ q, q ∈ ps → ∃ d i, vals fd !! q = Some d ∧ v_kind d = KBlockArg i) →
  (∀ a, a ∈ still (vals fd') ps args → operand fd fd' a) →
  binds fd fd' ps args (filter (alive (vals fd')) ps) (still (vals fd') ps args).
Proof.
  induction ps as [|q ps IH]; intros args Hp Ho; [apply B_none|]. destruct args as [|a args]; [apply B_end|].
  cbn [still] in *. destruct (decide (alive (vals fd') q)) as [Hq|Hq].
  - rewrite filter_cons_True by done. destruct Hq as [d' Hd'].
    destruct (Hp q) as (d & i & Hd & Hk); [by left|].
    destruct (proj1 (cl_shrunk _ _ pair_cleaned) _ _ Hd') as (d0 & H0 & Ht & _ & Hk'). rewrite Hd in H0. injection H0 as <-.
    eapply B_keep; [exact Hd|exact Hd'|exact Hk|by rewrite Hk', Hk|done|apply Ho; by left|].
    apply IH; [|intros b Hb; apply Ho; by right]. intros r Hr. apply Hp. by right.
  - rewrite filter_cons_False by done. apply B_drop; [done|]. apply IH; [|done]. intros r Hr. apply Hp. by right.
Qed.
Lemma goes_still b args : (∀ a, a ∈ still_passed (vals fd') (blks fd) b args → operand fd fd' a) →
  goes fd fd' b args (still_passed (vals fd') (blks fd) b args).
Proof.
  intros Ho bd Hbd. pose proof (proj2 (cl_shrunk _ _ pair_cleaned) b) as Hb. rewrite Hbd in Hb.
  destruct (blks fd' !! b) as [bd'|]; [|done]. simpl in Hb. injection Hb as _ Hps. exists bd'. split; [done|].
  unfold still_passed in *. rewrite Hbd in *. rewrite Hps. apply binds_still; [|done].
  intros q Hq. by eapply (so_param _ _ _ (Hsh _ _ Hf)).
Qed.
Lemma kept_same v d d' : vals fd !! v = Some d → vals fd' !! v = Some d' → same_as fd fd' d d'.
Proof.
  intros Hd Hd'. destruct (proj1 (cl_shrunk _ _ pair_cleaned) _ _ Hd') as (d0 & H0 & Ht & _ & Hk).
  rewrite Hd in H0. injection H0 as <-. split; [done|]. pose proof (λ u, op_alive _ _ u Hd') as Ho. rewrite Hk in Ho |- *.
  destruct (v_kind d); try done; cbn [trimmed same_kind operands] in *.
  - eexists _, _. split; [done|]. split; apply goes_still; intros a Ha; apply Ho; set_solver.
  - eexists. split; [done|]. apply goes_still. intros a Ha. by apply Ho.
Qed.
Lemma thins_alive is : (∀ v, v ∈ is → is_Some (vals fd !! v)) → thins fd fd' checks is (filter (alive (vals fd')) is).
Proof.
  induction is as [|v is IH]; intros H; [apply T_nil|]. destruct (H v) as [d Hd]; [by left|].
  assert (thins fd fd' checks is (filter (alive (vals fd')) is)) as HT by (apply IH; intros w Hw; apply H; by right).
  destruct (decide (alive (vals fd') v)) as [Hv|Hv].
  - rewrite filter_cons_True by done. apply T_keep; [|done]. destruct Hv as [d' Hd']. exists d, d'.
    split_and!; [done..|]. by eapply kept_same.
  - rewrite filter_cons_False by done. eapply T_drop; [exact Hd| | |done].
    + intros He. apply Hv, (cl_needed _ _ pair_cleaned). by eapply N_effect.
    + intros d' Hd'. exfalso. apply Hv. by exists d'.
Qed.
Lemma cleaned_opt : opt_fun fd fd' checks.
Proof.
  constructor; try apply pair_cleaned.
  - intros q Hq [d Hd]. destruct (cl_kept _ _ pair_cleaned _ _ Hd) as [[d' Hd']|Hr].
    + exists d, d'. split_and!; [done..|]. by eapply kept_same.
    + exfalso. by eapply Hpar.
  - intros v d d' Hd Hd'. left. by eapply kept_same.
  - intros v d d' e Hd Hd' _. by apply op_alive with v.
  - rewrite (proj1 (cl_listed _ _ pair_cleaned)). apply Forall2_fmap_r.
    assert (∀ b is, (b, is) ∈ l_bbs (f_layout fd) → ∀ v, v ∈ is → is_Some (vals fd !! v)) as HL.
    { intros b is Hb v Hv. destruct (so_listed _ _ _ (Hsh _ _ Hf) v b) as (d & Hd & _); [by exists is|by exists d]. }
    revert HL. generalize (l_bbs (f_layout fd)). intros l. induction l as [|[b is] l IH]; intros HL; constructor.
    + split; [done|]. apply thins_alive. apply (HL b). by left.
    + apply IH. intros c js Hc. apply (HL c). by right.
Qed.
End dce.

Lemma cleaned_opt_program checks p p' : cleaned_program p p' → no_dangling p' → separated p → shapes_ok p →
  (∀ f fd q d, p_funcs p !! f = Some fd → q ∈ f_params fd → vals fd !! q = Some d → ¬ removable (v_kind d)) →
  opt_program checks p p' ∧ nothing_folded p p'.
Proof.
  intros Hcp Hnd Hsep Hsh Hpar. split.
  - split; [|apply Hcp|].
    { intros v. pose proof (cp_values _ _ Hcp v) as H. destruct (p_values p !! v), (p_values p' !! v); try done.
      simpl in *. injection H as H1 H2 H3. by rewrite H1, H3. }
    intros f. pose proof (cp_funcs _ _ Hcp f) as H.
    destruct (p_funcs p !! f) eqn:Hf, (p_funcs p' !! f) eqn:Hf'; try done. by eapply cleaned_opt.
  - intros f fd fd' v d d' Hf Hf' Hd Hd' Hfo. eapply same_folded; [|exact Hfo]. by eapply kept_same.
Qed.
Lemma interpret_cleaned {E} (C : xconfig E) fuel order order' p p' e z e1 :
  cleaned_program p p' → no_dangling p' → separated p → shapes_ok p →
  (∀ f fd q d, p_funcs p !! f = Some fd → q ∈ f_params fd → vals fd !! q = Some d → ¬ removable (v_kind d)) →
  (∀ f g fd gd, p_funcs p !! f = Some fd → p_funcs p !! g = Some gd → f_name fd = f_name gd → f = g) →
  (∀ f, f ∈ order → is_Some (p_funcs p !! f) → f ∈ order') →
  interpret C fuel order p e = XOk (z, e1) → interpret C fuel order' p' e = XOk (z, e1).
Proof.
  intros Hcp Hnd Hsep Hsh Hpar Hun Hord.
  destruct (cleaned_opt_program (c_checks C) _ _ Hcp Hnd Hsep Hsh Hpar) as [HO HN].
  apply (interpret_opt C 0 fuel order order' p p' e z e1 HO); [apply Hsep|by right|done|done].
Qed.
