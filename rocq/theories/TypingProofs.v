(** Builders against the type rules (C11, first part). *)
From Verif Require Import Base IdModel TypeModel IrModel BuilderModel WorldModel UsesSpec DfgSpec
  WorldSpec TypingSpec TypeProofs DfgProofs.
From Coq Require Import Lia.

(** The environment a querier describes. *)
Definition env_of (q : querier) : env :=
  Env (q_type q) (λ v, match q_const q v with Some b => b | None => false end)
      (q_bb_params q) (q_func_type q).

(** A querier that knows the constness of exactly the values of which it knows the
    type. *)
Definition q_ok (q : querier) : Prop := ∀ v, is_Some (q_type q v) ↔ is_Some (q_const q v).

Lemma is_i32_eq t : is_i32 t = true ↔ t = TInt32.
Proof. by destruct t. Qed.
Lemma is_unit_eq t : is_unit t = true ↔ t = TUnit.
Proof. by destruct t. Qed.
Lemma not_unit t : negb (is_unit t) = true ↔ t ≠ TUnit.
Proof. by destruct t. Qed.

Lemma all_const_true q l :
  all_const q l = Some true ↔ ∀ e, e ∈ l → q_const q e = Some true.
Proof.
  induction l as [|e l IH]; simpl.
  - split; [intros _ e He; inversion He|done].
  - destruct (q_const q e) as [[]|] eqn:E.
    + rewrite IH. split.
      * intros H x [->|Hx]%elem_of_cons; auto.
      * intros H x Hx. apply H. by right.
    + split; [done|]. intros H. specialize (H e ltac:(by left)). congruence.
    + split; [done|]. intros H. specialize (H e ltac:(by left)). congruence.
Qed.

Lemma windows_eq_true q a l t :
  q_type q a = Some t →
  windows_eq q (a :: l) = Some true ↔ ∀ e, e ∈ l → q_type q e = Some t.
Proof.
  revert a. induction l as [|b l IH]; intros a Ha.
  - simpl. split; [intros _ e He; inversion He|done].
  - change (windows_eq q (a :: b :: l)) with
      (ta ← q_type q a; tb ← q_type q b;
       if ty_eqb ta tb then windows_eq q (b :: l) else Some false).
    rewrite Ha. cbn [mbind option_bind].
    destruct (q_type q b) as [tb|] eqn:Hb; cbn [mbind option_bind].
    + destruct (ty_eqb t tb) eqn:Et.
      * apply ty_eqb_eq in Et as <-. rewrite (IH b Hb). split.
        -- intros H e [->|He]%elem_of_cons; auto.
        -- intros H e He. apply H. by right.
      * split; [done|]. intros H. specialize (H b ltac:(by left)). rewrite Hb in H.
        injection H as ->. assert (ty_eqb t t = true) by by apply ty_eqb_eq. congruence.
    + split; [done|]. intros H. specialize (H b ltac:(by left)). congruence.
Qed.

Lemma zip_types_spec q ps args :
  length ps = length args →
  is_Some (zip_types q ps args) ↔
  Forall2 (λ p a, ∃ t, q_type q p = Some t ∧ q_type q a = Some t) ps args.
Proof.
  revert args. induction ps as [|p ps IH]; intros [|a args] Hl; simpl in *; try done.
  injection Hl as Hl. split.
  - intros [u H]. apply bind_Some in H as (tp & Hp & H). apply bind_Some in H as (ta & Ha & H).
    apply bind_Some in H as ([] & Hq & H). apply assert_Some, ty_eqb_eq in Hq as <-.
    constructor; [by eauto|]. apply IH; [done|by eexists].
  - intros H. inversion H as [|? ? ? ? (t & Hp & Ha) H2]; subst. rewrite Hp, Ha. simpl.
    assert (ty_eqb t t = true) as -> by by apply ty_eqb_eq. simpl. by apply IH.
Qed.

Lemma check_bb_spec q ps args :
  is_Some (check_bb_arg_types q ps args) ↔
  Forall2 (λ p a, ∃ t, q_type q p = Some t ∧ q_type q a = Some t) ps args.
Proof.
  unfold check_bb_arg_types. destruct (Nat.eqb_spec (length ps) (length args)) as [Hl|Hl]; simpl.
  - by apply zip_types_spec.
  - split; [by intros [? [=]]|]. intros H%Forall2_length. done.
Qed.

Lemma check_call_spec q ps args :
  length ps = length args →
  is_Some (check_call_args q ps args) ↔ Forall2 (λ t a, q_type q a = Some t) ps args.
Proof.
  revert args. induction ps as [|t ps IH]; intros [|a args] Hl; simpl in *; try done.
  injection Hl as Hl. split.
  - intros [u H]. apply bind_Some in H as (ta & Ha & H).
    apply bind_Some in H as ([] & Hq & H). apply assert_Some, ty_eqb_eq in Hq as <-.
    constructor; [done|]. apply IH; [done|by eexists].
  - intros H. inversion H as [|? ? ? ? Ha H2]; subst. rewrite Ha. simpl.
    assert (ty_eqb t t = true) as -> by by apply ty_eqb_eq. simpl. by apply IH.
Qed.

Ltac inv_build H :=
  repeat match type of H with
  | (_ ≫= _) = Some _ =>
      let x := fresh "x" in let Hx := fresh "Hx" in apply bind_Some in H as (x & Hx & H)
  | Some _ = Some _ => injection H as H
  end.

Lemma build_sound q r d :
  build q r = Some d →
  d = new_vdata (v_ty d) (requested r) ∧ has_type (env_of q) (requested r) (v_ty d) ∧
  requested_ty r (v_ty d).
Proof.
  intros H. destruct r as [z|t|t|l|v|t|v|v dst|s i|s i|op a b|c t f|c t f ta fa|t|t a|c a|[v|]];
    simpl in H.
  - injection H as <-. split; [done|]. split; [constructor|done].
  - unfold mk_zero_init in H. inv_build H. apply assert_Some, not_unit in Hx. subst d.
    split; [done|]. split; [by constructor|done].
  - unfold mk_undef in H. inv_build H. apply assert_Some, not_unit in Hx. subst d.
    split; [done|]. split; [by constructor|done].
  - unfold mk_aggregate in H. inv_build H.
    rename x0 into c, Hx0 into Hc, x2 into w, Hx2 into Hw, x4 into e0, Hx4 into He0,
      x5 into base, Hx5 into Hbase, x7 into t, Hx7 into Ht.
    apply assert_Some in Hx, Hx1, Hx3, Hx6. subst. apply not_unit in Hx6.
    destruct l as [|e l]; [done|]. injection He0 as ->.
    unfold get_array in Ht. destruct (N.eqb_spec (N.of_nat (length (e0 :: l))) 0); [done|].
    injection Ht as <-. split; [done|]. split; [|done]. simpl. constructor; [done|done|].
    rewrite all_const_true in Hc. rewrite windows_eq_true in Hw by done.
    intros y Hy. split; [|simpl; by rewrite (Hc y Hy)].
    apply elem_of_cons in Hy as [->|Hy]; [done|]. by apply Hw.
  - unfold mk_global_alloc in H. inv_build H. apply assert_Some, not_unit in Hx0. subst d.
    split; [done|]. split; [by constructor|done].
  - unfold mk_alloc in H. inv_build H. apply assert_Some, not_unit in Hx. subst d.
    split; [done|]. split; [by constructor|done].
  - unfold mk_load in H. inv_build H. destruct x; try done. injection H as <-.
    split; [done|]. split; [by constructor|done].
  - unfold mk_store in H. inv_build H. apply assert_Some, ty_eqb_eq in Hx1. subst.
    split; [done|]. split; [by econstructor|done].
  - unfold mk_get_ptr in H. inv_build H. apply assert_Some in Hx0, Hx2. subst.
    apply is_i32_eq in Hx2. subst. destruct x; try done.
    split; [done|]. split; [by econstructor|done].
  - unfold mk_get_elem_ptr in H. inv_build H. apply assert_Some, is_i32_eq in Hx0. subst.
    destruct x1 as [| | |[]|]; try done. injection H as <-.
    split; [done|]. split; [by econstructor|done].
  - unfold mk_binary in H. inv_build H. apply assert_Some in Hx1. subst.
    apply andb_true_iff in Hx1 as [->%is_i32_eq <-%ty_eqb_eq].
    split; [done|]. split; [by econstructor|done].
  - unfold mk_branch in H. inv_build H. apply assert_Some in Hx0, Hx2, Hx4. subst.
    apply is_i32_eq in Hx0. subst. destruct x1; [|done]. destruct x3; [|done].
    split; [done|]. split; [|done]. constructor; [done|by exists []|by exists []|done].
  - unfold mk_branch_with_args in H. inv_build H. apply assert_Some in Hx0, Hx1. subst.
    apply is_i32_eq in Hx0. subst.
    assert (is_Some (check_bb_arg_types q x2 ta)) as H1%check_bb_spec by eauto.
    assert (is_Some (check_bb_arg_types q x4 fa)) as H2%check_bb_spec by eauto.
    split; [done|]. split; [|done]. constructor; [done|by eexists|by eexists|].
    intros ->. rewrite N.eqb_refl in Hx1. simpl in Hx1. by destruct ta, fa.
  - unfold mk_jump in H. inv_build H. apply assert_Some in Hx0. subst. destruct x; [|done].
    split; [done|]. split; [|done]. constructor. by exists [].
  - unfold mk_jump_with_args in H. inv_build H. subst.
    assert (is_Some (check_bb_arg_types q x a)) as H1%check_bb_spec by eauto.
    split; [done|]. split; [|done]. constructor. by eexists.
  - unfold mk_call in H. inv_build H. destruct x as [| | | |ps ret]; try done. inv_build H.
    apply assert_Some, Nat.eqb_eq in Hx0. subst.
    assert (is_Some (check_call_args q ps a)) as H1%check_call_spec by eauto; [|done].
    split; [done|]. split; [|done]. by econstructor.
  - unfold mk_ret in H. inv_build H. inv_build Hx. apply assert_Some, not_unit in Hx. subst.
    split; [done|]. split; [by econstructor|done].
  - unfold mk_ret in H. inv_build H. subst. split; [done|]. split; [by econstructor|done].
Qed.

Lemma eqb_refl_ty t : ty_eqb t t = true.
Proof. by apply ty_eqb_eq. Qed.

Lemma build_complete q r t :
  q_ok q → has_type (env_of q) (requested r) t → requested_ty r t →
  build q r = Some (new_vdata t (requested r)).
Proof.
  intros Hq H Ht.
  destruct r as [z|ty|ty|l|v|ty|v|v dst|s i|s i|op a b|c tb f|c tb f ta fa|tb|tb a|c a|[v|]];
    simpl in *; inversion H; subst; simpl in *;
    repeat (rename select (_ ≠ TUnit) into Hu; apply not_unit in Hu; revert Hu);
    try (rename select (args_match _ _ _) into Hm1; destruct Hm1 as (p1 & Hp1 & Hf1));
    try (rename select (args_match _ _ _) into Hm2; destruct Hm2 as (p2 & Hp2 & Hf2));
    simpl in *; intros.
  - done.
  - unfold mk_zero_init. by rewrite Hu.
  - unfold mk_undef. by rewrite Hu.
  - unfold mk_aggregate. destruct l as [|e l]; [done|]. simpl (assert_ _).
    rename select (∀ x, x ∈ _ → _ ∧ _) into Hall. rename select ty into t0.
    assert (all_const q (e :: l) = Some true) as ->.
    { apply all_const_true. intros x Hx. destruct (Hall x Hx) as [_ Hc].
      by destruct (q_const q x) as [[]|]. }
    assert (q_type q e = Some t0) as He by (apply Hall; by left).
    assert (windows_eq q (e :: l) = Some true) as ->.
    { apply windows_eq_true with (t := t0); [done|]. intros x Hx. apply Hall. by right. }
    cbn [mbind option_bind]. change (assert_ true) with (Some tt).
    cbn [mbind option_bind head]. rewrite He. cbn [mbind option_bind].
    rewrite Hu. unfold get_array.
    destruct (N.eqb_spec (N.of_nat (length (e :: l))) 0); [simpl in *; lia|]. done.
  - unfold mk_global_alloc. rename select (q_type q _ = _) into H1. rewrite H1. simpl.
    by rewrite Hu.
  - rename select (TPtr _ = TPtr _) into Ht. injection Ht as ->. unfold mk_alloc. by rewrite Hu.
  - unfold mk_load. rename select (q_type q _ = _) into H1. by rewrite H1.
  - unfold mk_store. repeat (rename select (q_type q _ = _) into H1; rewrite H1; clear H1; simpl).
    by rewrite eqb_refl_ty.
  - unfold mk_get_ptr. rename select (q_type q s = _) into H1.
    rename select (q_type q i = _) into H2. by rewrite H1, H2.
  - unfold mk_get_elem_ptr. rename select (q_type q s = _) into H1.
    rename select (q_type q i = _) into H2. by rewrite H1, H2.
  - unfold mk_binary. rename select (q_type q a = _) into H1.
    rename select (q_type q b = _) into H2. by rewrite H1, H2.
  - unfold mk_branch. rename select (q_type q c = _) into H1. rewrite H1. simpl.
    apply Forall2_nil_inv_r in Hf1. apply Forall2_nil_inv_r in Hf2. subst.
    rewrite Hp1. simpl. by rewrite Hp2.
  - unfold mk_branch_with_args. rename select (q_type q c = _) into H1. rewrite H1. simpl.
    rename select (_ = _ → _ ∧ _) into Hsame.
    assert (negb (tb =? f)%N || match ta with [] => true | _ => false end &&
            match fa with [] => true | _ => false end = true) as ->.
    { destruct (N.eqb_spec tb f) as [->|]; [|done]. by destruct (Hsame eq_refl) as [-> ->]. }
    simpl. apply check_bb_spec in Hf1 as [[] Hf1]. apply check_bb_spec in Hf2 as [[] Hf2].
    match goal with |- context [q_bb_params q tb] => idtac end.
    first [rewrite Hp1; simpl; rewrite Hf1; simpl; rewrite Hp2; simpl; by rewrite Hf2
          |rewrite Hp2; simpl; rewrite Hf2; simpl; rewrite Hp1; simpl; by rewrite Hf1].
  - unfold mk_jump. apply Forall2_nil_inv_r in Hf1. subst. by rewrite Hp1.
  - unfold mk_jump_with_args. apply check_bb_spec in Hf1 as [[] Hf1]. rewrite Hp1. simpl.
    by rewrite Hf1.
  - unfold mk_call. rename select (q_func_type q _ = _) into H1. rewrite H1. simpl.
    rename select (Forall2 _ _ _) into Hf. pose proof (Forall2_length _ _ _ Hf) as Hl.
    apply Nat.eqb_eq in Hl as Hl'. rewrite Hl'. simpl.
    apply check_call_spec in Hf as [[] Hf]; [|done]. by rewrite Hf.
  - unfold mk_ret. rename select (q_type q _ = _) into H1. rewrite H1. simpl. by rewrite Hu.
  - done.
Qed.

Lemma local_env_querier p fd :
  (∀ f, p_func_tys p !! f = f_ty <$> p_funcs p !! f) →
  ∀ v, e_ty (local_env p fd) v = e_ty (env_of (local_querier (p_values p) (p_func_tys p) (f_dfg fd))) v.
Proof.
  intros Hf v. simpl. unfold dfg_data. destruct (p_values p !! v) eqn:E.
  - by rewrite (lookup_union_Some_l _ _ _ _ E).
  - by rewrite lookup_union_r.
Qed.
