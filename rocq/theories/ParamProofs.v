(** Proofs about the creation of parameters (C45). *)
From Verif Require Import Base IdModel TypeModel IrModel LayoutModel BuilderModel WorldModel
  UsesSpec DfgSpec WorldSpec DfgProofs WorldProofs SkelProofs EqHistory TypingHistory ParamSpec.
From Coq Require Import Lia ZifyBool ZifyNat ZifyN.

(** A value without operands is only added. *)
Lemma new_leaf i gs g d v i' gs' g' :
  value_uses (v_kind d) = [] → bb_uses (v_kind d) = [] →
  dfg_new_value_data i gs g d = Some (v, i', gs', g') →
  next_local_value_id i = Some (v, i') ∧ gs' = gs ∧ d_bbs g' = d_bbs g ∧
  d_values g' = <[v := d]> (d_values g).
Proof.
  intros H1 H2 H. unfold dfg_new_value_data in H.
  apply bind_Some in H as ([v1 i1] & Hi & H). rewrite H1, H2 in H. simpl in H.
  injection H as <- <- <- <-. by simpl.
Qed.

Definition arg_range (i i' : ids) (vs : list value) : Prop :=
  (next_lv i' < two32)%N ∧ (ub (next_lv i) ≤ ub (next_lv i'))%N ∧
  ∀ x, x ∈ vs → (ub (next_lv i) ≤ x < ub (next_lv i'))%N.

Definition args_created (m : gmap N vdata) (arg : N → vkind) (idx : N)
    (ps : list (option string * ty)) (vs : list value) : Prop :=
  NoDup vs ∧ length vs = length ps ∧
  ∀ (j : nat) n t, ps !! j = Some (n, t) →
    ∃ v, vs !! j = Some v ∧ m !! v = Some (VData t n (arg (idx + N.of_nat j)%N) ∅).

Lemma range_step i v i1 i2 vs :
  (next_lv i < two32)%N → next_local_value_id i = Some (v, i1) → arg_range i1 i2 vs →
  arg_range i i2 (v :: vs) ∧ v ∉ vs ∧ (v < ub (next_lv i1))%N.
Proof.
  intros Hlt H (R1 & R2 & R3). apply next_local_spec in H as (-> & Hne & ->). simpl in *.
  rewrite ub_next in * by done.
  assert (ub (next_lv i) = next_lv i) as E by (unfold ub; by destruct (N.eqb_spec (next_lv i) 0)).
  split.
  - split; [done|]. split; [lia|]. intros x [->|Hx]%elem_of_cons; [lia|]. apply R3 in Hx. lia.
  - split; [|lia]. intros Hx. apply R3 in Hx. lia.
Qed.
Lemma range_next i v i1 :
  (next_lv i < two32)%N → next_local_value_id i = Some (v, i1) → (next_lv i1 < two32)%N.
Proof. intros Hlt H. apply next_local_spec in H as (-> & Hne & ->). by apply N.mod_lt. Qed.

Lemma created_cons m arg idx n t ps v vs :
  v ∉ vs → m !! v = Some (VData t n (arg idx) ∅) → args_created m arg (idx + 1) ps vs →
  args_created m arg idx ((n, t) :: ps) (v :: vs).
Proof.
  intros Hv Hm (H1 & H2 & H3). split; [by constructor|]. split; [simpl; lia|].
  intros [|j] n' t' Hj; simpl in Hj.
  - injection Hj as <- <-. exists v. split; [done|]. by rewrite N.add_0_r.
  - apply H3 in Hj as (x & Hx & Hj). exists x. split; [done|]. rewrite Hj. do 3 f_equal. lia.
Qed.

Lemma new_block_args_exact ps : ∀ i gs idx g vs i' gs' g',
  (next_lv i < two32)%N →
  new_block_args i gs idx ps g = Some (vs, i', gs', g') →
  gs' = gs ∧ d_bbs g' = d_bbs g ∧ next_bb i' = next_bb i ∧ arg_range i i' vs ∧
  args_created (d_values g') KBlockArg idx ps vs ∧
  ∀ x, x ∉ vs → d_values g' !! x = d_values g !! x.
Proof.
  induction ps as [|[n t] ps IH]; intros i gs idx g vs i' gs' g' Hlt H; simpl in H.
  - injection H as <- <- <- <-. split_and!; try done.
    + split; [done|]. split; [lia|]. intros x Hx. inversion Hx.
    + split; [constructor|]. by split.
  - apply bind_Some in H as (d & Hd & H).
    apply bind_Some in H as ([[[v i1] gs1] g1] & H1 & H).
    apply bind_Some in H as ([[[vs2 i2] gs2] g2] & H2 & H). injection H as <- <- <- <-.
    assert (d = VData t n (KBlockArg idx) ∅) as ->.
    { unfold set_name in Hd. destruct (valid_opt_name n); [|done]. by injection Hd as <-. }
    apply new_leaf in H1 as (Hi & -> & Eb & Ev); [|done|done].
    apply IH in H2 as (-> & F2 & F3 & F4 & F5 & F6); [|by eapply range_next].
    destruct (range_step _ _ _ _ _ Hlt Hi F4) as (R1 & R2 & R3).
    split; [done|]. split; [congruence|]. split.
    { rewrite F3. by apply next_local_spec in Hi as (_ & _ & ->). }
    split; [done|]. split.
    + apply created_cons; [done| |done]. by rewrite F6, Ev, lookup_insert.
    + intros x Hx. apply not_elem_of_cons in Hx as [Hx1 Hx2].
      by rewrite F6, Ev, lookup_insert_ne.
Qed.

Lemma new_func_args_exact ps : ∀ i idx g vs i' g',
  (next_lv i < two32)%N →
  new_func_args i idx ps g = Some (vs, i', g') →
  d_bbs g' = d_bbs g ∧ arg_range i i' vs ∧
  args_created (d_values g') KFuncArg idx ps vs ∧
  ∀ x, x ∉ vs → d_values g' !! x = d_values g !! x.
Proof.
  induction ps as [|[n t] ps IH]; intros i idx g vs i' g' Hlt H; simpl in H.
  - injection H as <- <- <-. split_and!; try done.
    + split; [done|]. split; [lia|]. intros x Hx. inversion Hx.
    + split; [constructor|]. by split.
  - apply bind_Some in H as ([[[v i1] gs1] g1] & H1 & H).
    apply bind_Some in H as (g2 & H2 & H).
    apply bind_Some in H as ([[vs3 i3] g3] & H3 & H). injection H as <- <- <-.
    apply new_leaf in H1 as (Hi & -> & Eb & Ev); [|done|done].
    assert (d_bbs g2 = d_bbs g1 ∧
      d_values g2 = <[v := VData t n (KFuncArg idx) ∅]> (d_values g)) as [Eb2 Ev2].
    { unfold dfg_set_value_name in H2. apply bind_Some in H2 as (d & Hd & H2).
      apply bind_Some in H2 as (d' & Hs & H2). injection H2 as <-. simpl. split; [done|].
      rewrite Ev, lookup_insert in Hd. injection Hd as <-. unfold set_name in Hs.
      destruct (valid_opt_name n); [|done]. injection Hs as <-. simpl.
      by rewrite Ev, insert_insert. }
    apply IH in H3 as (F2 & F4 & F5 & F6); [|by eapply range_next].
    destruct (range_step _ _ _ _ _ Hlt Hi F4) as (R1 & R2 & R3).
    split; [congruence|]. split; [done|]. split.
    + apply created_cons; [done| |done]. by rewrite F6, Ev2, lookup_insert.
    + intros x Hx. apply not_elem_of_cons in Hx as [Hx1 Hx2].
      by rewrite F6, Ev2, lookup_insert_ne.
Qed.

Lemma args_params m arg ps vs : args_created m arg 0 ps vs → params_created m arg ps vs.
Proof. intros (H1 & H2 & H3). split; [done|]. split; [done|]. intros j n t Hj. by apply H3 in Hj. Qed.

Lemma new_bb_params w F f fd n ps b w' :
  winv (w_ids w) (w_prog w) F → p_funcs (w_prog w) !! f = Some fd →
  w_new_bb f n ps w = Some (b, w') →
  ∃ fd' vs, p_funcs (w_prog w') !! f = Some fd' ∧
    blks fd !! b = None ∧ blks fd' = <[b := BBData n vs ∅]> (blks fd) ∧
    params_created (vals fd') KBlockArg ps vs ∧ adds (vals fd) (vals fd') vs.
Proof.
  intros HW Hf H.
  apply on_dfg_inv in H as (fd1 & i' & gs' & g' & Hf1 & H & ->).
  rewrite Hf in Hf1. injection Hf1 as <-.
  assert (Hf' : F !! f = Some fd) by (eapply lookup_weaken; [done|apply HW]).
  unfold basic_block_with_param_names in H.
  apply bind_Some in H as ([] & _ & H). apply bind_Some in H as ([] & _ & H).
  apply bind_Some in H as ([[[vs i1] gs1] g1] & Ha & H).
  apply bind_Some in H as ([[b1 i2] g2] & Hb & H). injection H as <- <- <- <-.
  apply new_block_args_exact in Ha as (-> & E1 & E2 & E3 & E4 & E5); [|apply HW].
  unfold dfg_new_bb_data in Hb. apply bind_Some in Hb as ([b2 i3] & Hid & Hb).
  injection Hb as <- <- <-. apply next_bb_spec in Hid as (-> & Hne & ->). simpl.
  eexists _, vs. split; [by rewrite lookup_insert|].
  split.
  { destruct (d_bbs (f_dfg fd) !! next_bb i1) eqn:E; [|done].
    assert (is_Some (blks fd !! next_bb i1)) as Hs by eauto.
    apply (wi_bid _ _ _ HW f fd _ Hf') in Hs. rewrite E2 in Hs, Hne. unfold ub in Hs.
    destruct (N.eqb_spec (next_bb (w_ids w)) 0); lia. }
  split; [by rewrite E1|]. split; [by apply args_params|].
  intros x. split; [|apply E5]. intros Hx.
  destruct (d_values (f_dfg fd) !! x) eqn:E; [|done].
  assert (is_Some (vals fd !! x)) as Hs by eauto.
  apply (wi_lid _ _ _ HW f fd _ Hf') in Hs. apply E3 in Hx. lia.
Qed.

Lemma new_func_params w F name ps ret f w' :
  winv (w_ids w) (w_prog w) F →
  w_new_func_def name ps ret w = Some (f, w') →
  ∃ fd, p_funcs (w_prog w) !! f = None ∧
    p_funcs (w_prog w') = <[f := fd]> (p_funcs (w_prog w)) ∧
    f_name fd = name ∧ f_ty fd = TFun (map snd ps) ret ∧ blks fd = ∅ ∧
    params_created (vals fd) KFuncArg ps (f_params fd) ∧ adds ∅ (vals fd) (f_params fd).
Proof.
  intros HW H. unfold w_new_func_def in H.
  apply bind_Some in H as ([[f1 i1] p1] & H & Hw). injection Hw as <- <-.
  unfold prog_new_func_def in H. apply bind_Some in H as ([d i2] & Hd & H).
  unfold fdata_with_param_names in Hd. apply bind_Some in Hd as ([] & _ & Hd).
  apply bind_Some in Hd as ([[vs i3] g3] & Ha & Hd). injection Hd as <- <-.
  pose proof (new_func_args_post _ _ _ _ _ _ _ (dstate_empty _ _ _ HW) Ha) as HP.
  apply new_func_args_exact in Ha as (E1 & E2 & E3 & E4); [|apply HW].
  unfold prog_new_func in H. apply bind_Some in H as ([f2 i4] & Hid & H).
  injection H as <- <- <-. apply next_func_spec in Hid as (-> & Hne & ->). simpl.
  eexists. split; [|split; [done|]]; simpl.
  { destruct (p_funcs (w_prog w) !! next_fn i3) eqn:E; [|done].
    assert (is_Some (F !! next_fn i3)) as Hs.
    { eexists. eapply lookup_weaken; [done|apply HW]. }
    apply (wi_fid _ _ _ HW) in Hs. rewrite <-(dp_fn _ _ _ _ _ _ _ HP) in Hs. unfold ub in Hs.
    destruct (N.eqb_spec (next_fn i3) 0); lia. }
  do 2 (split; [done|]). split; [done|].
  split; [by apply args_params|]. intros x. split; [done|apply E4].
Qed.
