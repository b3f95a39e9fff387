(** Program::inst_layout and Program::func_layout (C15). *)
From Verif Require Import Base IdModel TypeModel IrModel LayoutModel BuilderModel WorldModel
  UsesSpec UsesProofs DfgSpec DfgProofs WorldSpec WorldProofs.
From Coq Require Import Lia.
From Coq Require Sorted.

Record pinv (i : ids) (p : program) : Prop := {
  pi_is : Sorted.StronglySorted N.lt (p_inst_layout p);
  pi_im : ∀ v, v ∈ p_inst_layout p ↔
     ∃ d, p_values p !! v = Some d ∧ is_global_alloc (v_kind d) = true;
  pi_gid : ∀ v, is_Some (p_values p !! v) → (v < ub (next_gv i))%N;
  pi_gv : (next_gv i < two32)%N;
  pi_fs : Sorted.StronglySorted N.lt (p_func_layout p);
  pi_fm : ∀ f, f ∈ p_func_layout p ↔ is_Some (p_funcs p !! f);
  pi_ft : ∀ f, p_func_tys p !! f = f_ty <$> p_funcs p !! f;
  pi_fid : ∀ f, is_Some (p_funcs p !! f) → (f < ub (next_fn i))%N;
  pi_fn : (next_fn i < two32)%N;
}.

Lemma upd_uses_skel f us : ∀ gs vs gs' vs',
  upd_uses f us gs vs = Some (gs', vs') → same_skel gs gs'.
Proof.
  induction us as [|u us IH]; intros gs vs gs' vs' H; simpl in H.
  - by simplify_eq.
  - apply bind_Some in H as ([gs1 vs1] & H1 & H). apply IH in H.
    eapply same_skel_trans; [|done]. unfold data_mut_used in H1.
    destruct (gs !! u) as [d|] eqn:E.
    + simplify_eq. intros x. destruct (decide (x = u)) as [->|].
      * by rewrite lookup_insert, E.
      * by rewrite lookup_insert_ne.
    + destruct (vs !! u); by simplify_eq.
Qed.

Lemma new_value_skel i gs g data v i' gs' g' :
  dfg_new_value_data i gs g data = Some (v, i', gs', g') →
  same_skel gs gs' ∧ next_gv i' = next_gv i ∧ next_fn i' = next_fn i.
Proof.
  intros H. unfold dfg_new_value_data in H.
  apply bind_Some in H as ([v0 i0] & Hid & H).
  apply bind_Some in H as ([gs0 vs0] & Hu & H).
  apply bind_Some in H as (bs0 & Hb & H). simplify_eq.
  apply upd_uses_skel in Hu. apply next_local_spec in Hid as (_ & _ & ->). done.
Qed.

Lemma replace_skel gs g v data gs' g' :
  dfg_replace_value_with_data gs g v data = Some (gs', g') → same_skel gs gs'.
Proof.
  intros H. unfold dfg_replace_value_with_data in H.
  apply bind_Some in H as (old & Hold & H).
  apply bind_Some in H as ([gs1 vs1] & H1 & H).
  apply bind_Some in H as (bs1 & H2 & H).
  apply bind_Some in H as ([gs2 vs2] & H3 & H).
  apply bind_Some in H as (bs2 & H4 & H). simplify_eq.
  eapply same_skel_trans; by eapply upd_uses_skel.
Qed.

Lemma update_skel gs g v h gs' g' :
  dfg_update_value gs g v h = Some (gs', g') → same_skel gs gs'.
Proof.
  intros H. unfold dfg_update_value in H.
  apply bind_Some in H as (old & Hold & H).
  apply bind_Some in H as ([gs1 vs1] & H1 & H).
  apply bind_Some in H as (bs1 & H2 & H).
  apply bind_Some in H as ([gs2 vs2] & H3 & H).
  apply bind_Some in H as (bs2 & H4 & H). simplify_eq.
  eapply same_skel_trans; by eapply upd_uses_skel.
Qed.

Lemma remove_skel gs g v d gs' g' :
  dfg_remove_value gs g v = Some (d, gs', g') → same_skel gs gs'.
Proof.
  intros H. unfold dfg_remove_value in H.
  apply bind_Some in H as (old & Hold & H).
  apply bind_Some in H as ([] & Has & H).
  apply bind_Some in H as ([gs1 vs1] & H1 & H).
  apply bind_Some in H as (bs1 & H2 & H). simplify_eq.
  by eapply upd_uses_skel.
Qed.

Lemma new_block_args_skel ps : ∀ i gs idx g vs i' gs' g',
  new_block_args i gs idx ps g = Some (vs, i', gs', g') →
  same_skel gs gs' ∧ next_gv i' = next_gv i ∧ next_fn i' = next_fn i.
Proof.
  induction ps as [|[n t] ps IH]; intros i gs idx g vs i' gs' g' H; simpl in H.
  - by simplify_eq.
  - apply bind_Some in H as (d & Hd & H).
    apply bind_Some in H as ([[[v i1] gs1] g1] & H1 & H).
    apply bind_Some in H as ([[[vs2 i2] gs2] g2] & H2 & H). simplify_eq.
    apply new_value_skel in H1 as (? & ? & ?). apply IH in H2 as (? & ? & ?).
    split; [by eapply same_skel_trans|]. split; congruence.
Qed.

Lemma same_skel_pinv i p i' gs' f fd fd' :
  pinv i p → p_funcs p !! f = Some fd → f_ty fd' = f_ty fd → same_skel (p_values p) gs' →
  next_gv i' = next_gv i → next_fn i' = next_fn i →
  pinv i' (set_func (set_values p gs') f fd').
Proof.
  intros [P1 P2 P3 P4 P5 P6 P7 P8 P9] Hf Hty Hsk Hg Hfn.
  assert (Hsome : is_Some (p_funcs p !! f)) by eauto.
  constructor; simpl; rewrite ?Hg, ?Hfn; try done.
  - intros v. rewrite P2. specialize (Hsk v).
    destruct (p_values p !! v) as [d|], (gs' !! v) as [d'|]; try done.
    simpl in Hsk. assert (v_kind d = v_kind d') as Hk by (unfold clone_vdata in Hsk; congruence).
    split; intros (? & [= <-] & ?); eexists; (split; [done|]); congruence.
  - intros v. rewrite <- (same_skel_is_Some _ _ _ Hsk). apply P3.
  - intros f'. rewrite insert_is_Some by done. apply P6.
  - intros f'. rewrite P7. destruct (decide (f' = f)) as [->|].
    + rewrite lookup_insert, Hf. simpl. by rewrite Hty.
    + by rewrite lookup_insert_ne.
  - intros f'. rewrite insert_is_Some by done. apply P8.
Qed.

Lemma on_dfg_pinv {A} w f (op : ids → gmap N vdata → dfg → option (A * ids * gmap N vdata * dfg))
    a w' :
  pinv (w_ids w) (w_prog w) →
  (∀ fd a i' gs' g',
     op (w_ids w) (p_values (w_prog w)) (f_dfg fd) = Some (a, i', gs', g') →
     same_skel (p_values (w_prog w)) gs' ∧ next_gv i' = next_gv (w_ids w) ∧
     next_fn i' = next_fn (w_ids w)) →
  on_dfg w f op = Some (a, w') →
  pinv (w_ids w') (w_prog w').
Proof.
  intros HP Hop H. unfold on_dfg in H.
  apply bind_Some in H as (fd & Hfd & H).
  apply bind_Some in H as ([[[a0 i'] gs'] g'] & H1 & H). simplify_eq. simpl.
  apply Hop in H1 as (? & ? & ?). by eapply same_skel_pinv.
Qed.

Lemma ssorted_snoc l v :
  Sorted.StronglySorted N.lt l → (∀ x, x ∈ l → (x < v)%N) →
  Sorted.StronglySorted N.lt (l ++ [v]).
Proof.
  induction l as [|x l IH]; intros Hs Hl; simpl.
  - repeat constructor.
  - apply Sorted.StronglySorted_inv in Hs as [Hs Hx]. constructor.
    + apply IH; [done|]. intros y Hy. apply Hl. by right.
    + apply Forall_app. split; [done|]. constructor; [|done]. apply Hl. by left.
Qed.

Lemma remove_first_sorted v l : ∀ l',
  Sorted.StronglySorted N.lt l → remove_first v l = Some l' →
  v ∈ l ∧ Sorted.StronglySorted N.lt l' ∧ ∀ x, x ∈ l' ↔ x ∈ l ∧ x ≠ v.
Proof.
  induction l as [|y l IH]; intros l' Hs H; simpl in H; [done|].
  apply Sorted.StronglySorted_inv in Hs as [Hs Hy].
  destruct (N.eqb_spec y v) as [->|Hne].
  - simplify_eq. split; [by left|]. split; [done|]. intros x. rewrite elem_of_cons.
    rewrite list.Forall_forall in Hy. split; [|naive_solver].
    intros Hx. specialize (Hy _ Hx). split; [by right|]. lia.
  - apply bind_Some in H as (l'' & H & Hl). simplify_eq.
    destruct (IH _ Hs H) as (Hin & Hs' & Hmem). split; [by right|]. split.
    + constructor; [done|]. apply list.Forall_forall. intros x Hx.
      apply Hmem in Hx as [Hx _]. rewrite list.Forall_forall in Hy. by apply Hy.
    + intros x. rewrite !elem_of_cons, Hmem. naive_solver.
Qed.

Lemma remove_first_in v l : v ∈ l → is_Some (remove_first v l).
Proof.
  induction l as [|y l IH]; intros Hin; simpl; [by apply elem_of_nil in Hin|].
  destruct (N.eqb_spec y v); [by eauto|]. apply elem_of_cons in Hin as [->|Hin]; [done|].
  destruct (IH Hin) as [l' ->]. simpl. by eauto.
Qed.

Lemma upd_guses_skel f us gs gs' : upd_guses f us gs = Some gs' → same_skel gs gs'.
Proof.
  intros H. rewrite upd_guses_upd_uses in H. apply fmap_Some in H as ([gs1 vs1] & H & ->).
  by eapply upd_uses_skel.
Qed.

Lemma skel_alloc m m' x : same_skel m m' →
  (∃ d, m !! x = Some d ∧ is_global_alloc (v_kind d) = true) ↔
  (∃ d, m' !! x = Some d ∧ is_global_alloc (v_kind d) = true).
Proof.
  intros Hsk. specialize (Hsk x).
  destruct (m !! x) as [d|], (m' !! x) as [d'|]; try done.
  simpl in Hsk. assert (v_kind d = v_kind d') as Hk by (unfold clone_vdata in Hsk; congruence).
  split; intros (? & [= <-] & ?); eexists; (split; [done|]); congruence.
Qed.

Lemma new_global_pinv i p data v i' p' :
  pinv i p → global_insert_value i p data = Some (v, i', p') → pinv i' p'.
Proof.
  intros [P1 P2 P3 P4 P5 P6 P7 P8 P9] H. unfold global_insert_value in H.
  apply bind_Some in H as ([[v1 i1] p1] & H & Hw). simplify_eq.
  unfold prog_new_value_data in H.
  apply bind_Some in H as ([v0 i0] & Hid & H).
  apply bind_Some in H as (gs' & Hgs & H). simplify_eq. simpl.
  apply next_global_spec in Hid as (-> & Hne & ->). apply upd_guses_skel in Hgs.
  set (v := next_gv i) in *.
  assert (Hubv : ub v = v) by (unfold ub; by destruct (N.eqb_spec v 0)).
  assert (Hub' : ub ((v + 1) `mod` two32) = (v + 1)%N) by (by apply ub_next).
  assert (Hv : p_values p !! v = None).
  { destruct (p_values p !! v) eqn:E; [|done].
    assert (is_Some (p_values p !! v)) as Hx by eauto. apply P3 in Hx. lia. }
  assert (Hlt : ∀ x, x ∈ p_inst_layout p → (x < v)%N).
  { intros x Hx. apply P2 in Hx as (d & Hd & _). rewrite <- Hubv. apply P3. by eauto. }
  assert (Hgid : ∀ x, is_Some (<[v:=data]> gs' !! x) → (x < ub ((v + 1) `mod` two32))%N).
  { intros x Hx. rewrite Hub'. destruct (decide (x = v)) as [->|]; [lia|].
    rewrite lookup_insert_ne in Hx by done. rewrite <- (same_skel_is_Some _ _ _ Hgs) in Hx.
    apply P3 in Hx. lia. }
  assert (Hmem : ∀ x, x ∈ p_inst_layout p ↔
    x ≠ v ∧ ∃ d, <[v:=data]> gs' !! x = Some d ∧ is_global_alloc (v_kind d) = true).
  { intros x. rewrite P2, (skel_alloc _ _ _ Hgs). destruct (decide (x = v)) as [->|Hxv].
    - rewrite lookup_insert. specialize (Hgs v). rewrite Hv in Hgs. destruct (gs' !! v); naive_solver.
    - rewrite lookup_insert_ne by done. naive_solver. }
  assert (Hm32 : ((v + 1) `mod` two32 < two32)%N) by (by apply N.mod_lt).
  destruct (is_global_alloc (v_kind data)) eqn:Eg; constructor; simpl; try done.
  - by apply ssorted_snoc.
  - intros x. rewrite elem_of_app, elem_of_list_singleton, Hmem.
    destruct (decide (x = v)) as [->|]; [|naive_solver].
    rewrite lookup_insert. naive_solver.
  - intros x. rewrite Hmem. destruct (decide (x = v)) as [->|]; [|naive_solver].
    rewrite lookup_insert. split; [naive_solver|]. intros (? & [= <-] & ?). congruence.
Qed.

Lemma new_func_pinv i0 i p data f i' p' :
  pinv i0 p → next_gv i = next_gv i0 → next_fn i = next_fn i0 →
  prog_new_func i p data = Some (f, i', p') → pinv i' p'.
Proof.
  intros [P1 P2 P3 P4 P5 P6 P7 P8 P9] Hg Hf H. unfold prog_new_func in H.
  apply bind_Some in H as ([f1 i1] & Hid & H). simplify_eq.
  apply next_func_spec in Hid as (-> & Hne & ->). rewrite <- Hg in P3, P4.
  rewrite <- Hf in P8, P9.
  set (v := next_fn i) in *.
  assert (Hubv : ub v = v) by (unfold ub; by destruct (N.eqb_spec v 0)).
  assert (Hub' : ub ((v + 1) `mod` two32) = (v + 1)%N) by (by apply ub_next).
  assert (Hm32 : ((v + 1) `mod` two32 < two32)%N) by (by apply N.mod_lt).
  constructor; simpl; try done.
  - apply ssorted_snoc; [done|]. intros x Hx. apply P6, P8 in Hx. lia.
  - intros x. rewrite elem_of_app, elem_of_list_singleton, P6.
    destruct (decide (x = v)) as [->|].
    + rewrite lookup_insert. split; [by eauto|]. by right.
    + rewrite lookup_insert_ne by done. naive_solver.
  - intros x. destruct (decide (x = v)) as [->|].
    + by rewrite !lookup_insert.
    + by rewrite !lookup_insert_ne.
  - intros x Hx. rewrite Hub'. destruct (decide (x = v)) as [->|]; [lia|].
    rewrite lookup_insert_ne in Hx by done. apply P8 in Hx. lia.
Qed.

Lemma new_func_args_ids ps : ∀ i idx g vs i' g',
  new_func_args i idx ps g = Some (vs, i', g') →
  next_gv i' = next_gv i ∧ next_fn i' = next_fn i.
Proof.
  induction ps as [|[n t] ps IH]; intros i idx g vs i' g' H; simpl in H.
  - by simplify_eq.
  - apply bind_Some in H as ([[[v i1] gs1] g1] & H1 & H).
    apply bind_Some in H as (g2 & H2 & H).
    apply bind_Some in H as ([[vs3 i3] g3] & H3 & H). simplify_eq.
    apply new_value_skel in H1 as (_ & ? & ?). apply IH in H3 as (? & ?). split; congruence.
Qed.

Lemma step_pinv o w w' :
  pinv (w_ids w) (w_prog w) → step o w = Some w' → pinv (w_ids w') (w_prog w').
Proof.
  intros HP H. destruct o; cbn [step] in *.
  - apply fmap_Some in H as ([v w1] & H & ->). simpl.
    eapply on_dfg_pinv; [done| |exact H].
    intros fd a i' gs' g' Hop. cbv beta in Hop. apply bind_Some in Hop as (d & Hb & Hop).
    by eapply new_value_skel.
  - apply fmap_Some in H as ([v w1] & H & ->). simpl.
    eapply on_dfg_pinv; [done| |exact H].
    intros fd a i' gs' g' Hop. cbv beta in Hop. by eapply new_value_skel.
  - unfold w_replace in H. apply bind_Some in H as ([[] w1] & H & Hw). simplify_eq.
    eapply on_dfg_pinv; [done| |exact H].
    intros fd a i' gs' g' Hop. cbv beta in Hop.
    apply bind_Some in Hop as (d & Hb & Hop).
    apply bind_Some in Hop as ([gs1 g1] & Hr & Hop). simplify_eq.
    split; [by eapply replace_skel|done].
  - unfold w_replace_data in H. apply bind_Some in H as ([[] w1] & H & Hw). simplify_eq.
    eapply on_dfg_pinv; [done| |exact H].
    intros fd a i' gs' g' Hop. cbv beta in Hop.
    apply bind_Some in Hop as ([gs1 g1] & Hr & Hop). simplify_eq.
    split; [by eapply replace_skel|done].
  - unfold w_update in H. apply bind_Some in H as ([[] w1] & H & Hw). simplify_eq.
    eapply on_dfg_pinv; [done| |exact H].
    intros fd a i' gs' g' Hop. cbv beta in Hop.
    apply bind_Some in Hop as ([gs1 g1] & Hr & Hop). simplify_eq.
    split; [by eapply update_skel|done].
  - apply fmap_Some in H as ([d w1] & H & ->). simpl.
    eapply on_dfg_pinv; [done| |exact H].
    intros fd a i' gs' g' Hop. cbv beta in Hop.
    apply bind_Some in Hop as ([[d1 gs1] g1] & Hr & Hop). simplify_eq.
    split; [by eapply remove_skel|done].
  - unfold w_name_local in H. apply bind_Some in H as ([[] w1] & H & Hw). simplify_eq.
    eapply on_dfg_pinv; [done| |exact H].
    intros fd a i' gs' g' Hop. cbv beta in Hop.
    apply bind_Some in Hop as (g1 & Hr & Hop). by simplify_eq.
  - apply fmap_Some in H as ([b w1] & H & ->). simpl.
    eapply on_dfg_pinv; [done| |exact H].
    intros fd a i' gs' g' Hop. cbv beta in Hop. unfold basic_block_with_param_names in Hop.
    apply bind_Some in Hop as ([] & _ & Hop).
    apply bind_Some in Hop as ([] & _ & Hop).
    apply bind_Some in Hop as ([[[vs i1] gs1] g1] & H1 & Hop).
    apply bind_Some in Hop as ([[b2 i2] g2] & H2 & Hop). simplify_eq.
    apply new_block_args_skel in H1 as (? & ? & ?).
    unfold dfg_new_bb_data in H2. apply bind_Some in H2 as ([b3 i3] & Hid & H2). simplify_eq.
    apply next_bb_spec in Hid as (-> & _ & ->). done.
  - apply fmap_Some in H as ([d w1] & H & ->). simpl.
    eapply on_dfg_pinv; [done| |exact H].
    intros fd a i' gs' g' Hop. cbv beta in Hop.
    apply bind_Some in Hop as ([bd g1] & Hr & Hop). by simplify_eq.
  - apply fmap_Some in H as ([v w1] & H & ->). simpl.
    unfold w_new_global in H. apply bind_Some in H as (d & Hb & H).
    unfold w_new_global_data in H.
    apply bind_Some in H as ([[v1 i1] p1] & H & Hw). simplify_eq. simpl.
    by eapply new_global_pinv.
  - apply fmap_Some in H as ([v w1] & H & ->). simpl. unfold w_new_global_data in H.
    apply bind_Some in H as ([[v1 i1] p1] & H & Hw). simplify_eq. simpl.
    by eapply new_global_pinv.
  - apply fmap_Some in H as ([d w1] & H & ->). simpl.
    unfold w_remove_global in H. apply bind_Some in H as ([d1 p1] & H & Hw). simplify_eq.
    unfold prog_remove_value in H.
    apply bind_Some in H as (d0 & Hd & H).
    apply bind_Some in H as (il & Hil & H).
    apply bind_Some in H as ([] & Has & H).
    apply bind_Some in H as (gs' & Hgs & H). simplify_eq. simpl.
    apply upd_guses_skel in Hgs. destruct HP as [P1 P2 P3 P4 P5 P6 P7 P8 P9].
    assert (Hal : ∀ x, (∃ d, gs' !! x = Some d ∧ is_global_alloc (v_kind d) = true) ↔
      x ≠ v ∧ x ∈ p_inst_layout (w_prog w)).
    { intros x. rewrite P2, <- (skel_alloc _ _ _ Hgs). destruct (decide (x = v)) as [->|].
      - rewrite lookup_delete. naive_solver.
      - rewrite lookup_delete_ne by done. naive_solver. }
    assert (Hkeys : ∀ x, is_Some (gs' !! x) → is_Some (p_values (w_prog w) !! x)).
    { intros x Hx. rewrite <- (same_skel_is_Some _ _ _ Hgs) in Hx. destruct Hx as [? Hx].
      apply lookup_delete_Some in Hx as [_ ?]. by eauto. }
    destruct (is_global_alloc (v_kind d)) eqn:Eg.
    + apply remove_first_sorted in Hil as (Hin & Hs & Hm); [|done].
      constructor; simpl; try done.
      * intros x. rewrite Hm, Hal. naive_solver.
      * intros x Hx. by apply P3, Hkeys.
    + simplify_eq. constructor; simpl; try done.
      * intros x. rewrite Hal. split; [|naive_solver]. intros Hx. split; [|done].
        intros ->. apply P2 in Hx as (? & ? & ?). congruence.
      * intros x Hx. by apply P3, Hkeys.
  - unfold w_name_global in H. apply bind_Some in H as (p1 & H & Hw). simplify_eq. simpl.
    unfold prog_set_value_name in H.
    apply bind_Some in H as (d & Hd & H).
    apply bind_Some in H as (d' & Hn & H). simplify_eq.
    apply set_name_inv in Hn as (Hk & Hu & _). destruct HP as [P1 P2 P3 P4 P5 P6 P7 P8 P9].
    assert (Hsome : is_Some (p_values (w_prog w) !! v)) by eauto.
    constructor; simpl; try done.
    + intros x. rewrite P2. destruct (decide (x = v)) as [->|].
      * rewrite lookup_insert, Hd.
        split; intros (? & [= <-] & ?); eexists; (split; [done|]); congruence.
      * by rewrite lookup_insert_ne.
    + intros x. rewrite insert_is_Some by done. apply P3.
  - apply fmap_Some in H as ([f w1] & H & ->). simpl.
    unfold w_new_func_def in H. apply bind_Some in H as ([[f1 i1] p1] & H & Hw). simplify_eq.
    unfold prog_new_func_def in H. apply bind_Some in H as ([d i2] & Hd & H). simpl.
    unfold fdata_with_param_names in Hd. apply bind_Some in Hd as ([] & _ & Hd).
    apply bind_Some in Hd as ([[vs i3] g3] & Ha & Hd). simplify_eq.
    apply new_func_args_ids in Ha as [? ?]. by eapply new_func_pinv in H.
  - apply fmap_Some in H as ([f w1] & H & ->). simpl.
    unfold w_new_func_decl in H. apply bind_Some in H as ([[f1 i1] p1] & H & Hw). simplify_eq.
    unfold prog_new_func_decl in H. apply bind_Some in H as (d & Hd & H). simpl.
    by eapply new_func_pinv in H.
  - apply fmap_Some in H as ([d w1] & H & ->). simpl.
    unfold w_remove_func in H. apply bind_Some in H as ([d1 p1] & H & Hw). simplify_eq.
    unfold prog_remove_func in H. apply bind_Some in H as (fl & Hfl & H). simplify_eq. simpl.
    destruct HP as [P1 P2 P3 P4 P5 P6 P7 P8 P9].
    apply remove_first_sorted in Hfl as (Hin & Hs & Hm); [|done].
    constructor; simpl; try done.
    + intros x. rewrite Hm, P6. destruct (decide (x = f)) as [->|].
      * rewrite lookup_delete. split; [naive_solver|]. by intros [].
      * rewrite lookup_delete_ne by done. naive_solver.
    + intros x. destruct (decide (x = f)) as [->|].
      * by rewrite !lookup_delete.
      * by rewrite !lookup_delete_ne.
    + intros x Hx. apply P8. destruct Hx as [? Hx]. apply lookup_delete_Some in Hx as [_ ?]. by eauto.
Qed.

Lemma pinv0 : pinv ids0 program0.
Proof.
  constructor; simpl.
  - constructor.
  - intros v. split; [by intros Hx%elem_of_nil|]. by intros (d & ? & _).
  - by intros v (x & Hx).
  - done.
  - constructor.
  - intros v. split; [by intros Hx%elem_of_nil|]. by intros (x & Hx).
  - done.
  - by intros v (x & Hx).
  - done.
Qed.

Lemma run_pinv os : ∀ w w', pinv (w_ids w) (w_prog w) → run os w = Some w' →
  pinv (w_ids w') (w_prog w').
Proof.
  induction os as [|o os IH]; intros w w' HP H; simpl in H; [by simplify_eq|].
  apply bind_Some in H as (w1 & H1 & H). eapply IH; [|done]. by eapply step_pinv.
Qed.

Lemma run_layouts os w : run os world0 = Some w → layouts_exact (w_prog w).
Proof.
  intros H. apply run_pinv in H as [P1 P2 P3 P4 P5 P6 P7 P8 P9]; [|apply pinv0].
  repeat split; try done.
  - intros Hv. apply P2 in Hv as (d & Hd & Hk). exists d. split; [done|].
    destruct (v_kind d); try done. by eauto.
  - intros (d & Hd & init & Hk). apply P2. exists d. split; [done|]. by rewrite Hk.
  - by apply P6.
  - by apply P6.
Qed.

(** remove_func succeeds exactly on the live functions. *)
Lemma run_remove_func_ok os w f :
  run os world0 = Some w →
  is_Some (w_remove_func f w) ↔ is_Some (p_funcs (w_prog w) !! f).
Proof.
  intros H. apply run_layouts in H as (_ & _ & Hs & Hm & _). rewrite <- Hm.
  unfold w_remove_func, prog_remove_func. split.
  - intros [[d w'] Hr]. apply bind_Some in Hr as ([d1 p1] & Hr & _).
    apply bind_Some in Hr as (fl & Hr & _). by apply remove_first_sorted in Hr as (? & _).
  - intros Hin. destruct (remove_first_in _ _ Hin) as [l ->]. simpl. by eauto.
Qed.
