(** Operand graphs of programs that are never rewritten are acyclic (C12). *)
From Verif Require Import Base IdModel TypeModel IrModel LayoutModel BuilderModel WorldModel
  UsesSpec UsesProofs DfgSpec DfgProofs WorldSpec WorldProofs SkelProofs EqSpec EqProofs.
From Coq Require Import Lia.

Lemma on_dfg_inv {A} w f (op : ids → gmap N vdata → dfg → option (A * ids * gmap N vdata * dfg)) a w' :
  on_dfg w f op = Some (a, w') →
  ∃ fd i' gs' g', p_funcs (w_prog w) !! f = Some fd ∧
    op (w_ids w) (p_values (w_prog w)) (f_dfg fd) = Some (a, i', gs', g') ∧
    w' = World i' (set_func (set_values (w_prog w) gs') f (set_dfg fd g')).
Proof.
  unfold on_dfg. intros H. apply bind_Some in H as (fd & Hf & H).
  apply bind_Some in H as ([[[a1 i'] gs'] g'] & Ho & H). injection H as <- <-. by eauto 10.
Qed.

(** Operands are older than their users. *)
Definition ordered_map (m : gmap N (ty * vkind)) : Prop :=
  ∀ u t k v, m !! u = Some (t, k) → v ∈ operands k → (v < u)%N.

Definition ordered (p : program) : Prop :=
  ordered_map (skm (p_values p)) ∧
  ∀ f fd, p_funcs p !! f = Some fd → ordered_map (skm (vals fd)).

Lemma ordered_insert m v t k :
  ordered_map m → (∀ x, x ∈ operands k → (x < v)%N) → ordered_map (<[v := (t, k)]> m).
Proof.
  intros Hm Hk u t' k' x Hu Hx. destruct (decide (u = v)) as [->|Hne].
  - rewrite lookup_insert in Hu. injection Hu as <- <-. by apply Hk.
  - rewrite lookup_insert_ne in Hu by done. by eapply Hm.
Qed.

Lemma ordered_sub m m' :
  ordered_map m → (∀ x y, m' !! x = Some y → m !! x = Some y ∨ operands y.2 = []) →
  ordered_map m'.
Proof.
  intros Hm Hs u t k v Hu Hv. destruct (Hs _ _ Hu) as [H|H].
  - by eapply Hm.
  - simpl in H. rewrite H in Hv. inversion Hv.
Qed.

Lemma ordered_set_func p f fd gs' g' :
  ordered p → p_funcs p !! f = Some fd → skm gs' = skm (p_values p) →
  ordered_map (skm (d_values g')) →
  ordered (set_func (set_values p gs') f (set_dfg fd g')).
Proof.
  intros [H1 H2] Hf Hg Ho. split; simpl; [by rewrite Hg|].
  intros f' fd' Hf'. destruct (decide (f' = f)) as [->|Hne].
  - rewrite lookup_insert in Hf'. by injection Hf' as <-.
  - rewrite lookup_insert_ne in Hf' by done. by eapply H2.
Qed.

Lemma new_global_ordered w F d v w' :
  winv (w_ids w) (w_prog w) F → ordered (w_prog w) →
  w_new_global_data d w = Some (v, w') → ordered (w_prog w').
Proof.
  intros HW [H1 H2] H. unfold w_new_global_data, global_insert_value in H.
  apply bind_Some in H as ([[v1 i1] p1] & H & Hw). injection Hw as <- <-.
  apply bind_Some in H as ([[v2 i2] p2] & H & Hw). injection Hw as <- <- <-.
  unfold prog_new_value_data in H.
  apply bind_Some in H as ([v3 i3] & Hid & H).
  apply bind_Some in H as (gs' & Hgs & H). injection H as <- <- <-.
  apply next_global_spec in Hid as (-> & _ & _).
  rewrite value_uses_operands in Hgs. apply upd_guses_sk in Hgs as [Hgs Hex].
  assert (ordered (Program (<[next_gv (w_ids w) := d]> gs') (p_inst_layout (w_prog w))
    (p_funcs (w_prog w)) (p_func_tys (w_prog w)) (p_func_layout (w_prog w)))) as Ho.
  { split; [|done]. simpl. rewrite skm_insert, Hgs. apply ordered_insert; [done|].
    intros x Hx. by apply (wi_gid _ _ _ HW), Hex. }
  simpl. by destruct (is_global_alloc (v_kind d)).
Qed.

Lemma new_func_ordered i p d f i' p' :
  ordered p → ordered_map (skm (vals d)) → prog_new_func i p d = Some (f, i', p') → ordered p'.
Proof.
  intros [H1 H2] Hd H. unfold prog_new_func in H.
  apply bind_Some in H as ([f1 i1] & _ & H). injection H as <- <- <-.
  split; simpl; [done|]. intros f' fd' Hf'. destruct (decide (f' = f1)) as [->|Hne].
  - rewrite lookup_insert in Hf'. by injection Hf' as <-.
  - rewrite lookup_insert_ne in Hf' by done. by eapply H2.
Qed.

Lemma step_ordered o w w' F :
  winv (w_ids w) (w_prog w) F → rewrites o = false → ordered (w_prog w) →
  step o w = Some w' → ordered (w_prog w').
Proof.
  intros HW Hr Ho H. destruct o; cbn [step rewrites] in *; try done.
  - apply fmap_Some in H as ([v w1] & H & ->). simpl.
    apply on_dfg_inv in H as (fd & i' & gs' & g' & Hf & H & ->).
    apply bind_Some in H as (d & _ & H).
    assert (Hf' : F !! f = Some fd) by (eapply lookup_weaken; [done|apply HW]).
    pose proof (winv_dstate _ _ _ _ _ HW Hf') as Hst.
    apply new_value_sk in H as (Hid & E1 & E2 & _ & Hex).
    destruct (fresh_local _ _ _ _ _ _ Hst Hid) as (_ & _ & _ & _ & _ & Hlt).
    eapply ordered_set_func; [done|done|done|]. rewrite E2. apply ordered_insert.
    + exact (proj2 Ho _ _ Hf).
    + intros x Hx. apply Hlt. by apply Hex.
  - apply fmap_Some in H as ([v w1] & H & ->). simpl.
    apply on_dfg_inv in H as (fd & i' & gs' & g' & Hf & H & ->).
    assert (Hf' : F !! f = Some fd) by (eapply lookup_weaken; [done|apply HW]).
    pose proof (winv_dstate _ _ _ _ _ HW Hf') as Hst.
    apply new_value_sk in H as (Hid & E1 & E2 & _ & Hex).
    destruct (fresh_local _ _ _ _ _ _ Hst Hid) as (_ & _ & _ & _ & _ & Hlt).
    eapply ordered_set_func; [done|done|done|]. rewrite E2. apply ordered_insert.
    + exact (proj2 Ho _ _ Hf).
    + intros x Hx. apply Hlt. by apply Hex.
  - apply fmap_Some in H as ([d w1] & H & ->). simpl.
    apply on_dfg_inv in H as (fd & i' & gs' & g' & Hf & H & ->).
    apply bind_Some in H as ([[d1 gs1] g1] & H & Hx). injection Hx as <- <- <- <-.
    apply remove_value_sk in H as (_ & _ & E1 & E2 & _).
    eapply ordered_set_func; [done|done|done|]. rewrite E2.
    eapply ordered_sub; [exact (proj2 Ho _ _ Hf)|]. intros x y Hx. left.
    by apply lookup_delete_Some in Hx as [_ ?].
  - unfold w_name_local in H. apply bind_Some in H as ([[] w1] & H & Hw). injection Hw as <-.
    apply on_dfg_inv in H as (fd & i' & gs' & g' & Hf & H & ->).
    apply bind_Some in H as (g1 & H & Hx). injection Hx as <- <- <-.
    apply set_value_name_sk in H as [E _].
    eapply ordered_set_func; [done|done|done|]. rewrite E. exact (proj2 Ho _ _ Hf).
  - apply fmap_Some in H as ([b w1] & H & ->). simpl.
    apply on_dfg_inv in H as (fd & i' & gs' & g' & Hf & H & ->).
    assert (Hf' : F !! f = Some fd) by (eapply lookup_weaken; [done|apply HW]).
    pose proof (winv_dstate _ _ _ _ _ HW Hf') as Hst.
    unfold basic_block_with_param_names in H.
    apply bind_Some in H as ([] & _ & H). apply bind_Some in H as ([] & _ & H).
    apply bind_Some in H as ([[[vs i1] gs1] g1] & Ha & H).
    apply bind_Some in H as ([[b1 i2] g2] & Hb & H). injection H as <- <- <- <-.
    eapply new_block_args_sk in Ha as (E1 & _ & _ & E4 & _); [|done].
    unfold dfg_new_bb_data in Hb. apply bind_Some in Hb as ([? ?] & _ & Hb).
    injection Hb as <- <- <-. simpl in *.
    eapply ordered_set_func; [done|done|done|]. simpl.
    eapply ordered_sub; [exact (proj2 Ho _ _ Hf)|]. intros x [t k] Hx. simpl.
    destruct (E4 _ _ _ Hx) as [?|(_ & _ & j & ->)]; [by left|by right].
  - apply fmap_Some in H as ([d w1] & H & ->). simpl.
    apply on_dfg_inv in H as (fd & i' & gs' & g' & Hf & H & ->).
    apply bind_Some in H as ([bd g1] & H & Hx). injection Hx as <- <- <- <-.
    unfold dfg_remove_bb in H. apply bind_Some in H as (bd1 & _ & H).
    apply bind_Some in H as ([] & _ & H). apply bind_Some in H as (vs' & Hp & H).
    injection H as <- <-. simpl in *.
    apply remove_params_spec in Hp as (Hl & _ & _).
    eapply ordered_set_func; [done|done|done|]. simpl.
    eapply ordered_sub; [exact (proj2 Ho _ _ Hf)|]. intros x y Hx. left.
    rewrite lookup_fmap in Hx |- *. rewrite Hl in Hx.
    by destruct (decide (x ∈ bb_params bd1)).
  - apply fmap_Some in H as ([v w1] & H & ->). simpl. unfold w_new_global in H.
    apply bind_Some in H as (d & _ & H). by eapply new_global_ordered.
  - apply fmap_Some in H as ([v w1] & H & ->). simpl. by eapply new_global_ordered.
  - apply fmap_Some in H as ([d w1] & H & ->). simpl.
    unfold w_remove_global in H. apply bind_Some in H as ([d1 p1] & H & Hw). injection Hw as <- <-.
    unfold prog_remove_value in H. apply bind_Some in H as (d2 & _ & H).
    apply bind_Some in H as (il & _ & H). apply bind_Some in H as ([] & _ & H).
    apply bind_Some in H as (gs' & Hgs & H). injection H as <- <-. simpl.
    apply upd_guses_sk in Hgs as [Hgs _]. destruct Ho as [H1 H2]. split; simpl; [|done].
    rewrite Hgs, fmap_delete. eapply ordered_sub; [done|]. intros x y Hx. left.
    by apply lookup_delete_Some in Hx as [_ ?].
  - unfold w_name_global in H. apply bind_Some in H as (p1 & H & Hw). injection Hw as <-.
    unfold prog_set_value_name in H. apply bind_Some in H as (d & Hd & H).
    apply bind_Some in H as (d' & Hs & H). injection H as <-. destruct Ho as [H1 H2].
    split; simpl; [|done]. unfold set_name in Hs. destruct (valid_opt_name n); [|done].
    injection Hs as <-. rewrite skm_insert. rewrite insert_id; [done|].
    by rewrite lookup_fmap, Hd.
  - apply fmap_Some in H as ([f w1] & H & ->). simpl.
    unfold w_new_func_def in H. apply bind_Some in H as ([[f1 i1] p1] & H & Hw). injection Hw as <- <-.
    unfold prog_new_func_def in H. apply bind_Some in H as ([d i2] & Hd & H). simpl.
    eapply new_func_ordered; [done| |exact H].
    unfold fdata_with_param_names in Hd. apply bind_Some in Hd as ([] & _ & Hd).
    apply bind_Some in Hd as ([[vs i3] g3] & Ha & Hd). injection Hd as <- <-. simpl.
    eapply new_func_args_sk in Ha as [_ Ha]; [|by eapply dstate_empty].
    eapply (ordered_sub ∅); [by intros ?????|]. intros x [t k] Hx.
    destruct (Ha _ _ _ Hx) as [Hx'|(_ & j & ->)].
    + simpl in Hx'. rewrite lookup_fmap, lookup_empty in Hx'. done.
    + by right.
  - apply fmap_Some in H as ([f w1] & H & ->). simpl.
    unfold w_new_func_decl in H. apply bind_Some in H as ([[f1 i1] p1] & H & Hw). injection Hw as <- <-.
    unfold prog_new_func_decl in H. apply bind_Some in H as (d & Hd & H). simpl.
    eapply new_func_ordered; [done| |exact H].
    unfold fdata_new_decl in Hd. apply bind_Some in Hd as ([] & _ & Hd). injection Hd as <-.
    simpl. rewrite fmap_empty. by intros ?????.
  - apply fmap_Some in H as ([d w1] & H & ->). simpl.
    unfold w_remove_func in H. apply bind_Some in H as ([d1 p1] & H & Hw). injection Hw as <- <-.
    unfold prog_remove_func in H. apply bind_Some in H as (fl & _ & H). injection H as <- <-.
    destruct Ho as [H1 H2]. split; simpl; [done|]. intros f' fd' Hf'.
    apply lookup_delete_Some in Hf' as [_ Hf']. by eapply H2.
Qed.

Lemma run_ordered os : ∀ w w' F,
  winv (w_ids w) (w_prog w) F → throughout tidy os w →
  (next_gv (w_ids w) + globals_created os ≤ local_value_id_starts_from)%N →
  (∀ o, o ∈ os → rewrites o = false) → ordered (w_prog w) →
  run os w = Some w' → ordered (w_prog w').
Proof.
  induction os as [|o os IH]; intros w w' F HW Hok Hg Hr Ho H.
  - simpl in H. by injection H as <-.
  - simpl in H, Hok. destruct Hok as [Hok1 Hok2].
    apply bind_Some in H as (w1 & H1 & H).
    rewrite globals_created_cons in Hg.
    destruct (step_winv o w w1 F HW Hok1) as (Hgv & F' & HW' & _); [|done|].
    + intros Hc. rewrite Hc in Hg. lia.
    + assert (ordered (w_prog w1)) as Ho1.
      { apply (step_ordered o w w1 F); [done| |done|done]. apply Hr. by left. }
      eapply (IH w1 w' F'); [done|by apply Hok2| | |done|done].
      * rewrite Hgv. lia.
      * intros o' Ho'. apply Hr. by right.
Qed.

Lemma reach_ordered os w :
  run os world0 = Some w → throughout tidy os world0 →
  (globals_created os < local_value_id_starts_from)%N →
  (∀ o, o ∈ os → rewrites o = false) → ordered (w_prog w).
Proof.
  intros Hr Ht Hg Hn. eapply (run_ordered os world0 w ∅); [apply winv0|done| |done| |done].
  - unfold world0, ids0. simpl. unfold global_value_id_starts_from. lia.
  - split; [by intros ?????|]. by intros ???.
Qed.

(** A finite unfolding exists. *)
Lemma unfold_exists (m : gmap N vdata) :
  (∀ u d v, m !! u = Some d → v ∈ operands (v_kind d) → (v < u)%N ∧ is_Some (m !! v)) →
  ∀ u, is_Some (m !! u) → ∃ t, unfolds m u t.
Proof.
  intros Hm. apply (well_founded_induction_type N.lt_wf_0 (λ u, is_Some (m !! u) → ∃ t, unfolds m u t)).
  intros u IH [d Hd].
  assert (∃ ts, Forall2 (unfolds m) (operands (v_kind d)) ts) as [ts Hts].
  { assert (∀ v, v ∈ operands (v_kind d) → ∃ t, unfolds m v t) as Hall.
    { intros v Hv. destruct (Hm _ _ _ Hd Hv). by apply IH. }
    revert Hall. generalize (operands (v_kind d)). intros l. induction l as [|x l IHl]; intros Hall.
    - exists []. constructor.
    - destruct (Hall x ltac:(by left)) as [t Ht].
      destruct IHl as [ts Hts]; [intros v Hv; apply Hall; by right|].
      exists (t :: ts). by constructor. }
  eexists. by econstructor.
Qed.

Lemma reach_unfolds os w f fd v :
  run os world0 = Some w → throughout tidy os world0 →
  (globals_created os < local_value_id_starts_from)%N →
  (∀ o, o ∈ os → rewrites o = false) →
  p_funcs (w_prog w) !! f = Some fd →
  is_Some ((p_values (w_prog w) ∪ vals fd) !! v) →
  ∃ t, unfolds (p_values (w_prog w) ∪ vals fd) v t.
Proof.
  intros Hr Ht Hg Hn Hf. pose proof (reach_ordered os w Hr Ht Hg Hn) as [Ho1 Ho2].
  pose proof (reach_no_dangling os w Hr Ht Hg) as (N1 & N2 & _).
  apply unfold_exists. intros u d x Hu Hx.
  apply lookup_union_Some_raw in Hu as [Hu|[Hu' Hu]].
  - split.
    + eapply Ho1; [by rewrite lookup_fmap, Hu|done].
    + destruct (N1 u x) as [y Hy]; [by exists d|].
      eexists. by apply lookup_union_Some_l.
  - split.
    + eapply Ho2; [done|by rewrite lookup_fmap, Hu|done].
    + apply lookup_union_is_Some. apply (N2 f fd u x Hf). by exists d.
Qed.
