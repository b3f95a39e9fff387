(** Operations on one data flow graph, without reference to the counters of handles. *)
From Verif Require Import Base IdModel TypeModel IrModel LayoutModel BuilderModel
  UsesSpec DfgSpec LayoutSpec UsesProofs DfgProofs DceModel DceSpec.

Lemma graph_dinv E gs vs bs : graph_ok E gs vs bs → dinv E gs vs bs.
Proof. intros [H1 H2 H3 H4 H5 H6 H7 H8]. by constructor. Qed.

(** Data without the users *)
Notation vsk m x := (clone_vdata <$> m !! x).
Definition bsk (d : bbdata) : option string * list value := (bb_name d, bb_params d).

Lemma touch_skel f us m x : vsk (touch f us m) x = vsk m x.
Proof. symmetry. apply same_skel_touch. Qed.
Lemma touchb_skel f us m b : bsk <$> touchb f us m !! b = bsk <$> m !! b.
Proof.
  rewrite touchb_lookup, <- option_fmap_compose. apply option_fmap_ext. intros d. simpl.
  by destruct (decide _).
Qed.

Record removed (gs : gmap N vdata) (g : dfg) (v : value) (gs' : gmap N vdata) (g' : dfg) : Prop := {
  rm_had : ∃ d, d_values g !! v = Some d ∧ v_used_by d = ∅;
  rm_gone : d_values g' !! v = None;
  rm_rest : ∀ x, x ≠ v → vsk (d_values g') x = vsk (d_values g) x;
  rm_bbs : ∀ b, bsk <$> d_bbs g' !! b = bsk <$> d_bbs g !! b;
  rm_skel : same_skel gs gs';
}.
Lemma remove_graph E gs g v d gs' g' :
  graph_ok E gs (d_values g) (d_bbs g) → dfg_remove_value gs g v = Some (d, gs', g') →
  graph_ok E gs' (d_values g') (d_bbs g') ∧ removed gs g v gs' g'.
Proof.
  intros Hok H. pose proof (graph_dinv _ _ _ _ Hok) as Hinv.
  apply dfg_remove_value_effect in H as (Hv & Hub & -> & -> & Hself); [|apply Hinv].
  assert (HEv : ∀ x, ¬ E x v).
  { intros x Hx. apply (go_out _ _ _ _ Hok) in Hx. congruence. }
  destruct (detach_inv E gs (d_values g) (d_bbs g) v d Hinv HEv Hv Hself)
    as (J1 & J2 & J3 & J4 & J5 & J6 & J7).
  split.
  - constructor; simpl; try done.
    + intros u x Hux. destruct (J4 _ _ Hux) as [?|[?| ->]]; [by left|by right|].
      rewrite uses_touch, uses_delete in Hux. destruct Hux as [_ Hux].
      apply (di_loc _ _ _ _ Hinv _ _ Hv) in Hux. rewrite Hub in Hux. set_solver.
    + intros x u Hx. pose proof (go_out _ _ _ _ Hok _ _ Hx) as Hn.
      by rewrite touch_lookup, lookup_delete_ne, Hn by (intros <-; by apply (HEv x)).
  - constructor; simpl.
    + by exists d.
    + by rewrite touch_lookup, lookup_delete.
    + intros x Hx. by rewrite touch_skel, lookup_delete_ne.
    + intros b. apply touchb_skel.
    + apply same_skel_touch.
Qed.

Record replaced (gs : gmap N vdata) (g : dfg) (v : value) (data : vdata) (gs' : gmap N vdata)
    (g' : dfg) : Prop := {
  rp_had : ∃ d, d_values g !! v = Some d ∧
    d_values g' !! v = Some (VData (v_ty data) (v_name data) (v_kind data) (v_used_by d));
  rp_rest : ∀ x, x ≠ v → vsk (d_values g') x = vsk (d_values g) x;
  rp_bbs : ∀ b, bsk <$> d_bbs g' !! b = bsk <$> d_bbs g !! b;
  rp_skel : same_skel gs gs';
}.
Lemma replace_graph E gs g v data gs' g' :
  graph_ok E gs (d_values g) (d_bbs g) → dfg_replace_value_with_data gs g v data = Some (gs', g') →
  graph_ok E gs' (d_values g') (d_bbs g') ∧ replaced gs g v data gs' g'.
Proof.
  intros Hok H. pose proof (graph_dinv _ _ _ _ Hok) as Hinv.
  unfold dfg_replace_value_with_data in H.
  apply bind_Some in H as (old & Hv & H).
  apply bind_Some in H as ([gs1 vs1] & H1 & H).
  apply bind_Some in H as (bs1 & H2 & H).
  apply bind_Some in H as ([gs2 vs2] & H3 & H).
  apply bind_Some in H as (bs2 & H4 & H). simplify_eq.
  destruct (replace_effect gs g v (λ _, data) gs1 vs1 bs1 gs' vs2 bs2 old)
    as (-> & -> & -> & -> & -> & -> & Hself & Hex & Hbex); [apply Hinv|done..|].
  assert (HEv : ∀ x, ¬ E x v).
  { intros x Hx. apply (go_out _ _ _ _ Hok) in Hx. congruence. }
  assert (Hgv : gs !! v = None).
  { destruct (gs !! v) eqn:Eg; [|done].
    rewrite (di_disj _ _ _ _ Hinv v) in Hv; [done|by eauto]. }
  destruct (detach_inv E gs (d_values g) (d_bbs g) v old Hinv HEv Hv Hself)
    as (J1 & J2 & J3 & J4 & J5 & J6 & J7).
  set (d' := VData (v_ty data) (v_name data) (v_kind data) (v_used_by old)).
  assert (HD : dinv E (touch (add_user v) (operands (v_kind d')) (touch (del_user v) (operands (v_kind old)) gs))
    (<[v := d']> (touch (add_user v) (operands (v_kind d')) (touch (del_user v) (operands (v_kind old)) (delete v (d_values g)))))
    (touchb (add_user v) (targets (v_kind d')) (touchb (del_user v) (targets (v_kind old)) (d_bbs g)))).
  { apply attach_inv; try done.
    * by rewrite touch_lookup, Hgv.
    * by rewrite touch_lookup, lookup_delete.
    * intros u. simpl. rewrite (di_loc _ _ _ _ Hinv _ _ Hv).
      rewrite uses_touch, uses_delete. split; [|naive_solver].
      intros Huv. split; [|done]. intros ->. destruct Huv as (? & ? & ?).
      apply Hself. congruence. }
  split.
  - destruct HD as [I1 I2 I3 I4 I5 I6 I7]. constructor; simpl; try done.
    intros x u Hx. pose proof (go_out _ _ _ _ Hok _ _ Hx) as Hn.
    rewrite lookup_insert_ne by (intros <-; by apply (HEv x)).
    by rewrite !touch_lookup, lookup_delete_ne, Hn by (intros <-; by apply (HEv x)).
  - constructor; simpl.
    + exists old. by rewrite lookup_insert.
    + intros x Hx. by rewrite lookup_insert_ne, !touch_skel, lookup_delete_ne by done.
    + intros b. by rewrite !touchb_skel.
    + eapply same_skel_trans; apply same_skel_touch.
Qed.

(** ** When they succeed *)

Lemma remove_total E gs g v d : graph_ok E gs (d_values g) (d_bbs g) →
  d_values g !! v = Some d → (∀ u, ¬ uses (d_values g) u v) → is_Some (dfg_remove_value gs g v).
Proof.
  intros Hok Hv Hn. pose proof (graph_dinv _ _ _ _ Hok) as Hinv.
  unfold dfg_remove_value. rewrite Hv. cbn [mbind option_bind].
  assert (v_used_by d = ∅) as Hub.
  { apply set_eq. intros u. rewrite (di_loc _ _ _ _ Hinv _ _ Hv). set_solver. }
  rewrite bool_decide_eq_true_2 by done. simpl.
  rewrite value_uses_operands, bb_uses_targets.
  assert (Hself : v ∉ operands (v_kind d)).
  { intros Hin. apply (Hn v). exists d. done. }
  destruct (upd_uses_spec (del_user v) (operands (v_kind d)) (del_user_idem v)
              gs (delete v (d_values g))) as [[-> _]|[_ (u & Hu & H1 & H2)]].
  - intros x Hx. apply lookup_delete_None. right. by apply (di_disj _ _ _ _ Hinv).
  - simpl. destruct (upd_bb_uses_spec (del_user v) (targets (v_kind d)) (del_user_idem v)
      (d_bbs g)) as [[-> _]|[_ (u & Hu & H1)]]; [by eauto|].
    exfalso. assert (jumps_to (d_values g) v u) as Hj by (by exists d).
    apply (di_bex _ _ _ _ Hinv) in Hj. rewrite H1 in Hj. by destruct Hj.
  - exfalso. assert (uses (d_values g) v u) as Hj by (by exists d).
    apply (di_ex _ _ _ _ Hinv) in Hj. rewrite lookup_delete_ne in H2 by (by intros <-).
    rewrite H1, H2 in Hj. by destruct Hj as [[]|[]].
Qed.

Lemma replace_total E gs g v old data : graph_ok E gs (d_values g) (d_bbs g) →
  d_values g !! v = Some old →
  (∀ u, u ∈ operands (v_kind data) → u ≠ v ∧ (is_Some (gs !! u) ∨ is_Some (d_values g !! u))) →
  (∀ b, b ∈ targets (v_kind data) → is_Some (d_bbs g !! b)) →
  is_Some (dfg_replace_value_with_data gs g v data).
Proof.
  intros Hok Hv Hex Hbex. pose proof (graph_dinv _ _ _ _ Hok) as Hinv.
  unfold dfg_replace_value_with_data. rewrite Hv. cbn [mbind option_bind].
  rewrite !value_uses_operands, !bb_uses_targets.
  assert (Hd' : vdisj gs (delete v (d_values g))).
  { intros x Hx. apply lookup_delete_None. right. by apply (di_disj _ _ _ _ Hinv). }
  assert (Hself : v ∉ operands (v_kind old)).
  { intros Hin. apply (di_irr _ _ _ _ Hinv v). by exists old. }
  destruct (upd_uses_spec (del_user v) (operands (v_kind old)) (del_user_idem v)
              gs (delete v (d_values g)) Hd') as [[-> _]|[_ (u & Hu & H1 & H2)]].
  2:{ exfalso. assert (uses (d_values g) v u) as Hj by (by exists old).
      apply (di_ex _ _ _ _ Hinv) in Hj. rewrite lookup_delete_ne in H2 by (by intros <-).
      rewrite H1, H2 in Hj. by destruct Hj as [[]|[]]. }
  destruct (upd_bb_uses_spec (del_user v) (targets (v_kind old)) (del_user_idem v)
      (d_bbs g)) as [[-> _]|[_ (u & Hu & H1)]].
  2:{ exfalso. assert (jumps_to (d_values g) v u) as Hj by (by exists old).
      apply (di_bex _ _ _ _ Hinv) in Hj. rewrite H1 in Hj. by destruct Hj. }
  cbn [mbind option_bind].
  destruct (upd_uses_spec (add_user v) (operands (v_kind data)) (add_user_idem v)
    (touch (del_user v) (operands (v_kind old)) gs)
    (touch (del_user v) (operands (v_kind old)) (delete v (d_values g))))
    as [[-> _]|[_ (u & Hu & H1 & H2)]]; [by apply vdisj_touch| |].
  2:{ exfalso. destruct (Hex _ Hu) as [Hne Hor].
      rewrite touch_lookup in H1, H2. rewrite lookup_delete_ne in H2 by (by intros <-).
      apply fmap_None in H1. apply fmap_None in H2. rewrite H1, H2 in Hor.
      by destruct Hor as [[]|[]]. }
  cbn [mbind option_bind].
  destruct (upd_bb_uses_spec (add_user v) (targets (v_kind data)) (add_user_idem v)
      (touchb (del_user v) (targets (v_kind old)) (d_bbs g))) as [[-> _]|[_ (u & Hu & H2)]].
  2:{ exfalso. specialize (Hbex _ Hu). rewrite touchb_lookup in H2.
      apply fmap_None in H2. rewrite H2 in Hbex. by destruct Hbex. }
  by eauto.
Qed.
