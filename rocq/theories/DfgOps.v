(** Exact effect of removals and replacements in reachable programs (C08-C10). *)
From Verif Require Import Base IdModel TypeModel IrModel LayoutModel BuilderModel WorldModel
  UsesSpec UsesProofs DfgSpec DfgProofs WorldSpec WorldProofs.
From Coq Require Import Lia.

Lemma with_users_id d : with_users d (v_used_by d) = d.
Proof. by destruct d. Qed.
Lemma bb_with_users_id d : bb_with_users d (bb_used_by d) = d.
Proof. by destruct d. Qed.

Lemma upd_used_by_with f d : upd_used_by f d = with_users d (f (v_used_by d)).
Proof. done. Qed.

(** Deleting a user from exactly the lists that mention it = deleting it everywhere. *)
Lemma touch_del_all v us (m : gmap N vdata) :
  (∀ x d, m !! x = Some d → v ∈ v_used_by d → x ∈ us) →
  ∀ x, touch (del_user v) us m !! x = (λ d, with_users d (v_used_by d ∖ {[v]})) <$> m !! x.
Proof.
  intros H x. rewrite touch_lookup. destruct (m !! x) as [d|] eqn:E; [|done]. simpl. f_equal.
  destruct (decide (x ∈ us)) as [|Hn]; [done|].
  assert (v ∉ v_used_by d) by (intros ?; by eapply Hn, H).
  rewrite <- (with_users_id d) at 1. f_equal. set_solver.
Qed.

Lemma touchb_del_all v us (m : gmap N bbdata) :
  (∀ x d, m !! x = Some d → v ∈ bb_used_by d → x ∈ us) →
  ∀ x, touchb (del_user v) us m !! x = (λ d, bb_with_users d (bb_used_by d ∖ {[v]})) <$> m !! x.
Proof.
  intros H x. rewrite touchb_lookup. destruct (m !! x) as [d|] eqn:E; [|done]. simpl. f_equal.
  destruct (decide (x ∈ us)) as [|Hn]; [done|].
  assert (v ∉ bb_used_by d) by (intros ?; by eapply Hn, H).
  rewrite <- (bb_with_users_id d) at 1. f_equal. set_solver.
Qed.

Section dfg.
  Context (E : N → N → Prop) (i : ids) (gs : gmap N vdata) (g : dfg).
  Hypothesis Hs : dstate E i gs g.
  Let Hinv := ds_inv _ _ _ _ Hs.

  Lemma mentions_glob v d : d_values g !! v = Some d →
    ∀ x dx, gs !! x = Some dx → v ∈ v_used_by dx → x ∈ operands (v_kind d).
  Proof.
    intros Hv x dx Hx Hin. apply (di_glob _ _ _ _ Hinv _ _ Hx) in Hin as [HE|Hu].
    - apply (ds_E _ _ _ _ Hs) in HE as [_ ?]. congruence.
    - destruct Hu as (? & ? & ?). by simplify_eq.
  Qed.
  Lemma mentions_loc v d : d_values g !! v = Some d →
    ∀ x dx, d_values g !! x = Some dx → v ∈ v_used_by dx → x ∈ operands (v_kind d).
  Proof.
    intros Hv x dx Hx Hin. apply (di_loc _ _ _ _ Hinv _ _ Hx) in Hin.
    destruct Hin as (? & ? & ?). by simplify_eq.
  Qed.
  Lemma mentions_bb v d : d_values g !! v = Some d →
    ∀ x dx, d_bbs g !! x = Some dx → v ∈ bb_used_by dx → x ∈ targets (v_kind d).
  Proof.
    intros Hv x dx Hx Hin. apply (di_bb _ _ _ _ Hinv _ _ Hx) in Hin.
    destruct Hin as (? & ? & ?). by simplify_eq.
  Qed.

  Lemma glob_not_local v d : d_values g !! v = Some d → gs !! v = None.
  Proof.
    intros Hv. destruct (gs !! v) eqn:Eg; [|done].
    rewrite (di_disj _ _ _ _ Hinv v) in Hv; [done|by eauto].
  Qed.

  Lemma dfg_remove_value_ok v d :
    d_values g !! v = Some d → (∀ u, ¬ uses (d_values g) u v) →
    is_Some (dfg_remove_value gs g v).
  Proof.
    intros Hv Hn. unfold dfg_remove_value. rewrite Hv. cbn [mbind option_bind].
    assert (v_used_by d = ∅) as Hub.
    { apply set_eq. intros u. rewrite (di_loc _ _ _ _ Hinv _ _ Hv). set_solver. }
    rewrite bool_decide_eq_true_2 by done. simpl.
    rewrite value_uses_operands, bb_uses_targets.
    assert (Hself : v ∉ operands (v_kind d)).
    { intros Hin. apply (Hn v). exists d. done. }
    destruct (upd_uses_spec (del_user v) (operands (v_kind d)) (del_user_idem v)
                gs (delete v (d_values g))) as [[-> _]|[_ (u & Hu & H1 & H2)]].
    - intros x Hx. apply lookup_delete_None. right. by apply (di_disj _ _ _ _ Hinv).
    - simpl. destruct (upd_bb_uses_spec (del_user v) (targets (v_kind d)) (del_user_idem v)
        (d_bbs g)) as [[-> _]|[_ (u & Hu & H1)]]; [by eauto|].
      exfalso. assert (jumps_to (d_values g) v u) as Hj by (by exists d).
      apply (di_bex _ _ _ _ Hinv) in Hj. rewrite H1 in Hj. by destruct Hj.
    - exfalso. assert (uses (d_values g) v u) as Hj by (by exists d).
      apply (di_ex _ _ _ _ Hinv) in Hj. rewrite lookup_delete_ne in H2 by (by intros <-).
      rewrite H1, H2 in Hj. by destruct Hj as [[]|[]].
  Qed.

  Lemma dfg_remove_value_frame v d gs' g' :
    dfg_remove_value gs g v = Some (d, gs', g') →
    d_values g !! v = Some d ∧ (∀ u, ¬ uses (d_values g) u v) ∧
    d_values g' !! v = None ∧
    without_user v gs gs' ∧ without_user v (d_values g) (d_values g') ∧
    bb_without_user v (d_bbs g) (d_bbs g').
  Proof.
    intros H. apply dfg_remove_value_effect in H as (Hv & Hub & -> & -> & Hself);
      [|apply Hinv]. simpl.
    split; [done|]. split; [|split; [|split; [|split]]].
    - intros u Hu. apply (di_loc _ _ _ _ Hinv _ _ Hv) in Hu. set_solver.
    - by rewrite touch_lookup, lookup_delete.
    - intros x Hx. apply touch_del_all. by apply mentions_glob.
    - intros x Hx. rewrite touch_del_all.
      + by rewrite lookup_delete_ne.
      + intros y dy Hy. apply lookup_delete_Some in Hy as [_ Hy]. by eapply mentions_loc.
    - intros x. apply touchb_del_all. by apply mentions_bb.
  Qed.

  (** Both [replace_value_with_data] and [update_value] put this data in place. *)
  Lemma replaced_frame v old d' gs1 vs1 bs1 gs2 vs2 bs2 k' :
    d_values g !! v = Some old →
    upd_uses (del_user v) (value_uses (v_kind old)) gs (delete v (d_values g)) = Some (gs1, vs1) →
    upd_bb_uses (del_user v) (bb_uses (v_kind old)) (d_bbs g) = Some bs1 →
    upd_uses (add_user v) (value_uses k') gs1 vs1 = Some (gs2, vs2) →
    upd_bb_uses (add_user v) (bb_uses k') bs1 = Some bs2 →
    <[v := d']> vs2 !! v = Some d' ∧
    moved_user v (operands k') gs gs2 ∧
    moved_user v (operands k') (d_values g) (<[v := d']> vs2) ∧
    bb_moved_user v (targets k') (d_bbs g) bs2.
  Proof.
    intros Hv H1 H2 H3 H4.
    destruct (replace_effect gs g v (λ _, VData (v_ty old) None k' ∅) gs1 vs1 bs1 gs2 vs2 bs2 old)
      as (-> & -> & -> & -> & -> & -> & Hself & Hex & Hbex); [apply Hinv|done..|].
    simpl in *. split; [by rewrite lookup_insert|]. split; [|split].
    - intros x Hx. rewrite touch_lookup, touch_del_all by (by apply mentions_glob).
      destruct (gs !! x) as [dx|]; [|done]. simpl. f_equal.
      destruct (decide (x ∈ operands k')); [|done].
      rewrite upd_used_by_with. unfold with_users, add_user; simpl. f_equal.
      apply set_eq. intros y. destruct (decide (y = v)); set_solver.
    - intros x Hx. rewrite lookup_insert_ne by done.
      rewrite touch_lookup, touch_del_all.
      2:{ intros y dy Hy. apply lookup_delete_Some in Hy as [_ Hy]. by eapply mentions_loc. }
      rewrite lookup_delete_ne by done. destruct (d_values g !! x) as [dx|]; [|done].
      simpl. f_equal. destruct (decide (x ∈ operands k')); [|done].
      rewrite upd_used_by_with. unfold with_users, add_user; simpl. f_equal.
      apply set_eq. intros y. destruct (decide (y = v)); set_solver.
    - intros x. rewrite touchb_lookup, touchb_del_all by (by apply mentions_bb).
      destruct (d_bbs g !! x) as [dx|]; [|done]. simpl. f_equal.
      destruct (decide (x ∈ targets k')); [|done].
      unfold bb_with_users, upd_bb_used_by, add_user; simpl. f_equal.
      apply set_eq. intros y. destruct (decide (y = v)); set_solver.
  Qed.

  (** When the four loops succeed. *)
  Lemma replace_loops_ok v old k' :
    d_values g !! v = Some old →
    (∀ u, u ∈ operands k' → u ≠ v ∧ (is_Some (gs !! u) ∨ is_Some (d_values g !! u))) →
    (∀ b, b ∈ targets k' → is_Some (d_bbs g !! b)) →
    v ∉ operands (v_kind old) →
    ∃ gs1 vs1 bs1 gs2 vs2 bs2,
    upd_uses (del_user v) (value_uses (v_kind old)) gs (delete v (d_values g)) = Some (gs1, vs1) ∧
    upd_bb_uses (del_user v) (bb_uses (v_kind old)) (d_bbs g) = Some bs1 ∧
    upd_uses (add_user v) (value_uses k') gs1 vs1 = Some (gs2, vs2) ∧
    upd_bb_uses (add_user v) (bb_uses k') bs1 = Some bs2.
  Proof.
    intros Hv Hex Hbex Hself. rewrite !value_uses_operands, !bb_uses_targets.
    assert (Hd' : vdisj gs (delete v (d_values g))).
    { intros x Hx. apply lookup_delete_None. right. by apply (di_disj _ _ _ _ Hinv). }
    destruct (upd_uses_spec (del_user v) (operands (v_kind old)) (del_user_idem v)
                gs (delete v (d_values g)) Hd') as [[-> _]|[_ (u & Hu & H1 & H2)]].
    2:{ exfalso. assert (uses (d_values g) v u) as Hj by (by exists old).
        apply (di_ex _ _ _ _ Hinv) in Hj. rewrite lookup_delete_ne in H2 by (by intros <-).
        rewrite H1, H2 in Hj. by destruct Hj as [[]|[]]. }
    destruct (upd_bb_uses_spec (del_user v) (targets (v_kind old)) (del_user_idem v)
        (d_bbs g)) as [[-> _]|[_ (u & Hu & H1)]].
    2:{ exfalso. assert (jumps_to (d_values g) v u) as Hj by (by exists old).
        apply (di_bex _ _ _ _ Hinv) in Hj. rewrite H1 in Hj. by destruct Hj. }
    eexists _, _, _.
    destruct (upd_uses_spec (add_user v) (operands k') (add_user_idem v)
      (touch (del_user v) (operands (v_kind old)) gs)
      (touch (del_user v) (operands (v_kind old)) (delete v (d_values g))))
      as [[H1 _]|[_ (u & Hu & H1 & H2)]]; [by apply vdisj_touch| |].
    2:{ exfalso. destruct (Hex _ Hu) as [Hne Hor].
        rewrite touch_lookup in H1, H2. rewrite lookup_delete_ne in H2 by (by intros <-).
        apply fmap_None in H1. apply fmap_None in H2. rewrite H1, H2 in Hor.
        by destruct Hor as [[]|[]]. }
    destruct (upd_bb_uses_spec (add_user v) (targets k') (add_user_idem v)
        (touchb (del_user v) (targets (v_kind old)) (d_bbs g))) as [[H2 _]|[_ (u & Hu & H2)]].
    2:{ exfalso. specialize (Hbex _ Hu). rewrite touchb_lookup in H2.
        apply fmap_None in H2. rewrite H2 in Hbex. by destruct Hbex. }
    by eexists _, _, _.
  Qed.

  Lemma no_self_use v d : d_values g !! v = Some d → (∀ u, ¬ uses (d_values g) u v) →
    v ∉ operands (v_kind d).
  Proof. intros Hv Hn Hin. apply (Hn v). by exists d. Qed.
End dfg.

(** ** World level *)

Lemma reachable_dstate w f fd :
  reachable w → p_funcs (w_prog w) !! f = Some fd →
  ∃ E, dstate E (w_ids w) (p_values (w_prog w)) (f_dfg fd).
Proof.
  intros (os & Hr & Ht & Hg) Hf. destruct (reach_winv os w Hr Ht Hg) as (F & HW & _).
  eexists. eapply winv_dstate; [done|]. eapply lookup_weaken; [done|apply HW].
Qed.

Lemma w_remove_local_iff w f fd v :
  reachable w → p_funcs (w_prog w) !! f = Some fd →
  is_Some (w_remove_local f v w) ↔
  is_Some (vals fd !! v) ∧ ∀ u, ¬ uses (vals fd) u v.
Proof.
  intros Hr Hf. destruct (reachable_dstate _ _ _ Hr Hf) as [E Hs].
  unfold w_remove_local, on_dfg. rewrite Hf. cbn [mbind option_bind]. split.
  - intros [x Hx]. apply bind_Some in Hx as ([[[d i'] gs'] g'] & Hx & _).
    apply bind_Some in Hx as ([[d1 gs1] g1] & Hx & _).
    eapply dfg_remove_value_frame in Hx as (Hv & Hn & _); [|done]. split; [by eauto|done].
  - intros [[d Hv] Hn]. destruct (dfg_remove_value_ok _ _ _ _ Hs v d Hv Hn) as [[[d1 gs1] g1] ->].
    simpl. by eauto.
Qed.

Lemma w_remove_local_frame w f fd v d w' :
  reachable w → p_funcs (w_prog w) !! f = Some fd →
  w_remove_local f v w = Some (d, w') →
  ∃ g', vals fd !! v = Some d ∧
    p_funcs (w_prog w') = <[f := set_dfg fd g']> (p_funcs (w_prog w)) ∧
    d_values g' !! v = None ∧
    without_user v (p_values (w_prog w)) (p_values (w_prog w')) ∧
    without_user v (vals fd) (d_values g') ∧
    bb_without_user v (blks fd) (d_bbs g').
Proof.
  intros Hr Hf H. destruct (reachable_dstate _ _ _ Hr Hf) as [E Hs].
  unfold w_remove_local, on_dfg in H. rewrite Hf in H. cbn [mbind option_bind] in H.
  apply bind_Some in H as ([[[d0 i'] gs'] g'] & Hx & H). simplify_eq.
  apply bind_Some in Hx as ([[d1 gs1] g1] & Hx & H). simplify_eq. simpl.
  eapply dfg_remove_value_frame in Hx as (Hv & Hn & H1 & H2 & H3 & H4); [|done].
  by exists g'.
Qed.

Lemma w_replace_data_iff w f fd v data :
  reachable w → p_funcs (w_prog w) !! f = Some fd →
  is_Some (w_replace_data f v data w) ↔
  is_Some (vals fd !! v) ∧
  (∀ u, u ∈ operands (v_kind data) → u ≠ v ∧
     (is_Some (p_values (w_prog w) !! u) ∨ is_Some (vals fd !! u))) ∧
  (∀ b, b ∈ targets (v_kind data) → is_Some (blks fd !! b)).
Proof.
  intros Hr Hf. destruct (reachable_dstate _ _ _ Hr Hf) as [E Hs].
  unfold w_replace_data, on_dfg. rewrite Hf. cbn [mbind option_bind]. split.
  - intros [x Hx]. apply bind_Some in Hx as ([[] w1] & Hx & _).
    apply bind_Some in Hx as ([[[d i'] gs'] g'] & Hx & _).
    apply bind_Some in Hx as ([gs1 g1] & Hx & _).
    unfold dfg_replace_value_with_data in Hx.
    apply bind_Some in Hx as (old & Hold & H).
    apply bind_Some in H as ([gs2 vs2] & H1 & H).
    apply bind_Some in H as (bs2 & H2 & H).
    apply bind_Some in H as ([gs3 vs3] & H3 & H).
    apply bind_Some in H as (bs3 & H4 & H). simplify_eq.
    destruct (replace_effect (p_values (w_prog w)) (f_dfg fd) v (λ _, data) _ _ _ _ _ _ old
      (di_disj _ _ _ _ (ds_inv _ _ _ _ Hs)) Hold H1 H2 H3 H4)
      as (-> & -> & -> & -> & -> & -> & Hself & Hex & Hbex).
    split; [by eauto|]. split.
    + intros u Hu. destruct (Hex _ Hu) as [Hx|Hx]; rewrite touch_is_Some in Hx.
      * split; [|by left]. intros ->. by rewrite (glob_not_local _ _ _ _ Hs _ _ Hold) in Hx; destruct Hx.
      * destruct (decide (u = v)) as [->|Hne].
        { rewrite lookup_delete in Hx. by destruct Hx. }
        { rewrite lookup_delete_ne in Hx by done. by split; [|right]. }
    + intros b Hb. specialize (Hbex _ Hb). by rewrite touchb_is_Some in Hbex.
  - intros ([old Hold] & Hex & Hbex).
    destruct (replace_loops_ok _ _ _ _ Hs v old (v_kind data) Hold Hex Hbex)
      as (gs1 & vs1 & bs1 & gs2 & vs2 & bs2 & H1 & H2 & H3 & H4).
    + intros Hin. eapply (di_irr _ _ _ _ (ds_inv _ _ _ _ Hs)). by exists old.
    + unfold dfg_replace_value_with_data. rewrite Hold. cbn [mbind option_bind].
      rewrite H1. cbn [mbind option_bind]. rewrite H2. cbn [mbind option_bind].
      rewrite H3. cbn [mbind option_bind]. rewrite H4. simpl. by eauto.
Qed.

Lemma w_replace_data_frame w f fd v data w' :
  reachable w → p_funcs (w_prog w) !! f = Some fd →
  w_replace_data f v data w = Some w' →
  ∃ g' old, vals fd !! v = Some old ∧
    p_funcs (w_prog w') = <[f := set_dfg fd g']> (p_funcs (w_prog w)) ∧
    d_values g' !! v = Some (with_users data (v_used_by old)) ∧
    moved_user v (operands (v_kind data)) (p_values (w_prog w)) (p_values (w_prog w')) ∧
    moved_user v (operands (v_kind data)) (vals fd) (d_values g') ∧
    bb_moved_user v (targets (v_kind data)) (blks fd) (d_bbs g').
Proof.
  intros Hr Hf H. destruct (reachable_dstate _ _ _ Hr Hf) as [E Hs].
  unfold w_replace_data, on_dfg in H. rewrite Hf in H. cbn [mbind option_bind] in H.
  apply bind_Some in H as ([[] w1] & Hx & H). simplify_eq.
  apply bind_Some in Hx as ([[[d i'] gs'] g'] & Hx & H). simplify_eq.
  apply bind_Some in Hx as ([gs1 g1] & Hx & H). simplify_eq.
  unfold dfg_replace_value_with_data in Hx.
  apply bind_Some in Hx as (old & Hold & H).
  apply bind_Some in H as ([gs2 vs2] & H1 & H).
  apply bind_Some in H as (bs2 & H2 & H).
  apply bind_Some in H as ([gs3 vs3] & H3 & H).
  apply bind_Some in H as (bs3 & H4 & H). simplify_eq. simpl.
  eexists _, old. split; [done|]. split; [reflexivity|]. simpl.
  by eapply replaced_frame.
Qed.

Lemma w_update_frame w f fd v h w' :
  reachable w → p_funcs (w_prog w) !! f = Some fd →
  w_update f v (kind_mut h) w = Some w' →
  ∃ g' old, vals fd !! v = Some old ∧
    p_funcs (w_prog w') = <[f := set_dfg fd g']> (p_funcs (w_prog w)) ∧
    d_values g' !! v = Some (VData (v_ty old) (v_name old) (h (v_kind old)) (v_used_by old)) ∧
    moved_user v (operands (h (v_kind old))) (p_values (w_prog w)) (p_values (w_prog w')) ∧
    moved_user v (operands (h (v_kind old))) (vals fd) (d_values g') ∧
    bb_moved_user v (targets (h (v_kind old))) (blks fd) (d_bbs g').
Proof.
  intros Hr Hf H. destruct (reachable_dstate _ _ _ Hr Hf) as [E Hs].
  unfold w_update, on_dfg in H. rewrite Hf in H. cbn [mbind option_bind] in H.
  apply bind_Some in H as ([[] w1] & Hx & H). simplify_eq.
  apply bind_Some in Hx as ([[[d i'] gs'] g'] & Hx & H). simplify_eq.
  apply bind_Some in Hx as ([gs1 g1] & Hx & H). simplify_eq.
  unfold dfg_update_value in Hx.
  apply bind_Some in Hx as (old & Hold & H).
  apply bind_Some in H as ([gs2 vs2] & H1 & H).
  apply bind_Some in H as (bs2 & H2 & H). cbv zeta in H.
  apply bind_Some in H as ([gs3 vs3] & H3 & H).
  apply bind_Some in H as (bs3 & H4 & H). simplify_eq. simpl.
  eexists _, old. split; [done|]. split; [reflexivity|]. simpl.
  by eapply replaced_frame.
Qed.

(** *** Removal of a block *)

Lemma remove_params_ok ps : ∀ vs, NoDup ps →
  (∀ p, p ∈ ps → ∃ d, vs !! p = Some d ∧ v_used_by d = ∅) → is_Some (remove_params ps vs).
Proof.
  induction ps as [|p ps IH]; intros vs Hnd H; simpl; [by eauto|].
  apply list.NoDup_cons in Hnd as [Hp Hnd].
  destruct (H p) as (d & -> & Hd); [by left|]. cbn [mbind option_bind].
  rewrite bool_decide_eq_true_2 by done. cbn [assert_ mbind option_bind]. apply IH; [done|].
  intros q Hq. destruct (H q) as (dq & ? & ?); [by right|]. exists dq.
  rewrite lookup_delete_ne; [done|]. by intros ->.
Qed.

Lemma w_remove_bb_iff w f fd b bd :
  reachable w → p_funcs (w_prog w) !! f = Some fd → blks fd !! b = Some bd →
  is_Some (w_remove_bb f b w) ↔
  (∀ u, ¬ jumps_to (vals fd) u b) ∧ NoDup (bb_params bd) ∧
  (∀ q, q ∈ bb_params bd → is_Some (vals fd !! q) ∧ ∀ u, ¬ uses (vals fd) u q).
Proof.
  intros Hr Hf Hb. destruct (reachable_dstate _ _ _ Hr Hf) as [E Hs].
  pose proof (ds_inv _ _ _ _ Hs) as Hinv.
  unfold w_remove_bb, on_dfg. rewrite Hf. cbn [mbind option_bind]. split.
  - intros [x Hx]. apply bind_Some in Hx as ([[[d i'] gs'] g'] & Hx & _).
    apply bind_Some in Hx as ([d1 g1] & Hx & _). unfold dfg_remove_bb in Hx.
    apply bind_Some in Hx as (d2 & Hd & H). simplify_eq.
    apply bind_Some in H as ([] & Has & H). apply assert_Some, bool_decide_eq_true in Has.
    apply bind_Some in H as (vs' & Hvs & H). simplify_eq.
    apply remove_params_spec in Hvs as (H1 & H2 & H3). split; [|split; [done|]].
    + intros u Hu. apply (di_bb _ _ _ _ Hinv _ _ Hb) in Hu. set_solver.
    + intros q Hq. destruct (H2 _ Hq) as (dq & Hdq & He). split; [by eauto|].
      intros u Hu. apply (di_loc _ _ _ _ Hinv _ _ Hdq) in Hu. set_solver.
  - intros (Hj & Hnd & Hps). unfold dfg_remove_bb. rewrite Hb. cbn [mbind option_bind].
    rewrite bool_decide_eq_true_2; [|apply set_eq; intros u;
      rewrite (di_bb _ _ _ _ Hinv _ _ Hb); set_solver].
    cbn [assert_ mbind option_bind].
    destruct (remove_params_ok (bb_params bd) (vals fd)) as [vs' ->]; [done| |simpl; by eauto].
    intros q Hq. destruct (Hps _ Hq) as [[dq Hdq] Hn]. exists dq. split; [done|].
    apply set_eq. intros u. rewrite (di_loc _ _ _ _ Hinv _ _ Hdq). set_solver.
Qed.

Lemma w_remove_bb_frame w f fd b bd w' :
  reachable w → p_funcs (w_prog w) !! f = Some fd →
  w_remove_bb f b w = Some (bd, w') →
  ∃ g', blks fd !! b = Some bd ∧
    w_prog w' = set_func (w_prog w) f (set_dfg fd g') ∧
    d_bbs g' = delete b (blks fd) ∧
    (∀ x, d_values g' !! x = if decide (x ∈ bb_params bd) then None else vals fd !! x) ∧
    (∀ u x, uses (d_values g') u x → x ∉ bb_params bd) ∧
    (∀ u, ¬ jumps_to (d_values g') u b).
Proof.
  intros Hr Hf H. destruct (reachable_dstate _ _ _ Hr Hf) as [E Hs].
  pose proof (ds_inv _ _ _ _ Hs) as Hinv.
  unfold w_remove_bb, on_dfg in H. rewrite Hf in H. cbn [mbind option_bind] in H.
  apply bind_Some in H as ([[[d0 i'] gs'] g'] & Hx & H). simplify_eq.
  apply bind_Some in Hx as ([d1 g1] & Hx & H). simplify_eq. simpl.
  apply dfg_remove_bb_effect in Hx as (Hb & Hub & Hbs & Hvs & Hps).
  exists g'. repeat split; try done.
  - intros u x (du & Hu & Hin) Hx. rewrite Hvs in Hu.
    destruct (decide (u ∈ bb_params bd)); [done|].
    destruct (Hps _ Hx) as (dx & Hdx & He).
    assert (uses (vals fd) u x) as Huse by (by exists du).
    apply (di_loc _ _ _ _ Hinv _ _ Hdx) in Huse. set_solver.
  - intros u (du & Hu & Hin). rewrite Hvs in Hu.
    destruct (decide (u ∈ bb_params bd)); [done|].
    assert (jumps_to (vals fd) u b) as Huse by (by exists du).
    apply (di_bb _ _ _ _ Hinv _ _ Hb) in Huse. set_solver.
Qed.
