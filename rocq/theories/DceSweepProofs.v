(** [mark] and [sweep] *)
From Verif Require Import Base IdModel TypeModel IrModel LayoutModel BuilderModel
  UsesSpec DfgSpec LayoutSpec UsesProofs DfgProofs LayoutProofs DceModel DceSpec DceGraphProofs.

(** ** The graph *)

Lemma vsk_kind (m m' : gmap N vdata) x d : vsk m' x = vsk m x → m' !! x = Some d →
  ∃ d0, m !! x = Some d0 ∧ v_ty d = v_ty d0 ∧ v_name d = v_name d0 ∧ v_kind d = v_kind d0.
Proof.
  intros H Hd. rewrite Hd in H. destruct (m !! x) as [d0|]; [|done].
  exists d0. unfold clone_vdata in H. simpl in H. injection H as -> -> ->. done.
Qed.
Lemma vsk_alive (m m' : gmap N vdata) x : vsk m' x = vsk m x → is_Some (m' !! x) ↔ is_Some (m !! x).
Proof. intros H. destruct (m' !! x), (m !! x); done. Qed.

(** The values [rs] are gone, the rest is as before. *)
Record cut (rs : list value) gs (g : dfg) gs' (g' : dfg) : Prop := {
  cu_gone : ∀ x, x ∈ rs → d_values g' !! x = None;
  cu_rest : ∀ x, x ∉ rs → vsk (d_values g') x = vsk (d_values g) x;
  cu_bbs : ∀ b, bsk <$> d_bbs g' !! b = bsk <$> d_bbs g !! b;
  cu_skel : same_skel gs gs';
}.

Lemma remove_values_ok E rs : ∀ gs g gs' g',
  graph_ok E gs (d_values g) (d_bbs g) → remove_values rs gs g = Some (gs', g') →
  graph_ok E gs' (d_values g') (d_bbs g') ∧ cut rs gs g gs' g' ∧ NoDup rs ∧
  (∀ x, x ∈ rs → is_Some (d_values g !! x)).
Proof.
  induction rs as [|v rs IH]; intros gs g gs' g' Hok H; cbn [remove_values] in H.
  - injection H as <- <-. split; [done|]. split; [by constructor; [intros ? ?%elem_of_nil|..]|].
    split; [by constructor|]. intros x Hx. by apply elem_of_nil in Hx.
  - apply bind_Some in H as ([[d gs1] g1] & H1 & H).
    destruct (remove_graph _ _ _ _ _ _ _ Hok H1) as [Hok1 R].
    destruct (IH _ _ _ _ Hok1 H) as (Hok2 & C & Hnd & Hex). split; [done|].
    destruct R as [(d0 & R0 & _) R1 R2 R3 R4], C as [C1 C2 C3 C4].
    assert (Hv : v ∉ rs).
    { intros Hin. apply Hex in Hin. rewrite R1 in Hin. by destruct Hin. }
    split; [constructor|split].
    + intros x [-> | Hx]%elem_of_cons; [|by auto].
      destruct (d_values g' !! v) eqn:E1; [|done]. specialize (C2 v Hv).
      rewrite E1, R1 in C2. done.
    + intros x [Hn Hx]%not_elem_of_cons. by rewrite C2, R2.
    + intros b. by rewrite C3.
    + by eapply same_skel_trans.
    + by constructor.
    + intros x [-> | Hx]%elem_of_cons; [by eauto|]. apply Hex in Hx.
      destruct (decide (x = v)) as [->|Hn]; [by eauto|]. by apply (vsk_alive _ _ _ (R2 x Hn)).
Qed.

Lemma sweep_undef_ok E rs : ∀ gs g gs' g',
  graph_ok E gs (d_values g) (d_bbs g) → sweep_undef rs gs g = Some (gs', g') →
  graph_ok E gs' (d_values g') (d_bbs g') ∧
  (∀ x, x ∉ rs → vsk (d_values g') x = vsk (d_values g) x) ∧
  (∀ x, x ∈ rs → ∃ d, d_values g' !! x = Some d ∧ v_kind d = KUndef) ∧
  (∀ b, bsk <$> d_bbs g' !! b = bsk <$> d_bbs g !! b) ∧ same_skel gs gs'.
Proof.
  induction rs as [|v rs IH]; intros gs g gs' g' Hok H; cbn [sweep_undef] in H.
  - injection H as <- <-. split; [done|]. split; [done|]. split; [|done].
    intros x Hx. by apply elem_of_nil in Hx.
  - apply bind_Some in H as (d & Hd & H). apply bind_Some in H as (u & Hu & H).
    apply bind_Some in H as ([gs1 g1] & H1 & H).
    destruct (replace_graph _ _ _ _ _ _ _ Hok H1) as [Hok1 [(d0 & R0 & R1) R2 R3 R4]].
    destruct (IH _ _ _ _ Hok1 H) as (Hok2 & I1 & I2 & I3 & I4). split; [done|].
    assert (v_kind u = KUndef) as Hk.
    { unfold mk_undef, assert_ in Hu. destruct (negb _); simpl in Hu; by simplify_eq. }
    split; [|split; [|split]].
    + intros x [Hn Hx]%not_elem_of_cons. by rewrite I1, R2.
    + intros x Hx. destruct (decide (x ∈ rs)) as [Hr|Hr]; [by auto|].
      apply elem_of_cons in Hx as [-> |?]; [|done].
      specialize (I1 v Hr). rewrite R1 in I1. destruct (d_values g' !! v) as [d'|]; [|done].
      exists d'. split; [done|]. unfold clone_vdata in I1. simpl in I1. injection I1 as _ _ ->. done.
    + intros b. by rewrite I3.
    + by eapply same_skel_trans.
Qed.

(** ** The layout *)

Definition swept (live : gset N) (l : list (bblock * list value)) : list (bblock * list value) :=
  map (λ x, (x.1, filter (λ v, v ∈ live) x.2)) l.
Definition unmarked (live : gset N) (l : list (bblock * list value)) : list value :=
  concat (map (λ x, filter (λ v, v ∉ live) x.2) l).

Lemma filter_ne_split (v : value) (l1 l2 : list value) : NoDup (l1 ++ v :: l2) →
  filter (λ x, x ≠ v) (l1 ++ v :: l2) = l1 ++ l2.
Proof.
  intros Hn. apply list.NoDup_app in Hn as (_ & H2 & H3). apply list.NoDup_cons in H3 as [H3 _].
  rewrite list.filter_app, filter_cons_False by (intros Hc; by apply Hc). f_equal.
  - assert (v ∉ l1) as Hv by (intros Hv; apply (H2 v Hv); by left). clear -Hv.
    induction l1 as [|x l1 IH]; [done|]. apply not_elem_of_cons in Hv as [? ?].
    rewrite filter_cons_True by congruence. by f_equal; auto.
  - clear -H3. induction l2 as [|x l1 IH]; [done|]. apply not_elem_of_cons in H3 as [? ?].
    rewrite filter_cons_True by congruence. by f_equal; auto.
Qed.

Lemma split_key {A} (k : N) (x y : A) (l1 l2 l3 l4 : list (N * A)) :
  NoDup (map fst (l1 ++ (k, x) :: l2)) → l1 ++ (k, x) :: l2 = l3 ++ (k, y) :: l4 →
  l1 = l3 ∧ x = y ∧ l2 = l4.
Proof.
  revert l3. induction l1 as [|[a b] l1 IH]; intros [|[c d] l3] Hn; simpl; intros [=]; subst.
  - done.
  - exfalso. simpl in Hn. apply list.NoDup_cons in Hn as [Hn _]. apply Hn.
    rewrite map_app. set_solver.
  - exfalso. simpl in Hn. apply list.NoDup_cons in Hn as [Hn _]. apply Hn.
    rewrite map_app. set_solver.
  - simpl in Hn. apply list.NoDup_cons in Hn as [_ Hn].
    destruct (IH l3 Hn) as (-> & -> & ->); [done|]. done.
Qed.

Lemma sweep_block_ok live b pre post : ∀ is dn l,
  no_duplicates l → l_bbs l = pre ++ (b, dn ++ is) :: post →
  ∃ l', sweep_block live b is l = Some (filter (λ v, v ∉ live) is, l') ∧ no_duplicates l' ∧
    l_bbs l' = pre ++ (b, dn ++ filter (λ v, v ∈ live) is) :: post ∧
    ∀ v, l_inst_bb l' !! v =
      if decide (v ∈ filter (λ v, v ∉ live) is) then None else l_inst_bb l !! v.
Proof.
  induction is as [|v is IH]; intros dn l Hn Hl; cbn [sweep_block].
  - exists l. rewrite !filter_nil. split; [done|]. split; [done|]. split; [done|].
    intros v. rewrite decide_False; [done|apply not_elem_of_nil].
  - destruct (decide (v ∈ live)) as [Hv|Hv].
    + rewrite filter_cons_False by (intros Hc; by apply Hc). rewrite filter_cons_True by done.
      destruct (IH (dn ++ [v]) l Hn) as (l' & H1 & H2 & H3 & H4).
      { by rewrite <- (assoc_L (++)). }
      exists l'. rewrite <- (assoc_L (++)) in H3. done.
    + rewrite (filter_cons_True (λ v, v ∉ live)) by done.
      rewrite (filter_cons_False (λ v, v ∈ live)) by done.
      assert (Hin : (b, dn ++ v :: is) ∈ l_bbs l) by (rewrite Hl; set_solver).
      destruct (inst_remove_spec b v l (dn ++ v :: is) Hn Hin) as (l1 & H1 & H2 & _ & H3).
      rewrite H1. cbn [mbind option_bind].
      assert (Hn1 : no_duplicates l1) by (by eapply (lstep_nodup (LRemove b v))).
      destruct H2 as (p1 & p2 & H2 & H2').
      destruct Hn as [Hn Hn']. unfold blocks in Hn. rewrite Hl in H2, Hn.
      destruct (split_key _ _ _ _ _ _ _ Hn H2) as (-> & _ & ->).
      rewrite (filter_ne_split v dn is) in H2' by (by eapply Hn').
      destruct (IH dn l1 Hn1 H2') as (l' & I1 & I2 & I3 & I4).
      rewrite I1. exists l'. split; [done|]. split; [done|]. split; [done|].
      intros x. rewrite I4, H3 by set_solver.
      destruct (decide (x = v)) as [->|Hx].
      { rewrite lookup_delete. rewrite (decide_True _ _ (elem_of_list_here _ _)).
        by destruct (decide _). }
      rewrite lookup_delete_ne by done. destruct (decide (x ∈ filter (λ v, v ∉ live) is)) as [Hf|Hf].
      * rewrite decide_True; [done|by right].
      * rewrite decide_False; [done|]. by intros [?|?]%elem_of_cons.
Qed.

Lemma sweep_bbs_ok live : ∀ todo pre l,
  no_duplicates l → l_bbs l = pre ++ todo →
  ∃ l', sweep_bbs live todo l = Some (unmarked live todo, l') ∧ no_duplicates l' ∧
    l_bbs l' = pre ++ swept live todo ∧
    ∀ v, l_inst_bb l' !! v = if decide (v ∈ unmarked live todo) then None else l_inst_bb l !! v.
Proof.
  induction todo as [|[b is] todo IH]; intros pre l Hn Hl; cbn [sweep_bbs].
  - exists l. split; [done|]. split; [done|]. split; [done|].
    intros v. rewrite decide_False; [done|apply not_elem_of_nil].
  - destruct (sweep_block_ok live b pre todo is [] l Hn Hl) as (l1 & H1 & H2 & H3 & H4).
    rewrite H1. cbn [mbind option_bind].
    destruct (IH (pre ++ [(b, filter (λ v, v ∈ live) is)]) l1 H2) as (l2 & I1 & I2 & I3 & I4).
    { by rewrite <- (assoc_L (++)). }
    rewrite I1. exists l2. split; [done|]. split; [done|].
    split; [by rewrite I3, <- (assoc_L (++))|].
    intros v. rewrite I4, H4. unfold unmarked. cbn [map concat].
    destruct (decide (v ∈ concat _)) as [Hc|Hc].
    + rewrite decide_True; [done|]. apply elem_of_app. by right.
    + destruct (decide (v ∈ filter _ _)) as [Hf|Hf].
      * rewrite decide_True; [done|]. apply elem_of_app. by left.
      * rewrite decide_False; [done|]. by intros [?|?]%elem_of_app.
Qed.

Lemma unmarked_in live l v : v ∈ unmarked live (l_bbs l) ↔ (∃ b, in_block l v b) ∧ v ∉ live.
Proof.
  unfold unmarked. rewrite elem_of_list_In, in_concat. split.
  - intros (is & H1 & H2). apply elem_of_list_In in H1, H2.
    apply elem_of_list_fmap in H1 as ([b is0] & -> & H1).
    apply elem_of_list_filter in H2 as [H2 H3]. split; [|done]. by exists b, is0.
  - intros [(b & is & H1 & H2) H3]. exists (filter (λ v, v ∉ live) is).
    rewrite <- !elem_of_list_In. split; [|by apply elem_of_list_filter].
    apply elem_of_list_fmap. by exists (b, is).
Qed.

Lemma dce_sweep_ok E live gs d c gs' d' : graph_ok E gs (vals d) (blks d) →
  no_duplicates (f_layout d) → dce_sweep live gs d = Some (c, gs', d') →
  graph_ok E gs' (vals d') (blks d') ∧
  cut (unmarked live (l_bbs (f_layout d))) gs (f_dfg d) gs' (f_dfg d') ∧
  l_bbs (f_layout d') = swept live (l_bbs (f_layout d)) ∧ no_duplicates (f_layout d') ∧
  (∀ v, l_inst_bb (f_layout d') !! v =
    if decide (v ∈ unmarked live (l_bbs (f_layout d))) then None else l_inst_bb (f_layout d) !! v) ∧
  c = negb (Nat.eqb (length (unmarked live (l_bbs (f_layout d)))) 0) ∧
  f_ty d' = f_ty d ∧ f_name d' = f_name d ∧ f_params d' = f_params d.
Proof.
  intros Hok Hn H. unfold dce_sweep in H.
  destruct (sweep_bbs_ok live (l_bbs (f_layout d)) [] (f_layout d) Hn eq_refl)
    as (l' & H1 & H2 & H3 & H4).
  rewrite H1 in H. cbn [mbind option_bind] in H.
  apply bind_Some in H as ([gs1 g1] & U & H). apply bind_Some in H as ([gs2 g2] & R & H).
  injection H as <- <- <-.
  destruct (sweep_undef_ok _ _ _ _ _ _ Hok U) as (Hok1 & U1 & U2 & U3 & U4).
  destruct (remove_values_ok _ _ _ _ _ _ Hok1 R) as (Hok2 & [C1 C2 C3 C4] & _).
  split; [done|]. split; [|done].
  constructor; cbn [f_dfg set_layout set_dfg].
  - done.
  - intros x Hx. by rewrite C2, U1.
  - intros b. by rewrite C3.
  - by eapply same_skel_trans.
Qed.

(** ** [mark] *)

Lemma critical_effectful k : is_critical_inst k = true ↔ effectful k.
Proof. by destruct k. Qed.
Lemma effectful_inst k : effectful k → is_local_inst k = true.
Proof. by destruct k. Qed.

Lemma mark_critical_ok vs order : ∀ live work live' work',
  mark_critical vs order live work = Some (live', work') →
  (∀ v d, v ∈ order → vs !! v = Some d → effectful (v_kind d) → v ∈ live' ∧ v ∈ work') ∧
  live ⊆ live' ∧ (∀ v, v ∈ work → v ∈ work') ∧
  (∀ v, v ∈ live' → v ∈ live ∨ (v ∈ work' ∧ is_Some (vs !! v))) ∧
  (∀ v, v ∈ work' → v ∈ work ∨ is_Some (vs !! v)) ∧
  ((∀ v, v ∈ work → v ∈ live) → ∀ v, v ∈ work' → v ∈ live').
Proof.
  induction order as [|x order IH]; intros live work live' work' H; cbn [mark_critical] in H.
  - injection H as <- <-. split; [intros v d Hv; by apply elem_of_nil in Hv|].
    split; [done|]. split; [done|]. split; [by left|]. split; [by left|done].
  - apply bind_Some in H as (d & Hd & H).
    destruct (is_critical_inst (v_kind d)) eqn:Hc.
    + destruct (IH _ _ _ _ H) as (I1 & I2 & I3 & I4 & I5 & I6).
      split; [|split; [|split; [|split; [|split]]]].
      * intros v d' [-> |Hv]%elem_of_cons Hd' He; [|by eauto].
        split; [set_solver|]. apply I3. by left.
      * set_solver.
      * intros v Hv. apply I3. by right.
      * intros v [Hv|Hv]%I4; [|by right]. apply elem_of_union in Hv as [Hv|Hv]; [|by left].
        apply elem_of_singleton in Hv as ->. right. split; [apply I3; by left|by eauto].
      * intros v [[-> |Hv]%elem_of_cons|Hv]%I5; [right; by eauto|by left|by right].
      * intros Hw. apply I6. intros v [-> |Hv]%elem_of_cons; [set_solver|].
        apply elem_of_union. right. by auto.
    + destruct (IH _ _ _ _ H) as (I1 & I2 & I3 & I4 & I5 & I6).
      split; [|done].
      intros v d' [-> |Hv]%elem_of_cons Hd' He; [|by eauto]. simplify_eq.
      apply critical_effectful in He. congruence.
Qed.

Lemma mark_operands_ok vs us : ∀ live work live' work',
  mark_operands vs us live work = Some (live', work') →
  live ⊆ live' ∧ (∀ v, v ∈ work → v ∈ work') ∧
  (∀ u, u ∈ us → u ∈ live ∨ is_Some (vs !! u)) ∧
  (∀ u d, u ∈ us → vs !! u = Some d → is_local_inst (v_kind d) = true → u ∈ live') ∧
  (∀ v, v ∈ live' → v ∈ live ∨ (v ∈ work' ∧ is_Some (vs !! v))) ∧
  (∀ v, v ∈ work' → v ∈ work ∨ (v ∈ live' ∧ is_Some (vs !! v))).
Proof.
  induction us as [|x us IH]; intros live work live' work' H; cbn [mark_operands] in H.
  - injection H as <- <-. split; [done|]. split; [done|].
    split; [intros u Hu; by apply elem_of_nil in Hu|].
    split; [intros u d Hu; by apply elem_of_nil in Hu|]. split; by left.
  - destruct (decide (x ∈ live)) as [Hx|Hx].
    + destruct (IH _ _ _ _ H) as (I1 & I2 & I3 & I4 & I5 & I6).
      split; [done|]. split; [done|]. split; [|split; [|done]].
      * intros u [-> |Hu]%elem_of_cons; [by left|by auto].
      * intros u d [-> |Hu]%elem_of_cons Hd Hl; [by apply I1|by eauto].
    + apply bind_Some in H as (d & Hd & H). destruct (is_local_inst (v_kind d)) eqn:Hl.
      * destruct (IH _ _ _ _ H) as (I1 & I2 & I3 & I4 & I5 & I6).
        assert (Hx' : x ∈ live') by set_solver.
        split; [set_solver|]. split; [intros v Hv; apply I2; by right|].
        split; [|split; [|split]].
        { intros u [-> |Hu]%elem_of_cons; [right; by eauto|].
          destruct (I3 u Hu) as [Hu'|?]; [|by right].
          apply elem_of_union in Hu' as [Hu'|?]; [|by left].
          apply elem_of_singleton in Hu' as ->. right. by eauto. }
        { intros u d' [-> |Hu]%elem_of_cons Hd' Hl'; [done|by eauto]. }
        { intros v [Hv|Hv]%I5; [|by right]. apply elem_of_union in Hv as [Hv|Hv]; [|by left].
          apply elem_of_singleton in Hv as ->. right. split; [apply I2; by left|by eauto]. }
        { intros v [[-> |Hv]%elem_of_cons|Hv]%I6; [right; by eauto|by left|by right]. }
      * destruct (IH _ _ _ _ H) as (I1 & I2 & I3 & I4 & I5 & I6).
        split; [done|]. split; [done|]. split; [|split; [|done]].
        { intros u [-> |Hu]%elem_of_cons; [right; by eauto|by auto]. }
        { intros u d' [-> |Hu]%elem_of_cons Hd' Hl'; [|by eauto]. congruence. }
Qed.

(** The operands of [u] that are instructions of the function are marked. *)
Definition closed_at (vs : gmap N vdata) (live : gset N) (u : value) : Prop :=
  ∀ d v d', vs !! u = Some d → v ∈ operands (v_kind d) → vs !! v = Some d' →
    is_local_inst (v_kind d') = true → v ∈ live.

Lemma mark_loop_ok vs fuel : ∀ live work live',
  mark_loop fuel vs live work = Dok live' →
  live ⊆ live' ∧ (∀ v, v ∈ live' → v ∈ live ∨ is_Some (vs !! v)) ∧
  (∀ u d v, u ∈ work → vs !! u = Some d → v ∈ operands (v_kind d) → v ∈ live' ∨ is_Some (vs !! v)) ∧
  ((∀ u, u ∈ live → u ∉ work → closed_at vs live u) → ∀ u, u ∈ live' → closed_at vs live' u).
Proof.
  induction fuel as [|n IH]; intros live [|x work] live' H; cbn [mark_loop] in H; try done.
  1,2: injection H as <-; split; [done|]; split; [by left|];
    split; [intros u d v Hu; by apply elem_of_nil in Hu|];
    intros Hc u Hu; apply Hc; [done|apply not_elem_of_nil].
  destruct (vs !! x) as [d|] eqn:Hd; [|done]. cbn [mbind option_bind] in H.
  rewrite value_uses_operands in H.
  destruct (mark_operands vs (operands (v_kind d)) live work) as [[live1 work1]|] eqn:H1; [|done].
  cbn [dopt dthen fst snd] in H.
  destruct (mark_operands_ok _ _ _ _ _ _ H1) as (O1 & O2 & O3 & O4 & O5 & O6).
  destruct (IH _ _ _ H) as (I1 & I2 & I3 & I4).
  split; [set_solver|]. split; [|split].
  - intros v [Hv|Hv]%I2; [|by right]. apply O5 in Hv as [?|[_ ?]]; [by left|by right].
  - intros u d' v [-> |Hu]%elem_of_cons Hd' Hv; [|by eauto].
    simplify_eq. apply O3 in Hv as [?|?]; [|by right]. left. set_solver.
  - intros Hc. apply I4. intros u Hu Hw.
    intros d' v d'' Hd' Hv Hd'' Hl.
    destruct (decide (u = x)) as [->|Hux].
    + simplify_eq. by eapply O4.
    + apply O5 in Hu as [Hu|[Hu _]]; [|done].
      apply O1. eapply (Hc u Hu); [|done..].
      intros [?|Hw']%elem_of_cons; [done|]. by apply Hw, O2.
Qed.

Lemma dce_mark_ok o vs live live' : fair o → dce_mark o vs live = Dok live' →
  live ⊆ live' ∧ (∀ v, v ∈ live' → v ∈ live ∨ is_Some (vs !! v)) ∧
  (∀ v d, vs !! v = Some d → effectful (v_kind d) → v ∈ live') ∧
  (∀ u d v, vs !! u = Some d → effectful (v_kind d) → v ∈ operands (v_kind d) →
    v ∈ live ∨ is_Some (vs !! v)) ∧
  ((∀ u, u ∈ live → closed_at vs live u) → ∀ u, u ∈ live' → closed_at vs live' u).
Proof.
  intros F H. unfold dce_mark in H.
  destruct (mark_critical vs (o_values o vs) live []) as [[live1 work]|] eqn:H1; [|done].
  cbn [dopt dthen fst snd] in H.
  destruct (mark_critical_ok _ _ _ _ _ _ H1) as (C1 & C2 & C3 & C4 & C5 & C6).
  destruct (mark_loop_ok _ _ _ _ _ H) as (L1 & L2 & L3 & L4).
  assert (Hall : ∀ v d, vs !! v = Some d → effectful (v_kind d) → v ∈ live1 ∧ v ∈ work).
  { intros v d Hd He. eapply C1; [|done..]. apply (fo_values _ F). by eauto. }
  assert (Hsrc : ∀ v, v ∈ live' → v ∈ live ∨ is_Some (vs !! v)).
  { intros v [Hv|?]%L2; [|by right]. apply C4 in Hv as [?|[_ ?]]; [by left|by right]. }
  split; [set_solver|]. split; [done|]. split; [|split].
  - intros v d Hd He. apply L1. by eapply Hall.
  - intros u d v Hd He Hv. destruct (Hall _ _ Hd He) as [_ Hw].
    destruct (L3 _ _ _ Hw Hd Hv) as [?|?]; [by apply Hsrc|by right].
  - intros Hc. apply L4. intros u Hu Hw. apply C4 in Hu as [Hu|[Hu _]]; [|done].
    intros d v d' Hd Hv Hd' Hl. apply C2. by eapply (Hc u Hu).
Qed.
