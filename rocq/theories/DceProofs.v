(** Dead code elimination: what it removes. *)
From Verif Require Import Base IdModel TypeModel IrModel LayoutModel BuilderModel
  UsesSpec DfgSpec LayoutSpec UsesProofs DfgProofs LayoutProofs DceModel DceSpec DceGraphProofs
  DceSweepProofs DceParamProofs.
From Coq Require Import Lia.

(** ** Shrinking *)

Lemma direct_trimmed m bs k : direct (trimmed m bs k) = direct k.
Proof. by destruct k. Qed.
Lemma effectful_trimmed m bs k : effectful (trimmed m bs k) ↔ effectful k.
Proof. by destruct k. Qed.
Lemma inst_trimmed m bs k : is_local_inst (trimmed m bs k) = is_local_inst k.
Proof. by destruct k. Qed.
Lemma trimmed_blockarg m bs k i : k = KBlockArg i → trimmed m bs k = KBlockArg i.
Proof. by intros ->. Qed.

Lemma still_at {A} m ps (l : list A) i p a : ps !! i = Some p → l !! i = Some a → alive m p →
  ∃ j, filter (alive m) ps !! j = Some p ∧ still m ps l !! j = Some a.
Proof.
  revert i l. induction ps as [|q ps IH]; intros i l Hp Ha Hm; [by rewrite lookup_nil in Hp|].
  destruct l as [|x l]; [by rewrite lookup_nil in Ha|]. simpl.
  destruct i as [|i]; simpl in Hp, Ha.
  - simplify_eq. rewrite filter_cons_True by done. rewrite decide_True by done. by exists 0.
  - destruct (IH i l Hp Ha Hm) as (j & J1 & J2). destruct (decide (alive m q)) as [Hq|Hq].
    + rewrite filter_cons_True by done. by exists (S j).
    + rewrite filter_cons_False by done. by exists j.
Qed.

Lemma still_still {A} (m1 m2 : gmap N vdata) ps (l : list A) :
  (∀ p, alive m2 p → alive m1 p) →
  still m2 (filter (alive m1) ps) (still m1 ps l) = still m2 ps l.
Proof.
  intros H. revert l. induction ps as [|p ps IH]; intros l; [done|].
  destruct l as [|x l].
  - by destruct (filter (alive m1) (p :: ps)).
  - simpl. destruct (decide (alive m1 p)) as [H1|H1].
    + rewrite filter_cons_True by done. simpl. by rewrite IH.
    + rewrite filter_cons_False by done. rewrite IH. rewrite decide_False; [done|].
      intros H2. by apply H1, H.
Qed.
Lemma still_all {A} m ps (l : list A) : (∀ p, p ∈ ps → alive m p) → still m ps l = l.
Proof.
  intros H. rewrite still_keepb. apply keepb_all. intros p Hp. apply bool_decide_eq_true_2. by apply H.
Qed.

Lemma shrunk_sub vs bs vs' bs' v : shrunk vs bs vs' bs' → alive vs' v → alive vs v.
Proof. intros [H _] [x Hx]. destruct (H _ _ Hx) as (x0 & Hx0 & _). by exists x0. Qed.
Lemma shrunk_params vs bs vs' bs' b bd : shrunk vs bs vs' bs' → bs !! b = Some bd →
  ∃ bd', bs' !! b = Some bd' ∧ bb_name bd' = bb_name bd ∧ bb_params bd' = filter (alive vs') (bb_params bd).
Proof.
  intros [_ H] Hb. specialize (H b). rewrite Hb in H. destruct (bs' !! b) as [bd'|]; [|done].
  exists bd'. simpl in H. by injection H as -> ->.
Qed.
Lemma shrunk_params_inv vs bs vs' bs' b bd' : shrunk vs bs vs' bs' → bs' !! b = Some bd' →
  ∃ bd, bs !! b = Some bd ∧ bb_name bd' = bb_name bd ∧ bb_params bd' = filter (alive vs') (bb_params bd).
Proof.
  intros [_ H] Hb. specialize (H b). rewrite Hb in H. destruct (bs !! b) as [bd|]; [|done].
  exists bd. simpl in H. by injection H as -> ->.
Qed.

Lemma shrunk_trans vs bs vs1 bs1 vs2 bs2 :
  shrunk vs bs vs1 bs1 → shrunk vs1 bs1 vs2 bs2 → shrunk vs bs vs2 bs2.
Proof.
  intros S1 S2. assert (Hsub : ∀ v, alive vs2 v → alive vs1 v) by (intros v; by eapply shrunk_sub).
  assert (Hargs : ∀ t l, still_passed vs2 bs1 t (still_passed vs1 bs t l) = still_passed vs2 bs t l).
  { intros t l. unfold still_passed. destruct (bs !! t) as [bd|] eqn:Hb.
    - destruct (shrunk_params _ _ _ _ _ _ S1 Hb) as (bd' & -> & _ & ->). by apply still_still.
    - destruct (bs1 !! t) as [bd'|] eqn:Hb'; [|done].
      destruct (shrunk_params_inv _ _ _ _ _ _ S1 Hb') as (? & ? & _). congruence. }
  split.
  - intros v x2 Hx2. destruct S2 as [S2 _], S1 as [S1 _].
    destruct (S2 _ _ Hx2) as (x1 & Hx1 & E1 & E2 & E3).
    destruct (S1 _ _ Hx1) as (x & Hx & F1 & F2 & F3).
    exists x. split; [done|]. split; [congruence|]. split; [congruence|].
    rewrite E3, F3. destruct (v_kind x); simpl; try done; by rewrite !Hargs.
  - intros b. destruct S2 as [_ S2], S1 as [_ S1]. rewrite S2. specialize (S1 b).
    destruct (bs1 !! b) as [b1|], (bs !! b) as [b0|]; try done. simpl in S1. simpl.
    injection S1 as -> ->. do 2 f_equal. rewrite list_filter_filter.
    apply filter_ext_in. intros p _. split; [by intros [? ?]|]. intros Hp. split; [done|by apply Hsub].
Qed.
Lemma shrunk_refl vs bs : (∀ b bd p, bs !! b = Some bd → p ∈ bb_params bd → alive vs p) →
  shrunk vs bs vs bs.
Proof.
  intros H. split.
  - intros v x Hx. exists x. split; [done|]. split; [done|]. split; [done|].
    assert (∀ t l, still_passed vs bs t l = l) as Hs.
    { intros t l. unfold still_passed. destruct (bs !! t) as [bd|] eqn:Hb; [|done].
      apply still_all. intros p Hp. by eapply H. }
    destruct (v_kind x); simpl; try done; by rewrite !Hs.
  - intros b. destruct (bs !! b) as [bd|] eqn:Hb; [|done]. simpl. do 2 f_equal.
    symmetry. apply filter_all_in. intros p Hp. by eapply H.
Qed.

Lemma passes_effectful k b i a : passes k b i a → effectful k.
Proof. by destruct k. Qed.
Lemma passes_operands k b i a : passes k b i a → a ∈ operands k.
Proof.
  destruct k as [| | | | | | | | | | | | |c t f ta fa|t args| |]; simpl; try done.
  - intros [[_ H]|[_ H]]; right; apply elem_of_app; [left|right]; by eapply elem_of_list_lookup_2.
  - intros [_ H]. by eapply elem_of_list_lookup_2.
Qed.
Lemma direct_operands k v : v ∈ direct k → v ∈ operands k.
Proof. destruct k; simpl; try done. - set_solver. - intros H. by apply elem_of_nil in H. Qed.

Lemma passes_trimmed m bs k b bd i p a : passes k b i a → bs !! b = Some bd →
  bb_params bd !! i = Some p → alive m p →
  ∃ j, filter (alive m) (bb_params bd) !! j = Some p ∧ passes (trimmed m bs k) b j a.
Proof.
  intros Hp Hb Hi Hm. destruct k as [| | | | | | | | | | | | |c t f ta fa|t args| |]; simpl in Hp; try done.
  - destruct Hp as [[-> Hp]|[-> Hp]];
      destruct (still_at m _ _ _ _ _ Hi Hp Hm) as (j & J1 & J2); exists j; (split; [done|]); simpl;
      [left|right]; (split; [done|]); unfold still_passed; by rewrite Hb.
  - destruct Hp as [-> Hp]. destruct (still_at m _ _ _ _ _ Hi Hp Hm) as (j & J1 & J2).
    exists j. split; [done|]. simpl. split; [done|]. unfold still_passed. by rewrite Hb.
Qed.

Lemma needed_shrunk vs bs vs' bs' : shrunk vs bs vs' bs' →
  (∀ v, needed vs bs v → alive vs' v) → ∀ v, needed vs bs v → needed vs' bs' v.
Proof.
  intros S Ha v Hn. induction Hn as [v d Hd He|u d v Hu IH Hd Hv Hs|b bd i p u d a Hp IH Hb Hi Hd Hpa Hs].
  - destruct (Ha v) as [d' Hd']; [by eapply N_effect|].
    destruct (proj1 S _ _ Hd') as (d0 & Hd0 & _ & _ & Hk). simplify_eq.
    eapply N_effect; [done|]. rewrite Hk. by apply effectful_trimmed.
  - destruct (Ha u Hu) as [d' Hd']. destruct (Ha v) as [d'' Hd'']; [by eapply N_operand|].
    destruct (proj1 S _ _ Hd') as (d0 & Hd0 & _ & _ & Hk). simplify_eq.
    eapply N_operand; [done..| |by eauto]. rewrite Hk. by rewrite direct_trimmed.
  - destruct (Ha u) as [d' Hd'].
    { eapply N_effect; [done|]. by eapply passes_effectful. }
    destruct (Ha a) as [d'' Hd'']; [by eapply N_argument|].
    destruct (proj1 S _ _ Hd') as (d0 & Hd0 & _ & _ & Hk). simplify_eq.
    destruct (passes_trimmed vs' bs _ _ _ _ _ _ Hpa Hb Hi (Ha _ Hp)) as (j & J1 & J2).
    destruct (shrunk_params _ _ _ _ _ _ S Hb) as (bd' & Hb' & _ & Hps). rewrite <- Hps in J1.
    eapply N_argument; [exact IH|exact Hb'|exact J1|exact Hd'| |by eauto]. by rewrite Hk.
Qed.

Lemma relisted_trans (vs1 vs2 : gmap N vdata) l l1 l2 : (∀ v, alive vs2 v → alive vs1 v) →
  relisted vs1 l l1 → relisted vs2 l1 l2 → relisted vs2 l l2.
Proof.
  intros Hs [R1 R2] [Q1 Q2]. split.
  - rewrite Q1, R1, map_map. apply map_ext. intros [b is]. simpl. f_equal.
    rewrite list_filter_filter. apply filter_ext_in. intros p _. naive_solver.
  - intros v. rewrite Q2, R2. destruct (decide (alive vs2 v)) as [Hv|Hv]; [|done].
    by rewrite decide_True by (by apply Hs).
Qed.

(** ** One round *)

(** What a round, or several, does to a function. *)
Record trimmed_to (E : value → value → Prop) (gs : gmap N vdata) (d : fdata) (gs' : gmap N vdata)
    (d' : fdata) : Prop := {
  tt_graph : graph_ok E gs' (vals d') (blks d');
  tt_shape : shape_ok (vals d') (blks d') (f_layout d');
  tt_shrunk : shrunk (vals d) (blks d) (vals d') (blks d');
  tt_needed : ∀ v, needed (vals d) (blks d) v → alive (vals d') v;
  tt_listed : relisted (vals d') (f_layout d) (f_layout d');
  tt_skel : same_skel gs gs';
  tt_ty : f_ty d' = f_ty d;
  tt_name : f_name d' = f_name d;
  tt_params : f_params d' = f_params d;
  tt_kept : ∀ v x, vals d !! v = Some x → alive (vals d') v ∨ removable (v_kind x);
}.

Lemma kept_trans vs bs vs1 bs1 vs2 : shrunk vs bs vs1 bs1 →
  (∀ v x, vs !! v = Some x → alive vs1 v ∨ removable (v_kind x)) →
  (∀ v x, vs1 !! v = Some x → alive vs2 v ∨ removable (v_kind x)) →
  ∀ v x, vs !! v = Some x → alive vs2 v ∨ removable (v_kind x).
Proof.
  intros S H1 H2 v x Hx. destruct (H1 _ _ Hx) as [[x1 Hx1]|?]; [|by right].
  destruct (H2 _ _ Hx1) as [?|Hr]; [by left|right].
  destruct (proj1 S _ _ Hx1) as (x0 & Hx0 & _ & _ & Hk). simplify_eq. rewrite Hk in Hr.
  destruct (v_kind x); first [exact Hr|by left].
Qed.

Lemma trimmed_to_trans E gs d gs1 d1 gs2 d2 :
  trimmed_to E gs d gs1 d1 → trimmed_to E gs1 d1 gs2 d2 → trimmed_to E gs d gs2 d2.
Proof.
  intros T1 T2. constructor.
  - apply (tt_graph _ _ _ _ _ T2).
  - apply (tt_shape _ _ _ _ _ T2).
  - eapply shrunk_trans; [apply T1|apply T2].
  - intros v Hv. apply (tt_needed _ _ _ _ _ T2).
    eapply needed_shrunk; [apply T1|apply T1|done].
  - eapply relisted_trans; [|apply T1|apply T2]. intros v. eapply shrunk_sub. apply T2.
  - eapply same_skel_trans; [apply T1|apply T2].
  - by rewrite (tt_ty _ _ _ _ _ T2), (tt_ty _ _ _ _ _ T1).
  - by rewrite (tt_name _ _ _ _ _ T2), (tt_name _ _ _ _ _ T1).
  - by rewrite (tt_params _ _ _ _ _ T2), (tt_params _ _ _ _ _ T1).
  - eapply kept_trans; [apply T1|apply T1|apply T2].
Qed.

Lemma local_not_global E gs vs bs v : graph_ok E gs vs bs → alive vs v → ¬ is_Some (gs !! v).
Proof. intros Hok [d Hd] Hg. apply (go_disj _ _ _ _ Hok) in Hg. congruence. Qed.

Lemma sweep_trims E live gs d c gs' d' : graph_ok E gs (vals d) (blks d) →
  shape_ok (vals d) (blks d) (f_layout d) →
  (∀ v x, vals d !! v = Some x → effectful (v_kind x) → v ∈ live) →
  dce_sweep live gs d = Some (c, gs', d') →
  trimmed_to E gs d gs' d' ∧ (c = true → ∃ v, alive (vals d) v ∧ ¬ alive (vals d') v) ∧
  (∀ v, alive (vals d') v ↔ alive (vals d) v ∧ v ∉ unmarked live (l_bbs (f_layout d))).
Proof.
  intros Hok Hsh Hlive H.
  destruct (dce_sweep_ok _ _ _ _ _ _ _ Hok (so_once _ _ _ Hsh) H)
    as (Hok' & [C1 C2 C3 C4] & L1 & L2 & L3 & -> & Ety & Enm & Eps). clear H.
  set (rs := unmarked live (l_bbs (f_layout d))) in *.
  assert (Hrs : ∀ v, v ∈ rs → (∃ x, vals d !! v = Some x ∧ is_local_inst (v_kind x) = true) ∧ v ∉ live).
  { intros v [(b & Hb) Hv]%unmarked_in. split; [|done]. by eapply so_listed. }
  assert (Halive : ∀ v, alive (vals d') v ↔ alive (vals d) v ∧ v ∉ rs).
  { intros v. unfold alive. destruct (decide (v ∈ rs)) as [Hv|Hv].
    - rewrite (C1 v Hv). split; [by intros []|]. by intros [_ ?].
    - rewrite (vsk_alive _ _ _ (C2 v Hv)). naive_solver. }
  assert (Hpar : ∀ b bd p, blks d !! b = Some bd → p ∈ bb_params bd → alive (vals d') p).
  { intros b bd p Hb Hp. destruct (so_param _ _ _ Hsh _ _ _ Hb Hp) as (x & i & Hx & Hk).
    apply Halive. split; [by exists x|]. intros Hr. apply Hrs in Hr as [(x' & Hx' & Hl) _].
    simplify_eq. by rewrite Hk in Hl. }
  assert (Hnot : ∀ v, needed (vals d) (blks d) v → v ∉ rs).
  { assert (Hop : ∀ u x v, vals d !! u = Some x → u ∉ rs → v ∈ operands (v_kind x) →
      alive (vals d) v → v ∉ rs).
    { intros u x v Hx Hu Hv Hal. assert (uses (vals d') u v) as Huse.
      { specialize (C2 u Hu). symmetry in C2.
        destruct (vsk_kind _ _ _ _ C2 Hx) as (x' & Hx' & _ & _ & Hk). exists x'.
        split; [done|]. by rewrite <- Hk. }
      apply (go_ex _ _ _ _ Hok') in Huse as [Hg|Hl]; [|by apply Halive in Hl as [_ ?]].
      exfalso. eapply (local_not_global _ _ _ _ _ Hok Hal).
      by apply (same_skel_is_Some _ _ _ C4). }
    intros v Hn. induction Hn as [v x Hx He|u x v Hu IH Hx Hv Hs|b bd i p u x a Hp IH Hb Hi Hx Hpa Hs].
    - intros [_ Hr]%Hrs. by apply Hr, (Hlive _ _ Hx).
    - eapply Hop; [done..| |done]. by apply direct_operands.
    - eapply Hop; [done| |by eapply passes_operands|done].
      intros [_ Hr]%Hrs. apply Hr, (Hlive _ _ Hx). by eapply passes_effectful. }
  assert (Hblk : ∀ b bd', blks d' !! b = Some bd' → ∃ bd, blks d !! b = Some bd ∧ bb_params bd' = bb_params bd).
  { intros b bd' Hb'. specialize (C3 b). rewrite Hb' in C3. destruct (blks d !! b) as [bd|]; [|done].
    exists bd. split; [done|]. unfold bsk in C3. simpl in C3. by injection C3 as _ ->. }
  assert (Hval : ∀ v x', vals d' !! v = Some x' → v ∉ rs ∧ ∃ x, vals d !! v = Some x ∧
    v_ty x' = v_ty x ∧ v_name x' = v_name x ∧ v_kind x' = v_kind x).
  { intros v x' Hx'. assert (v ∉ rs) as Hv by (apply Halive; by exists x'). split; [done|].
    by apply (vsk_kind _ _ _ _ (C2 v Hv)). }
  assert (Hin : ∀ v b, in_block (f_layout d') v b ↔ in_block (f_layout d) v b ∧ v ∉ rs).
  { intros v b. unfold in_block. rewrite L1. unfold swept. split.
    - intros (is & Hb & Hv). apply elem_of_list_fmap in Hb as ([b' is'] & [= -> ->] & Hb). simpl in Hv.
      apply elem_of_list_filter in Hv as [Hv Hv']. split; [by exists is'|].
      by intros [_ ?]%Hrs.
    - intros [(is & Hb & Hv) Hr]. exists (filter (λ v, v ∈ live) is). split.
      + apply elem_of_list_fmap. by exists (b, is).
      + apply elem_of_list_filter. split; [|done]. destruct (decide (v ∈ live)) as [?|Hl]; [done|].
        exfalso. apply Hr, unmarked_in. split; [|done]. by exists b, is. }
  split; [constructor; try done|split; [|done]].
  - constructor.
    + intros b bd' p Hb' Hp. destruct (Hblk _ _ Hb') as (bd & Hb & Hps). rewrite Hps in Hp.
      destruct (Hpar _ _ _ Hb Hp) as [x' Hx']. destruct (Hval _ _ Hx') as (_ & x & Hx & _ & _ & Hk).
      destruct (so_param _ _ _ Hsh _ _ _ Hb Hp) as (x0 & i & Hx0 & Hk0). simplify_eq.
      exists x', i. split; [done|]. congruence.
    + intros v x' c t ta fa Hx' Hk'. destruct (Hval _ _ Hx') as (_ & x & Hx & _ & _ & Hk).
      eapply (so_apart _ _ _ Hsh); [done|]. by rewrite <- Hk.
    + done.
    + intros v b [Hb Hv]%Hin. destruct (so_listed _ _ _ Hsh _ _ Hb) as (x & Hx & Hl).
      assert (alive (vals d') v) as [x' Hx'] by (apply Halive; split; [by exists x|done]).
      exists x'. split; [done|]. destruct (Hval _ _ Hx') as (_ & x0 & Hx0 & _ & _ & ->). by simplify_eq.
    + intros v b. rewrite Hin, L3. destruct (decide (v ∈ rs)); [naive_solver|].
      rewrite (so_parent _ _ _ Hsh). naive_solver.
  - split.
    + intros v x' Hx'. destruct (Hval _ _ Hx') as (_ & x & Hx & -> & -> & ->).
      exists x. split; [done|]. split; [done|]. split; [done|].
      assert (∀ t l, still_passed (vals d') (blks d) t l = l) as Hs.
      { intros t l. unfold still_passed. destruct (blks d !! t) as [bd|] eqn:Hb; [|done].
        apply still_all. intros p Hp. by eapply Hpar. }
      destruct (v_kind x); simpl; try done; by rewrite !Hs.
    + intros b. specialize (C3 b). unfold bsk in C3. rewrite C3.
      destruct (blks d !! b) as [bd|] eqn:Hb; [|done]. simpl. do 2 f_equal. symmetry.
      apply filter_all_in. intros p Hp. by eapply Hpar.
  - intros v Hn. apply Halive. split; [|by apply Hnot].
    clear -Hn. destruct Hn; [by eexists|done..].
  - split.
    + rewrite L1. unfold swept. apply map_ext_in. intros [b is] Hb%elem_of_list_In. simpl. f_equal.
      apply filter_ext_in. intros v Hv. rewrite Halive. split.
      * intros Hl. split; [|by intros [_ ?]%Hrs].
        destruct (so_listed _ _ _ Hsh v b) as (x & Hx & _); [by exists is|]. by exists x.
      * intros [_ Hr]. destruct (decide (v ∈ live)) as [?|Hl]; [done|].
        exfalso. apply Hr, unmarked_in. split; [|done]. by exists b, is.
    + intros v. rewrite L3. destruct (decide (v ∈ rs)) as [Hv|Hv].
      * rewrite decide_False; [done|]. by intros [_ ?]%Halive.
      * destruct (decide (alive (vals d') v)) as [Hal|Hal]; [done|].
        destruct (l_inst_bb (f_layout d) !! v) as [b|] eqn:Hb; [|done].
        exfalso. apply Hal, Halive. split; [|done].
        apply (so_parent _ _ _ Hsh) in Hb. destruct (so_listed _ _ _ Hsh _ _ Hb) as (x & Hx & _).
        by exists x.
  - intros v x Hx. destruct (decide (v ∈ rs)) as [Hv|Hv].
    + right. left. apply Hrs in Hv as [(x0 & Hx0 & Hi) _]. by simplify_eq.
    + left. apply Halive. split; [by exists x|done].
  - intros Hc. destruct rs as [|v rs'] eqn:Ers; [done|]. exists v.
    assert (v ∈ v :: rs') as Hv by (by left). split.
    + apply Hrs in Hv as [(x & Hx & _) _]. by exists x.
    + intros [_ ?]%Halive. done.
Qed.

Lemma opt_trims E o gs d c gs' d' : fair o → graph_ok E gs (vals d) (blks d) →
  shape_ok (vals d) (blks d) (f_layout d) → opt_bb_params o gs d = Some (c, gs', d') →
  trimmed_to E gs d gs' d' ∧ (c = true → ∃ v, alive (vals d) v ∧ ¬ alive (vals d') v).
Proof.
  intros F Hok Hsh H.
  destruct (opt_bb_params_ok _ _ _ _ _ _ _ F Hok (so_apart _ _ _ Hsh) H)
    as (Hok' & S & Hsk & Hap & Hdead & Hkeep & Hc & Hl & Ety & Enm & Eps). clear H.
  assert (Hd : ∀ x, deadp (f_dfg d) x → ∃ y, vals d !! x = Some y ∧ (∃ i, v_kind y = KBlockArg i) ∧
    ∀ u, ¬ uses (vals d) u x).
  { intros x (b & bd & Hb & Hp & Hu). destruct (so_param _ _ _ Hsh _ _ _ Hb Hp) as (y & i & Hy & Hk).
    exists y. split; [done|]. split; [by exists i|]. intros u Hux.
    apply (go_loc _ _ _ _ Hok _ _ Hy) in Hux. unfold usedb in Hu. rewrite Hy in Hu.
    apply negb_false_iff, bool_decide_eq_true in Hu. rewrite Hu in Hux. set_solver. }
  assert (Hinst : ∀ x y, vals d !! x = Some y → is_local_inst (v_kind y) = true → alive (vals d') x).
  { intros x y Hy Hi. apply Hkeep; [by eauto|].
    intros (y' & Hy' & (i & Hk) & _)%Hd. simplify_eq. by rewrite Hk in Hi. }
  split.
  - constructor; try done.
    + constructor.
      * intros b bd' p Hb' Hp. destruct (shrunk_params_inv _ _ _ _ _ _ S Hb') as (bd & Hb & _ & Hps).
        rewrite Hps in Hp. apply elem_of_list_filter in Hp as [[x' Hx'] Hp].
        destruct (so_param _ _ _ Hsh _ _ _ Hb Hp) as (x & i & Hx & Hk).
        destruct (proj1 S _ _ Hx') as (x0 & Hx0 & _ & _ & Hk0). simplify_eq.
        exists x', i. split; [done|]. rewrite Hk0. by apply trimmed_blockarg.
      * done.
      * rewrite Hl. apply Hsh.
      * intros v b Hb. rewrite Hl in Hb. destruct (so_listed _ _ _ Hsh _ _ Hb) as (x & Hx & Hi).
        destruct (Hinst _ _ Hx Hi) as [x' Hx']. exists x'. split; [done|].
        destruct (proj1 S _ _ Hx') as (x0 & Hx0 & _ & _ & Hk0). simplify_eq.
        by rewrite Hk0, inst_trimmed.
      * intros v b. rewrite Hl. apply Hsh.
    + intros v Hn. apply Hkeep; [destruct Hn; [by eexists|done..]|].
      intros (y & Hy & (i & Hk) & Hno)%Hd.
      destruct Hn as [v x Hx He|u x v Hu Hx Hv Hs|b bd j p u x a Hp Hb Hi Hx Hpa Hs].
      * simplify_eq. by rewrite Hk in He.
      * apply (Hno u). exists x. split; [done|]. by apply direct_operands.
      * apply (Hno u). exists x. split; [done|]. by eapply passes_operands.
    + rewrite Hl. split.
      * rewrite <- (map_id (l_bbs (f_layout d))) at 1. apply map_ext_in.
        intros [b is] Hb%elem_of_list_In. simpl. f_equal. symmetry. apply filter_all_in.
        intros v Hv. destruct (so_listed _ _ _ Hsh v b) as (x & Hx & Hi); [by exists is|].
        by eapply Hinst.
      * intros v. destruct (decide (alive (vals d') v)) as [Hal|Hal]; [done|].
        destruct (l_inst_bb (f_layout d) !! v) as [b|] eqn:Hb; [|done]. exfalso. apply Hal.
        apply (so_parent _ _ _ Hsh) in Hb. destruct (so_listed _ _ _ Hsh _ _ Hb) as (x & Hx & Hi).
        by eapply Hinst.
    + intros v x Hx. destruct (is_local_inst (v_kind x)) eqn:Hi; [by right; left|].
      destruct (decide (alive (vals d') v)) as [?|Hal]; [by left|].
      destruct (v_kind x) eqn:Hk; try (left; apply Hkeep; [by exists x|];
        intros (y & Hy & (j & Hj) & _)%Hd; simplify_eq; congruence).
      right. right. by eexists.
  - intros [x Hx]%Hc. exists x. destruct (Hd _ Hx) as (y & Hy & _). split; [by exists y|].
    unfold alive. rewrite (Hdead _ Hx). by intros [].
Qed.

Lemma round_trims E o live gs d c live' gs' d' : fair o → graph_ok E gs (vals d) (blks d) →
  shape_ok (vals d) (blks d) (f_layout d) → dce_round o live gs d = Dok (c, live', gs', d') →
  trimmed_to E gs d gs' d' ∧ (c = true → ∃ v, alive (vals d) v ∧ ¬ alive (vals d') v).
Proof.
  intros F Hok Hsh H. unfold dce_round in H.
  destruct (dce_mark o (vals d) live) as [live1| |] eqn:Hm; try done. cbn [dthen] in H.
  destruct (dce_mark_ok _ _ _ _ F Hm) as (_ & _ & Hlive & _).
  destruct (dce_sweep live1 gs d) as [[[c1 gs1] d1]|] eqn:Hs; [|done]. cbn [dopt dthen fst snd] in H.
  destruct (sweep_trims _ _ _ _ _ _ _ Hok Hsh Hlive Hs) as (T1 & Hc1 & _).
  destruct (opt_bb_params o gs1 d1) as [[[c2 gs2] d2]|] eqn:Ho; [|done]. cbn [dopt dthen fst snd] in H.
  destruct (opt_trims _ _ _ _ _ _ _ F (tt_graph _ _ _ _ _ T1) (tt_shape _ _ _ _ _ T1) Ho) as (T2 & Hc2).
  injection H as <- <- <- <-.
  split; [by eapply trimmed_to_trans|].
  intros Hc. apply orb_true_iff in Hc as [Hc|Hc].
  - destruct (Hc1 Hc) as (v & H1 & H2). exists v. split; [done|]. intros H3. apply H2.
    eapply shrunk_sub; [|exact H3]. apply T2.
  - destruct (Hc2 Hc) as (v & H1 & H2). exists v. split; [|done].
    eapply shrunk_sub; [|exact H1]. apply T1.
Qed.

Lemma rounds_trims E o n : fair o → ∀ live gs d live' gs' d',
  graph_ok E gs (vals d) (blks d) → shape_ok (vals d) (blks d) (f_layout d) →
  dce_rounds n o live gs d = Dok (live', gs', d') → trimmed_to E gs d gs' d'.
Proof.
  intros F. induction n as [|n IH]; intros live gs d live' gs' d' Hok Hsh H; [done|].
  cbn [dce_rounds] in H.
  destruct (dce_round o live gs d) as [[[[c live1] gs1] d1]| |] eqn:Hr; try done.
  cbn [dthen fst snd] in H.
  destruct (round_trims _ _ _ _ _ _ _ _ _ F Hok Hsh Hr) as [T1 _].
  destruct c.
  - eapply trimmed_to_trans; [done|]. eapply IH; [..|done]; apply T1.
  - by injection H as <- <- <-.
Qed.

(** ** The fuel suffices *)

Lemma mark_operands_count vs us : ∀ live work live' work',
  mark_operands vs us live work = Some (live', work') →
  length work' + base.size (dom vs ∖ live') ≤ length work + base.size (dom vs ∖ live).
Proof.
  induction us as [|x us IH]; intros live work live' work' H; cbn [mark_operands] in H.
  - by injection H as <- <-.
  - destruct (decide (x ∈ live)) as [Hx|Hx]; [by eapply IH|].
    apply bind_Some in H as (d & Hd & H). destruct (is_local_inst (v_kind d)); [|by eapply IH].
    apply IH in H. simpl in H.
    assert (base.size (dom vs ∖ live) = S (base.size (dom vs ∖ ({[x]} ∪ live)))) as ->; [|lia].
    assert (dom vs ∖ live = {[x]} ∪ (dom vs ∖ ({[x]} ∪ live))) as ->.
    { apply set_eq. intros y. rewrite !elem_of_union, !elem_of_difference, elem_of_union, !elem_of_singleton.
      split.
      - intros [H1 H2]. destruct (decide (y = x)) as [->|]; [by left|]. right. naive_solver.
      - intros [-> |[H1 H2]]; [|naive_solver]. split; [|done]. apply elem_of_dom. by eauto. }
    rewrite size_union by set_solver. by rewrite size_singleton.
Qed.
Lemma mark_loop_fuel vs n : ∀ live work, length work + base.size (dom vs ∖ live) ≤ n →
  mark_loop n vs live work ≠ Dfuel.
Proof.
  induction n as [|n IH]; intros live [|x work] Hle; cbn [mark_loop]; try done; simpl in Hle; [lia|].
  destruct (vs !! x ≫= _) as [[live1 work1]|] eqn:H; [|done]. cbn [dopt dthen fst snd].
  apply bind_Some in H as (d & Hd & H). apply mark_operands_count in H. apply IH. lia.
Qed.
Lemma dce_mark_fuel o vs live : dce_mark o vs live ≠ Dfuel.
Proof.
  unfold dce_mark. destruct (mark_critical _ _ _ _) as [[live1 work]|]; [|done].
  cbn [dopt dthen fst snd]. apply mark_loop_fuel.
  assert (base.size (dom vs ∖ live1) ≤ base.size (dom vs)) as Hs by (apply subseteq_size; set_solver).
  rewrite size_dom in Hs. lia.
Qed.

Lemma fewer (m m' : gmap N vdata) v : (∀ x, alive m' x → alive m x) → alive m v → ¬ alive m' v →
  base.size m' < base.size m.
Proof.
  intros Hs Hv Hv'. rewrite <- !size_dom. apply subset_size. split.
  - intros x. rewrite !elem_of_dom. apply Hs.
  - intros H. apply Hv'. apply elem_of_dom, H, elem_of_dom. done.
Qed.

Lemma dce_rounds_fuel E o n : fair o → ∀ live gs d, graph_ok E gs (vals d) (blks d) →
  shape_ok (vals d) (blks d) (f_layout d) → base.size (vals d) < n → dce_rounds n o live gs d ≠ Dfuel.
Proof.
  intros F. induction n as [|n IH]; intros live gs d Hok Hsh Hn; [lia|]. cbn [dce_rounds].
  destruct (dce_round o live gs d) as [[[[c live1] gs1] d1]| |] eqn:Hr; cbn [dthen fst snd]; [|done|].
  - destruct (round_trims _ _ _ _ _ _ _ _ _ F Hok Hsh Hr) as [T1 Hc]. destruct c; [|done].
    destruct (Hc eq_refl) as (v & H1 & H2). apply IH; [apply T1|apply T1|].
    pose proof (fewer _ _ v (λ x, shrunk_sub _ _ _ _ x (tt_shrunk _ _ _ _ _ T1)) H1 H2). lia.
  - unfold dce_round in Hr. pose proof (dce_mark_fuel o (vals d) live).
    destruct (dce_mark o (vals d) live); try done. cbn [dthen] in Hr.
    destruct (dce_sweep _ _ _) as [[[] ]|]; [|done]. cbn [dopt dthen fst snd] in Hr.
    by destruct (opt_bb_params _ _ _).
Qed.

(** ** Global operands *)

Lemma dce_global_panics E o live gs d u x v : fair o → graph_ok E gs (vals d) (blks d) →
  shape_ok (vals d) (blks d) (f_layout d) →
  vals d !! u = Some x → effectful (v_kind x) → v ∈ operands (v_kind x) → is_Some (gs !! v) →
  v ∉ live → dce_run_on o live gs d = Dpanic.
Proof.
  intros F Hok Hsh Hx He Hv Hg Hl. unfold dce_run_on. cbn [dce_rounds].
  assert (dce_mark o (vals d) live = Dpanic) as Hm.
  { pose proof (dce_mark_fuel o (vals d) live).
    destruct (dce_mark o (vals d) live) as [live1| |] eqn:Hm; try done.
    destruct (dce_mark_ok _ _ _ _ F Hm) as (_ & _ & _ & Ho & _). exfalso.
    destruct (Ho _ _ _ Hx He Hv) as [?|Ha]; [done|].
    by eapply (local_not_global _ _ _ _ _ Hok Ha). }
  unfold dce_round. by rewrite Hm.
Qed.
