(** Dead code elimination: it does not panic on functions without global operands. *)
From Verif Require Import Base IdModel TypeModel IrModel LayoutModel BuilderModel
  UsesSpec DfgSpec LayoutSpec UsesProofs DfgProofs LayoutProofs DceModel DceSpec DceGraphProofs
  DceSweepProofs DceParamProofs DceProofs.
From Coq Require Import Lia.

(** ** [mark] *)

Lemma mark_critical_total vs order : ∀ live work, (∀ v, v ∈ order → is_Some (vs !! v)) →
  is_Some (mark_critical vs order live work).
Proof.
  induction order as [|v order IH]; intros live work H; cbn [mark_critical]; [by eauto|].
  destruct (H v) as [d ->]; [by left|]. cbn [mbind option_bind].
  destruct (is_critical_inst _); apply IH; intros x Hx; apply H; by right.
Qed.
Lemma mark_operands_total vs us : ∀ live work, (∀ v, v ∈ us → is_Some (vs !! v)) →
  is_Some (mark_operands vs us live work).
Proof.
  induction us as [|v us IH]; intros live work H; cbn [mark_operands]; [by eauto|].
  assert (H' : ∀ v, v ∈ us → is_Some (vs !! v)) by (intros x Hx; apply H; by right).
  destruct (decide _); [by apply IH|].
  destruct (H v) as [d ->]; [by left|]. cbn [mbind option_bind].
  destruct (is_local_inst _); by apply IH.
Qed.
Lemma mark_loop_total vs n : ∀ live work, (∀ u v, uses vs u v → is_Some (vs !! v)) →
  (∀ v, v ∈ work → is_Some (vs !! v)) → mark_loop n vs live work ≠ Dpanic.
Proof.
  induction n as [|n IH]; intros live [|x work] Hu Hw; cbn [mark_loop]; try done.
  destruct (Hw x) as [d Hd]; [by left|]. rewrite Hd. cbn [mbind option_bind].
  rewrite value_uses_operands.
  destruct (mark_operands_total vs (operands (v_kind d)) live work) as [[live1 work1] H1].
  { intros v Hv. apply (Hu x). by exists d. }
  rewrite H1. cbn [dopt dthen fst snd]. apply IH; [done|].
  destruct (mark_operands_ok _ _ _ _ _ _ H1) as (_ & _ & _ & _ & _ & O6).
  intros v Hv. apply O6 in Hv as [Hv|[_ ?]]; [|done]. apply Hw. by right.
Qed.
Lemma dce_mark_total o vs live : fair o → (∀ u v, uses vs u v → is_Some (vs !! v)) →
  ∃ live', dce_mark o vs live = Dok live'.
Proof.
  intros F Hu. pose proof (dce_mark_fuel o vs live) as Hf.
  assert (dce_mark o vs live ≠ Dpanic) as Hp.
  { unfold dce_mark.
    destruct (mark_critical_total vs (o_values o vs) live []) as [[live1 work] H1].
    { intros v Hv. by apply (fo_values _ F). }
    rewrite H1. cbn [dopt dthen fst snd]. apply mark_loop_total; [done|].
    destruct (mark_critical_ok _ _ _ _ _ _ H1) as (_ & _ & _ & _ & C5 & _).
    intros v Hv. apply C5 in Hv as [Hv|?]; [by apply elem_of_nil in Hv|done]. }
  destruct (dce_mark o vs live) as [live'| |]; [by eauto|done..].
Qed.

(** ** [sweep] *)

Lemma is_unit_false t : t ≠ TUnit → is_unit t = false.
Proof. by destruct t. Qed.
Lemma mk_undef_ok t : t ≠ TUnit → ∃ u, mk_undef t = Some u ∧ v_ty u = t ∧ v_kind u = KUndef.
Proof.
  intros H. unfold mk_undef. rewrite (is_unit_false _ H). simpl. eexists. split; [done|]. done.
Qed.

Lemma sweep_undef_total E rs : ∀ gs g, graph_ok E gs (d_values g) (d_bbs g) →
  (∀ v, v ∈ rs → ∃ d, d_values g !! v = Some d ∧ v_ty d ≠ TUnit) → is_Some (sweep_undef rs gs g).
Proof.
  induction rs as [|v rs IH]; intros gs g Hok H; cbn [sweep_undef]; [by eauto|].
  destruct (H v) as (d & Hd & Ht); [by left|]. rewrite Hd. cbn [mbind option_bind].
  destruct (mk_undef_ok _ Ht) as (u & -> & Hu1 & Hu2). cbn [mbind option_bind].
  destruct (replace_total E gs g v d u Hok Hd) as [[gs1 g1] H1].
  { intros x Hx. rewrite Hu2 in Hx. by apply elem_of_nil in Hx. }
  { intros x Hx. rewrite Hu2 in Hx. by apply elem_of_nil in Hx. }
  rewrite H1. cbn [mbind option_bind].
  destruct (replace_graph _ _ _ _ _ _ _ Hok H1) as [Hok1 [(d0 & R0 & R1) R2 R3 R4]].
  apply IH; [done|]. intros x Hx. destruct (decide (x = v)) as [->|Hn].
  - eexists. split; [done|]. simpl. by rewrite Hu1.
  - destruct (H x) as (d1 & Hd1 & Ht1); [by right|]. specialize (R2 x Hn). symmetry in R2.
    destruct (vsk_kind _ _ _ _ R2 Hd1) as (d2 & Hd2 & Et & _). exists d2. split; [done|]. congruence.
Qed.

Lemma remove_values_total E rs : ∀ gs g, graph_ok E gs (d_values g) (d_bbs g) → NoDup rs →
  (∀ v, v ∈ rs → is_Some (d_values g !! v) ∧ ∀ u, ¬ uses (d_values g) u v) →
  is_Some (remove_values rs gs g).
Proof.
  induction rs as [|v rs IH]; intros gs g Hok Hn H; cbn [remove_values]; [by eauto|].
  apply list.NoDup_cons in Hn as [Hn1 Hn2].
  destruct (H v) as [[d Hd] Hu]; [by left|].
  destruct (remove_total E gs g v d Hok Hd Hu) as [[[d1 gs1] g1] H1].
  rewrite H1. cbn [mbind option_bind].
  destruct (remove_graph _ _ _ _ _ _ _ Hok H1) as [Hok1 [_ R1 R2 R3 R4]].
  apply IH; [done|done|]. intros x Hx. assert (x ≠ v) as Hxv by (by intros ->).
  destruct (H x) as [Hs Hux]; [by right|]. split.
  - by apply (vsk_alive _ _ _ (R2 x Hxv)).
  - intros u (d2 & Hd2 & Hin). destruct (decide (u = v)) as [->|Huv]; [congruence|].
    destruct (vsk_kind _ _ _ _ (R2 u Huv) Hd2) as (d3 & Hd3 & _ & _ & Hk).
    apply (Hux u). exists d3. split; [done|]. by rewrite <- Hk.
Qed.

Lemma unmarked_nodup live l : NoDup (map fst l) → (∀ b is, (b, is) ∈ l → NoDup is) →
  (∀ v b b' is is', (b, is) ∈ l → (b', is') ∈ l → v ∈ is → v ∈ is' → b = b') →
  NoDup (unmarked live l).
Proof.
  induction l as [|[b is] l IH]; intros H1 H2 H3; [by constructor|].
  simpl in H1. apply list.NoDup_cons in H1 as [H1 H1'].
  unfold unmarked. cbn [map concat]. apply list.NoDup_app. split; [|split].
  - apply list.NoDup_filter. eapply H2. by left.
  - intros v Hv Hc. apply elem_of_list_filter in Hv as [_ Hv]. simpl in Hv.
    apply elem_of_list_In, in_concat in Hc as (is' & Hi & Hc).
    apply elem_of_list_In in Hi, Hc. apply elem_of_list_fmap in Hi as ([b' is0] & -> & Hi).
    simpl in Hc. apply elem_of_list_filter in Hc as [_ Hc].
    assert (b = b') as <-.
    { eapply (H3 v b b' is is0); [by left|by right|done..]. }
    apply H1. apply elem_of_list_fmap. by exists (b, is0).
  - apply IH; [done|intros c is0 Hc; eapply H2; by right|].
    intros v c c' is0 is1 Hc Hc'. apply (H3 v c c' is0 is1); by right.
Qed.

Lemma dce_sweep_total E live gs d : graph_ok E gs (vals d) (blks d) →
  shape_ok (vals d) (blks d) (f_layout d) → tame (vals d) (blks d) (f_layout d) →
  (∀ u, u ∈ live → closed_at (vals d) live u) →
  (∀ v x, vals d !! v = Some x → effectful (v_kind x) → v ∈ live) →
  is_Some (dce_sweep live gs d).
Proof.
  intros Hok Hsh Ht Hc Hlive. unfold dce_sweep.
  destruct (sweep_bbs_ok live (l_bbs (f_layout d)) [] (f_layout d) (so_once _ _ _ Hsh) eq_refl)
    as (l' & H1 & _). rewrite H1. cbn [mbind option_bind].
  set (rs := unmarked live (l_bbs (f_layout d))) in *.
  assert (Hrs : ∀ v, v ∈ rs → (∃ x, vals d !! v = Some x ∧ is_local_inst (v_kind x) = true) ∧ v ∉ live).
  { intros v [(b & Hb) Hv]%unmarked_in. split; [|done]. by eapply so_listed. }
  destruct (sweep_undef_total E rs gs (f_dfg d) Hok) as [[gs1 g1] H2].
  { intros v [(x & Hx & Hi) Hl]%Hrs. exists x. split; [done|].
    destruct (ta_value _ _ _ Ht _ _ Hx Hi) as [He|?]; [|done]. exfalso. by apply Hl, (Hlive _ _ Hx). }
  rewrite H2. cbn [mbind option_bind].
  destruct (sweep_undef_ok _ _ _ _ _ _ Hok H2) as (Hok1 & U1 & U2 & U3 & U4).
  destruct (remove_values_total E rs gs1 g1 Hok1) as [[gs2 g2] H3].
  - apply unmarked_nodup; [apply Hsh|apply Hsh|].
    intros v b b' is is' Hb Hb' Hv Hv'.
    assert (in_block (f_layout d) v b) as I1 by (by exists is).
    assert (in_block (f_layout d) v b') as I2 by (by exists is').
    apply (so_parent _ _ _ Hsh) in I1, I2. congruence.
  - intros v Hv. split.
    { destruct (U2 v Hv) as (x & Hx & _). by eauto. }
    intros u (y & Hy & Huv). destruct (decide (u ∈ rs)) as [Hur|Hur].
    { destruct (U2 u Hur) as (y' & Hy' & Hk). simplify_eq. rewrite Hk in Huv. by apply elem_of_nil in Huv. }
    destruct (vsk_kind _ _ _ _ (U1 u Hur) Hy) as (y0 & Hy0 & _ & _ & Hk). rewrite Hk in Huv.
    destruct (Hrs v Hv) as [(x & Hx & Hi) Hl]. apply Hl.
    assert (is_local_inst (v_kind y0) = true) as Hi' by (by eapply (ta_inst _ _ _ Ht)).
    destruct (ta_all _ _ _ Ht _ _ Hy0 Hi') as [b Hb].
    assert (u ∈ live) as Hul.
    { destruct (decide (u ∈ live)) as [?|Hnl]; [done|]. exfalso. apply Hur, unmarked_in.
      split; [by exists b|done]. }
    by eapply (Hc u Hul).
  - rewrite H3. by eauto.
Qed.

(** ** [opt_bb_params] *)

Lemma sublist_in {A} (l k : list A) x : l `sublist_of` k → x ∈ l → x ∈ k.
Proof.
  induction 1 as [|y l k Hs IH|y l k Hs IH]; [done|..].
  - intros [-> |H]%elem_of_cons; [by left|right; by auto].
  - intros H. right. by auto.
Qed.
Lemma sublist_nodup {A} (l k : list A) : l `sublist_of` k → NoDup k → NoDup l.
Proof.
  induction 1 as [|x l k Hs IH|x l k Hs IH]; [done|..]; intros [H1 H2]%list.NoDup_cons; [|by auto].
  apply list.NoDup_cons. split; [|by auto]. intros Hx. apply H1. by eapply sublist_in.
Qed.

Lemma unused_params_total vs ps : ∀ i, (∀ p, p ∈ ps → is_Some (vs !! p)) →
  ∃ m, unused_params vs i ps = Some m ∧ map snd m `sublist_of` ps.
Proof.
  induction ps as [|p ps IH]; intros i H; cbn [unused_params]; [by exists []|].
  destruct (H p) as [d ->]; [by left|]. cbn [mbind option_bind].
  destruct (IH (S i)) as (m & -> & Hs); [intros q Hq; apply H; by right|]. cbn [mbind option_bind].
  eexists. split; [done|]. destruct (bool_decide _); simpl; by constructor.
Qed.
Lemma todo_params_total g order : (∀ b, b ∈ order → is_Some (d_bbs g !! b)) →
  (∀ b bd p, d_bbs g !! b = Some bd → p ∈ bb_params bd → is_Some (d_values g !! p)) →
  is_Some (todo_params g order).
Proof.
  intros H1 H2. induction order as [|b order IH]; cbn [todo_params]; [by eauto|].
  destruct (H1 b) as [bd Hb]; [by left|]. rewrite Hb. cbn [mbind option_bind].
  destruct (unused_params_total (d_values g) (bb_params bd) 0) as (m & -> & _); [by eauto|].
  cbn [mbind option_bind].
  destruct IH as [r ->]; [intros c Hc; apply H1; by right|]. cbn [mbind option_bind]. by eauto.
Qed.

Lemma remove_unused_total E o todo : fair o → ∀ gs g,
  graph_ok E gs (d_values g) (d_bbs g) → NoDup (todo.*1) →
  (∀ b m, (b, m) ∈ todo → is_Some (d_bbs g !! b) ∧ NoDup (map snd m)) →
  (∀ b m c n p, (b, m) ∈ todo → (c, n) ∈ todo → p ∈ map snd m → p ∈ map snd n → b = c) →
  (∀ b m p, (b, m) ∈ todo → p ∈ map snd m →
     is_Some (d_values g !! p) ∧ ∀ u, ¬ uses (d_values g) u p) →
  is_Some (remove_unused o todo gs g).
Proof.
  intros F. induction todo as [|[b m] todo IH]; intros gs g Hok Hn Hb Hd Hp; cbn [remove_unused];
    [by eauto|].
  destruct (Hb b m) as [[bd Hbd] Hm]; [by left|]. rewrite Hbd. cbn [mbind option_bind].
  simpl in Hn. apply list.NoDup_cons in Hn as [Hn1 Hn2].
  set (g1 := Dfg _ _).
  assert (Hok1 : graph_ok E gs (d_values g1) (d_bbs g1)) by (by apply graph_ok_params).
  assert (Hperm : map snd (o_unused o m) ≡ₚ map snd m) by (by rewrite (fo_unused _ F)).
  destruct (remove_values_total E (map snd (o_unused o m)) gs g1 Hok1) as [[gs2 g2] H1].
  { by rewrite Hperm. }
  { intros p. rewrite Hperm. intros Hpm. eapply (Hp b m); [by left|done]. }
  rewrite H1. cbn [mbind option_bind].
  destruct (remove_values_ok _ _ _ _ _ _ Hok1 H1) as (Hok2 & [C1 C2 C3 C4] & _).
  apply IH; [done|done|..].
  - intros c n Hc. destruct (Hb c n) as [Hs ?]; [by right|]. split; [|done].
    specialize (C3 c). assert (c ≠ b) as Hcb.
    { intros ->. apply Hn1, elem_of_list_fmap. by exists (b, n). }
    unfold g1 in C3. cbn [d_bbs] in C3. rewrite lookup_insert_ne in C3 by done.
    destruct Hs as [y Hy]. rewrite Hy in C3. destruct (d_bbs g2 !! c); [by eauto|done].
  - intros c n c' n' p Hc Hc'. eapply Hd; by right.
  - intros c n p Hc Hpn. destruct (Hp c n p) as [Hs Hu]; [by right|done|].
    assert (p ∉ map snd (o_unused o m)) as Hnot.
    { rewrite Hperm. intros Hpm. apply Hn1. apply elem_of_list_fmap. exists (c, n). split; [|done].
      simpl. eapply (Hd b m c n p); [by left|by right|done..]. }
    split; [by apply (vsk_alive _ _ _ (C2 p Hnot))|].
    intros u (y & Hy & Hin). destruct (decide (u ∈ map snd (o_unused o m))) as [Hur|Hur].
    + rewrite (C1 u Hur) in Hy. done.
    + destruct (vsk_kind _ _ _ _ (C2 u Hur) Hy) as (y0 & Hy0 & _ & _ & Hk).
      apply (Hu u). exists y0. split; [done|]. by rewrite <- Hk.
Qed.

Lemma trim_users_total E o b m : fair o → ∀ us gs g,
  graph_ok E gs (d_values g) (d_bbs g) → apart (d_values g) → NoDup us →
  (∀ u, u ∈ us → jumps_to (d_values g) u b) → (∀ u v, uses (d_values g) u v → is_Some (d_values g !! v)) →
  is_Some (trim_users o b m us gs g).
Proof.
  intros F. induction us as [|u us IH]; intros gs g Hok Ha Hn Hj Hl; cbn [trim_users]; [by eauto|].
  apply list.NoDup_cons in Hn as [Hn1 Hn2].
  destruct (Hj u) as (d & Hd & Htg); [by left|]. rewrite Hd. cbn [mbind option_bind].
  destruct (trim_inst_some b m (v_kind d) Htg) as (kept & Hk & Hkept).
  { intros c t ta fa Hkb. by eapply Ha. }
  rewrite Hk. cbn [mbind option_bind].
  destruct (replace_total E gs g u d (VData (v_ty d) (v_name d) (trim1 b m (v_kind d)) ∅) Hok Hd)
    as [[gs1 g1] H1]; cbn [v_kind].
  { intros x Hx%trim1_operands. assert (uses (d_values g) u x) as Hux by (by exists d).
    split; [intros ->; by eapply (go_irr _ _ _ _ Hok)|]. right. by eapply Hl. }
  { intros c Hc. rewrite trim1_targets in Hc. eapply (go_bex _ _ _ _ Hok). by exists d. }
  rewrite H1. cbn [mbind option_bind].
  destruct (replace_graph _ _ _ _ _ _ _ Hok H1) as [Hok1 [(d0 & R0 & R1) R2 R3 R4]].
  simplify_eq. cbn [v_ty v_name v_kind] in R1.
  assert (Hal : ∀ x, is_Some (d_values g1 !! x) ↔ is_Some (d_values g !! x)).
  { intros x. destruct (decide (x = u)) as [->|Hx]; [rewrite R1, Hd; by split; eauto|].
    by apply (vsk_alive _ _ _ (R2 x Hx)). }
  assert (Hl1 : ∀ x v, uses (d_values g1) x v → is_Some (d_values g1 !! v)).
  { intros x v (y & Hy & Hv). apply Hal. destruct (decide (x = u)) as [->|Hx].
    - simplify_eq. cbn [v_kind] in Hv. apply trim1_operands in Hv. eapply (Hl u). by exists d.
    - destruct (vsk_kind _ _ _ _ (R2 x Hx) Hy) as (y0 & Hy0 & _ & _ & Hk0).
      eapply (Hl x). exists y0. split; [done|]. by rewrite <- Hk0. }
  assert (Hused : ∀ v, v ∈ o_set o (list_to_set kept) → uses (d_values g1) u v).
  { intros v Hv. apply (fo_set _ F) in Hv. apply elem_of_list_to_set in Hv.
    eexists. split; [done|]. cbn [v_kind]. by apply Hkept. }
  rewrite (remove_if_unused_id E) by (by eauto).
  rewrite (proj2 (forallb_forall _ _)).
  2:{ intros v Hv%elem_of_list_In. apply bool_decide_eq_true_2. by eapply Hl1, Hused. }
  cbn [mbind option_bind]. apply IH; [done|..|done| |done].
  - intros v d' c t ta fa Hd' Hkd. destruct (decide (v = u)) as [->|Hv].
    + simplify_eq. cbn [v_kind] in Hkd. eapply trim1_apart; [|exact Hkd].
      intros c0 t0 ta0 fa0 Hk0. by eapply Ha.
    + destruct (vsk_kind _ _ _ _ (R2 v Hv) Hd') as (d1 & Hd1 & _ & _ & Hk1).
      eapply Ha; [done|]. by rewrite <- Hk1.
  - intros x Hx. destruct (Hj x) as (d1 & Hd1 & Ht1); [by right|].
    assert (Hxu : x ≠ u) by (intros ->; done).
    specialize (R2 x Hxu). symmetry in R2.
    destruct (vsk_kind _ _ _ _ R2 Hd1) as (d2 & Hd2 & _ & _ & Hk2).
    exists d2. split; [done|]. by rewrite <- Hk2.
Qed.

Lemma trim_all_total E o todo : fair o → ∀ gs g,
  graph_ok E gs (d_values g) (d_bbs g) → apart (d_values g) →
  (∀ b m, (b, m) ∈ todo → is_Some (d_bbs g !! b)) →
  (∀ u v, uses (d_values g) u v → is_Some (d_values g !! v)) → is_Some (trim_all o todo gs g).
Proof.
  intros F. induction todo as [|[b m] todo IH]; intros gs g Hok Ha Hb Hl; cbn [trim_all]; [by eauto|].
  destruct (Hb b m) as [bd Hbd]; [by left|]. rewrite Hbd. cbn [mbind option_bind].
  assert (Hj : ∀ u, u ∈ o_set o (bb_used_by bd) → jumps_to (d_values g) u b).
  { intros u Hu. apply (fo_set _ F) in Hu. by apply (go_bb _ _ _ _ Hok _ _ Hbd). }
  destruct (trim_users_total E o b m F (o_set o (bb_used_by bd)) gs g Hok Ha) as [[gs1 g1] H1];
    [by apply (fo_set _ F)|done|done|].
  rewrite H1. cbn [mbind option_bind].
  destruct (trim_users_ok _ _ _ _ F _ _ _ _ _ Hok Ha (proj1 (fo_set _ F _)) Hj H1)
    as (Hok1 & U1 & U2 & U3).
  apply IH; [done|..].
  - intros v d' c t ta fa Hd' Hkd.
    destruct (rekind_vsk _ _ _ _ _ (U1 v) Hd') as (d0 & Hd0 & _ & _ & Hk0). rewrite Hkd in Hk0.
    destruct (decide _).
    + eapply trim1_apart; [|by symmetry]. intros c0 t0 ta0 fa0 He. by eapply Ha.
    + by eapply Ha.
  - intros c n Hc. destruct (Hb c n) as [cd Hcd]; [by right|]. specialize (U2 c).
    rewrite Hcd in U2. destruct (d_bbs g1 !! c); [by eauto|done].
  - intros u v (y & Hy & Hv).
    destruct (rekind_vsk _ _ _ _ _ (U1 u) Hy) as (y0 & Hy0 & _ & _ & Hk). rewrite Hk in Hv.
    assert (is_Some (d_values g !! v)) as Hs.
    { eapply (Hl u). exists y0. split; [done|]. destruct (decide _); [by eapply trim1_operands|done]. }
    specialize (U1 v). destruct Hs as [z Hz]. rewrite Hz in U1.
    destruct (d_values g1 !! v); [by eauto|done].
Qed.

Lemma opt_total E o gs d : fair o → graph_ok E gs (vals d) (blks d) →
  shape_ok (vals d) (blks d) (f_layout d) → tame (vals d) (blks d) (f_layout d) →
  is_Some (opt_bb_params o gs d).
Proof.
  intros F Hok Hsh Ht. unfold opt_bb_params.
  destruct (fo_bbs _ F (blks d)) as [Ob1 Ob2].
  destruct (todo_params_total (f_dfg d) (o_bbs o (blks d))) as [todo Htodo].
  { intros b Hb. by apply Ob2. }
  { intros b bd p Hb Hp. destruct (so_param _ _ _ Hsh _ _ _ Hb Hp) as (x & _ & Hx & _). by eauto. }
  rewrite Htodo. cbn [mbind option_bind].
  destruct (todo_params_in _ _ _ Htodo) as (T1 & T2 & T3 & _). specialize (T3 Ob1).
  assert (Hn1 : NoDup ((o_todo1 o todo).*1)) by (by rewrite (fo_todo1 _ F)).
  assert (Hent : ∀ b m, (b, m) ∈ todo → ∃ bd, blks d !! b = Some bd ∧ map snd m `sublist_of` bb_params bd ∧
    ∀ p, p ∈ map snd m → p ∈ bb_params bd ∧ usedb (vals d) p = false).
  { intros b m (_ & _ & bd & Hb & Hm)%T1. exists bd. split; [done|].
    destruct (unused_params_total (vals d) (bb_params bd) 0) as (m' & Hm' & Hs).
    { by eapply unused_params_in. }
    simplify_eq. split; [done|]. intros p [i Hp]%elem_of_snd.
    apply (unused_params_in _ _ _ _ Hm) in Hp as (k & _ & Hk & Hu). split; [|done].
    by eapply elem_of_list_lookup_2. }
  destruct (remove_unused_total E o (o_todo1 o todo) F gs (f_dfg d) Hok Hn1) as [[gs1 g1] H1].
  { intros b m. rewrite (fo_todo1 _ F). intros (bd & Hb & Hs & _)%Hent. split; [by eauto|].
    eapply sublist_nodup; [done|]. by eapply (ta_once _ _ _ Ht). }
  { intros b m c n p. rewrite !(fo_todo1 _ F). intros (bd & Hb & _ & Hm)%Hent (cd & Hc & _ & Hn)%Hent Hp Hp'.
    apply Hm in Hp as [Hp _]. apply Hn in Hp' as [Hp' _]. by eapply (ta_apart _ _ _ Ht). }
  { intros b m p. rewrite (fo_todo1 _ F). intros (bd & Hb & _ & Hm)%Hent Hp. apply Hm in Hp as [Hp Hu].
    destruct (so_param _ _ _ Hsh _ _ _ Hb Hp) as (x & i & Hx & _). split; [by eauto|].
    intros u Hux. apply (go_loc _ _ _ _ Hok _ _ Hx) in Hux. unfold usedb in Hu. rewrite Hx in Hu.
    apply negb_false_iff, bool_decide_eq_true in Hu. rewrite Hu in Hux. set_solver. }
  rewrite H1. cbn [mbind option_bind].
  destruct (remove_unused_ok _ _ _ F _ _ _ _ Hok Hn1 H1) as (Hok1 & R1 & R2 & R3 & R4 & R5).
  assert (Hval : ∀ v y, d_values g1 !! v = Some y → ∃ x, vals d !! v = Some x ∧ v_kind y = v_kind x).
  { intros v y Hy.
    destruct (vsk_kind (vals d) (d_values g1) v y) as (x & Hx & _ & _ & Hk); [|done|by eauto].
    apply R2. intros b m i Hb Hi. destruct (R1 _ _ _ _ Hb Hi) as [_ ?]. congruence. }
  destruct (trim_all_total E o (o_todo2 o todo) F gs1 g1 Hok1) as [[gs2 g2] H2].
  { intros v y c t ta fa Hy Hk. destruct (Hval _ _ Hy) as (x & Hx & Hkx).
    eapply (so_apart _ _ _ Hsh); [done|]. by rewrite <- Hkx. }
  { intros b m. rewrite (fo_todo2 _ F). intros Hb. destruct (Hent _ _ Hb) as (bd & Hbd & _).
    assert (Hb' : (b, m) ∈ o_todo1 o todo) by (by rewrite (fo_todo1 _ F)).
    specialize (R3 _ _ Hb'). rewrite Hbd in R3. destruct (d_bbs g1 !! b); [by eauto|done]. }
  { intros u v Huv. pose proof (go_ex _ _ _ _ Hok1 _ _ Huv) as [Hg|?]; [|done]. exfalso.
    destruct Huv as (y & Hy & Hv). destruct (Hval _ _ Hy) as (x & Hx & Hkx). rewrite Hkx in Hv.
    apply (same_skel_is_Some _ _ _ R5) in Hg.
    eapply (local_not_global _ _ _ _ _ Hok); [|exact Hg].
    eapply (ta_local _ _ _ Ht u). by exists x. }
  rewrite H2. by eauto.
Qed.

(** ** All rounds *)

Lemma still_sub {A} m ps (l : list A) x : x ∈ still m ps l → x ∈ l.
Proof. rewrite still_keepb. apply keepb_sub. Qed.
Lemma trimmed_operands m bs k v : v ∈ operands (trimmed m bs k) → v ∈ operands k.
Proof.
  assert (Hs : ∀ t l, v ∈ still_passed m bs t l → v ∈ l).
  { intros t l. unfold still_passed. destruct (bs !! t); [apply still_sub|done]. }
  destruct k; simpl; try done; [|apply Hs].
  rewrite !elem_of_cons, !elem_of_app. intros [?|[H|H]]; [by left|right; left; by eapply Hs|right; right; by eapply Hs].
Qed.

Lemma trimmed_tame E gs d gs' d' : graph_ok E gs (vals d) (blks d) →
  tame (vals d) (blks d) (f_layout d) → trimmed_to E gs d gs' d' →
  tame (vals d') (blks d') (f_layout d').
Proof.
  intros Hok Ht T. pose proof (tt_shrunk _ _ _ _ _ T) as S. pose proof (proj1 S) as S1.
  constructor.
  - intros u v Huv. pose proof (go_ex _ _ _ _ (tt_graph _ _ _ _ _ T) _ _ Huv) as [Hg|?]; [|done].
    exfalso. destruct Huv as (y & Hy & Hv). destruct (S1 _ _ Hy) as (x & Hx & _ & _ & Hk).
    rewrite Hk in Hv. apply trimmed_operands in Hv.
    apply (same_skel_is_Some _ _ _ (tt_skel _ _ _ _ _ T)) in Hg.
    eapply (local_not_global _ _ _ _ _ Hok); [|exact Hg].
    eapply (ta_local _ _ _ Ht u). by exists x.
  - intros v y Hy Hi. destruct (S1 _ _ Hy) as (x & Hx & _ & _ & Hk). rewrite Hk, inst_trimmed in Hi.
    destruct (ta_all _ _ _ Ht _ _ Hx Hi) as (b & is & Hb & Hv). exists b.
    exists (filter (alive (vals d')) is). rewrite (proj1 (tt_listed _ _ _ _ _ T)). split.
    + apply elem_of_list_fmap. by exists (b, is).
    + apply elem_of_list_filter. split; [by exists y|done].
  - intros u y v y' Hy Hv Hy' Hi. destruct (S1 _ _ Hy) as (x & Hx & _ & _ & Hk).
    destruct (S1 _ _ Hy') as (x' & Hx' & _ & _ & Hk').
    rewrite Hk in Hv |- *. rewrite Hk' in Hi. rewrite inst_trimmed in Hi |- *.
    apply trimmed_operands in Hv. by eapply (ta_inst _ _ _ Ht).
  - intros v y Hy Hi. destruct (S1 _ _ Hy) as (x & Hx & Hty & _ & Hk).
    rewrite Hk, inst_trimmed in Hi. rewrite Hk, Hty, effectful_trimmed. by apply (ta_value _ _ _ Ht v).
  - intros b bd' Hb'. destruct (shrunk_params_inv _ _ _ _ _ _ S Hb') as (bd & Hb & _ & ->).
    apply list.NoDup_filter. by eapply (ta_once _ _ _ Ht).
  - intros b bd' c cd' p Hb' Hc' Hp Hp'.
    destruct (shrunk_params_inv _ _ _ _ _ _ S Hb') as (bd & Hb & _ & E1).
    destruct (shrunk_params_inv _ _ _ _ _ _ S Hc') as (cd & Hc & _ & E2).
    rewrite E1 in Hp. rewrite E2 in Hp'.
    apply elem_of_list_filter in Hp as [_ Hp]. apply elem_of_list_filter in Hp' as [_ Hp'].
    by eapply (ta_apart _ _ _ Ht b bd c cd).
Qed.
Lemma trimmed_closed vs bs vs' bs' live u : shrunk vs bs vs' bs' →
  closed_at vs live u → closed_at vs' live u.
Proof.
  intros [S _] Hc y v y' Hy Hv Hy' Hi. destruct (S _ _ Hy) as (x & Hx & _ & _ & Hk).
  destruct (S _ _ Hy') as (x' & Hx' & _ & _ & Hk').
  rewrite Hk in Hv. apply trimmed_operands in Hv. rewrite Hk', inst_trimmed in Hi. by eapply Hc.
Qed.

Lemma round_total E o live gs d : fair o → graph_ok E gs (vals d) (blks d) →
  shape_ok (vals d) (blks d) (f_layout d) → tame (vals d) (blks d) (f_layout d) →
  (∀ u, u ∈ live → closed_at (vals d) live u) →
  ∃ c live' gs' d', dce_round o live gs d = Dok (c, live', gs', d') ∧
    ∀ u, u ∈ live' → closed_at (vals d') live' u.
Proof.
  intros F Hok Hsh Ht Hc. unfold dce_round.
  destruct (dce_mark_total o (vals d) live F (ta_local _ _ _ Ht)) as [live1 Hm].
  rewrite Hm. cbn [dthen].
  destruct (dce_mark_ok _ _ _ _ F Hm) as (_ & _ & Hlive & _ & Hc1). specialize (Hc1 Hc).
  destruct (dce_sweep_total E live1 gs d Hok Hsh Ht Hc1 Hlive) as [[[c1 gs1] d1] Hs].
  rewrite Hs. cbn [dopt dthen fst snd].
  destruct (sweep_trims _ _ _ _ _ _ _ Hok Hsh Hlive Hs) as (T1 & _).
  destruct (opt_total E o gs1 d1 F (tt_graph _ _ _ _ _ T1) (tt_shape _ _ _ _ _ T1)
    (trimmed_tame _ _ _ _ _ Hok Ht T1)) as [[[c2 gs2] d2] Ho].
  rewrite Ho. cbn [dopt dthen fst snd].
  destruct (opt_trims _ _ _ _ _ _ _ F (tt_graph _ _ _ _ _ T1) (tt_shape _ _ _ _ _ T1) Ho) as (T2 & _).
  eexists _, _, _, _. split; [done|]. intros u Hu.
  eapply trimmed_closed; [apply T2|]. eapply trimmed_closed; [apply T1|]. by apply Hc1.
Qed.

Lemma rounds_total E o n : fair o → ∀ live gs d, graph_ok E gs (vals d) (blks d) →
  shape_ok (vals d) (blks d) (f_layout d) → tame (vals d) (blks d) (f_layout d) →
  (∀ u, u ∈ live → closed_at (vals d) live u) → base.size (vals d) < n →
  ∃ r, dce_rounds n o live gs d = Dok r.
Proof.
  intros F. induction n as [|n IH]; intros live gs d Hok Hsh Ht Hc Hn; [lia|]. cbn [dce_rounds].
  destruct (round_total E o live gs d F Hok Hsh Ht Hc) as (c & live1 & gs1 & d1 & Hr & Hc1).
  rewrite Hr. cbn [dthen fst snd].
  destruct (round_trims _ _ _ _ _ _ _ _ _ F Hok Hsh Hr) as [T1 Hch]. destruct c; [|by eauto].
  destruct (Hch eq_refl) as (v & H1 & H2).
  apply IH; [apply T1|apply T1|by eapply trimmed_tame|done|].
  pose proof (fewer _ _ v (λ x, shrunk_sub _ _ _ _ x (tt_shrunk _ _ _ _ _ T1)) H1 H2). lia.
Qed.

Lemma dce_run_on_total E o live gs d : fair o → graph_ok E gs (vals d) (blks d) →
  shape_ok (vals d) (blks d) (f_layout d) → tame (vals d) (blks d) (f_layout d) →
  foreign live (vals d) → ∃ r, dce_run_on o live gs d = Dok r.
Proof.
  intros F Hok Hsh Ht Hf. eapply rounds_total; [done..| |lia].
  intros u Hu x v x' Hx. rewrite (Hf u Hu) in Hx. done.
Qed.
