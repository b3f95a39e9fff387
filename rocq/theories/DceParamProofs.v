(** [opt_bb_params] *)
From Verif Require Import Base IdModel TypeModel IrModel LayoutModel BuilderModel
  UsesSpec DfgSpec LayoutSpec UsesProofs DfgProofs LayoutProofs DceModel DceSpec DceGraphProofs
  DceSweepProofs.
From Coq Require Import Lia.

(** ** Dropping the arguments of dropped parameters *)

Fixpoint keepb {A} (f : value → bool) (ps : list value) (l : list A) : list A :=
  match ps, l with
  | p :: ps', x :: l' => if f p then x :: keepb f ps' l' else keepb f ps' l'
  | _, _ => l
  end.
Lemma still_keepb {A} m ps (l : list A) : still m ps l = keepb (λ p, bool_decide (alive m p)) ps l.
Proof.
  revert l. induction ps as [|p ps IH]; intros [|x l]; simpl; try done.
  rewrite IH. case_bool_decide; by case_decide.
Qed.
Lemma keepb_ext {A} f g ps (l : list A) : (∀ p, p ∈ ps → f p = g p) → keepb f ps l = keepb g ps l.
Proof.
  revert l. induction ps as [|p ps IH]; intros [|x l] H; simpl; try done.
  rewrite (H p) by (by left). rewrite IH; [done|]. intros q Hq. apply H. by right.
Qed.
Lemma keepb_all {A} f ps (l : list A) : (∀ p, p ∈ ps → f p = true) → keepb f ps l = l.
Proof.
  revert l. induction ps as [|p ps IH]; intros [|x l] H; simpl; try done.
  rewrite (H p) by (by left). rewrite IH; [done|]. intros q Hq. apply H. by right.
Qed.
Lemma keepb_self f ps : keepb f ps ps = filter (λ p, f p = true) ps.
Proof.
  induction ps as [|p ps IH]; simpl; [done|]. destruct (f p) eqn:E.
  - rewrite filter_cons_True by done. by rewrite IH.
  - rewrite filter_cons_False by congruence. done.
Qed.
Lemma keepb_sub {A} f ps (l : list A) x : x ∈ keepb f ps l → x ∈ l.
Proof.
  revert l. induction ps as [|p ps IH]; intros [|y l]; simpl; try done.
  destruct (f p); [|by right; auto]. intros [-> |H]%elem_of_cons; [by left|right; by auto].
Qed.

Definition hasb (m : list (nat * value)) (i : nat) : bool := existsb (λ q, Nat.eqb q.1 i) m.
Lemma hasb_true m i : hasb m i = true ↔ ∃ p, (i, p) ∈ m.
Proof.
  unfold hasb. rewrite existsb_exists. split.
  - intros ([j p] & H1 & H2). apply Nat.eqb_eq in H2. simpl in H2. subst.
    exists p. by apply elem_of_list_In.
  - intros [p H]. exists (i, p). split; [by apply elem_of_list_In|]. apply Nat.eqb_refl.
Qed.
Lemma retain_keepb {A} m f ps : ∀ i (l : list A),
  (∀ j, hasb m (i + j) = match ps !! j with Some p => negb (f p) | None => false end) →
  retain_args m i l = keepb f ps l.
Proof.
  induction ps as [|p ps IH]; intros i l H.
  - assert (retain_args m i l = l) as ->; [|by destruct l].
    revert i H. induction l as [|x l IHl]; intros i H; simpl; [done|].
    specialize (H 0) as H0. rewrite Nat.add_0_r in H0. unfold hasb in H0. simpl in H0.
    rewrite H0. f_equal. apply IHl. intros j. specialize (H (S j)). by rewrite Nat.add_succ_r in H.
  - destruct l as [|x l]; [done|]. simpl.
    specialize (H 0) as H0. rewrite Nat.add_0_r in H0. unfold hasb in H0. simpl in H0. rewrite H0.
    rewrite (IH (S i) l).
    { by destruct (f p). }
    intros j. specialize (H (S j)). by rewrite Nat.add_succ_r in H.
Qed.

(** ** The unused parameters *)

Definition usedb (vs : gmap N vdata) (p : value) : bool :=
  match vs !! p with Some d => negb (bool_decide (v_used_by d = ∅)) | None => true end.

Lemma unused_params_in vs ps : ∀ i m, unused_params vs i ps = Some m →
  (∀ j p, (j, p) ∈ m ↔ ∃ k, j = i + k ∧ ps !! k = Some p ∧ usedb vs p = false) ∧
  (∀ p, p ∈ ps → is_Some (vs !! p)).
Proof.
  induction ps as [|q ps IH]; intros i m H; cbn [unused_params] in H.
  - injection H as <-. split.
    + intros j p. split; [intros Hj; by apply elem_of_nil in Hj|]. intros (k & _ & Hk & _). by rewrite lookup_nil in Hk.
    + intros p Hp. by apply elem_of_nil in Hp.
  - apply bind_Some in H as (d & Hd & H). apply bind_Some in H as (r & Hr & H). injection H as <-.
    destruct (IH _ _ Hr) as [I1 I2]. split.
    2:{ intros p [-> |Hp]%elem_of_cons; [by eauto|by auto]. }
    intros j p. assert (usedb vs q = negb (bool_decide (v_used_by d = ∅))) as Hu.
    { unfold usedb. by rewrite Hd. }
    destruct (bool_decide (v_used_by d = ∅)).
    + rewrite elem_of_cons, I1. split.
      * intros [[= -> ->]|(k & -> & H1 & H2)]; [exists 0; split; [lia|done]|exists (S k); split; [lia|done]].
      * intros ([|k] & -> & H1 & H2); simpl in H1; [left; simplify_eq; f_equal; lia|].
        right. exists k. split; [lia|done].
    + rewrite I1. split.
      * intros (k & -> & H1 & H2); exists (S k); split; [lia|done].
      * intros ([|k] & -> & H1 & H2); simpl in H1; [simplify_eq; simpl in Hu; congruence|].
        exists k. split; [lia|done].
Qed.
Lemma unused_params_hasb vs ps m : unused_params vs 0 ps = Some m → ∀ j,
  hasb m j = match ps !! j with Some p => negb (usedb vs p) | None => false end.
Proof.
  intros H j. apply eq_true_iff_eq. rewrite hasb_true.
  destruct (unused_params_in _ _ _ _ H) as [H1 _]. split.
  - intros [p (k & -> & Hk & Hu)%H1]. simpl. rewrite Hk, Hu. done.
  - destruct (ps !! j) as [p|] eqn:Hp; [|done]. intros Hu. apply negb_true_iff in Hu.
    exists p. apply H1. by exists j.
Qed.
Lemma retain_unused {A} vs ps m (l : list A) : unused_params vs 0 ps = Some m →
  retain_args m 0 l = keepb (usedb vs) ps l.
Proof. intros H. apply retain_keepb. by apply unused_params_hasb. Qed.

Lemma todo_params_in g order : ∀ todo, todo_params g order = Some todo →
  (∀ b m, (b, m) ∈ todo ↔ b ∈ order ∧ m ≠ [] ∧ ∃ bd, d_bbs g !! b = Some bd ∧
     unused_params (d_values g) 0 (bb_params bd) = Some m) ∧
  (∀ b bd, b ∈ order → d_bbs g !! b = Some bd →
     ∃ m, unused_params (d_values g) 0 (bb_params bd) = Some m) ∧
  (NoDup order → NoDup (todo.*1)) ∧ (∀ b m, (b, m) ∈ todo → b ∈ order).
Proof.
  induction order as [|c order IH]; intros todo H; cbn [todo_params] in H.
  - injection H as <-. split; [|split; [|split]].
    + intros b m. split; [intros Hb; by apply elem_of_nil in Hb|]. intros [Hb _]. by apply elem_of_nil in Hb.
    + intros b bd Hb. by apply elem_of_nil in Hb.
    + intros _. by constructor.
    + intros b m Hb. by apply elem_of_nil in Hb.
  - apply bind_Some in H as (bd & Hb & H). apply bind_Some in H as (m & Hm & H).
    apply bind_Some in H as (r & Hr & H). injection H as <-.
    destruct (IH _ Hr) as (I1 & I2 & I3 & I4).
    assert (Hin : ∀ b m0, (b, m0) ∈ (if Nat.eqb (length m) 0 then r else (c, m) :: r) ↔
      b ∈ c :: order ∧ m0 ≠ [] ∧ ∃ bd, d_bbs g !! b = Some bd ∧
        unused_params (d_values g) 0 (bb_params bd) = Some m0).
    { intros b m0. destruct m as [|q m]; simpl.
      - rewrite I1, elem_of_cons. split; [naive_solver|].
        intros ([-> |Hc] & H1 & bd' & H2 & H3); [simplify_eq|naive_solver].
      - rewrite elem_of_cons, I1, elem_of_cons. split.
        + intros [[= -> ->]|?]; [|naive_solver]. split; [by left|]. split; [done|]. by eauto.
        + intros ([-> |Hc] & H1 & bd' & H2 & H3); [left; simplify_eq; congruence|naive_solver]. }
    split; [done|]. split; [|split].
    + intros b bd' [-> |Hc]%elem_of_cons Hb'; [simplify_eq; by eauto|by eauto].
    + intros [Hc Hn]%list.NoDup_cons. destruct (Nat.eqb (length m) 0); [by auto|].
      simpl. apply list.NoDup_cons. split; [|by auto].
      intros ([b m0] & -> & Hbm)%elem_of_list_fmap. simpl in Hc. by apply I4 in Hbm.
    + intros b m0 Hbm. by apply Hin in Hbm as [? _].
Qed.

(** ** Removing the parameters *)

Lemma graph_ok_params E gs vs bs b bd ps : graph_ok E gs vs bs → bs !! b = Some bd →
  graph_ok E gs vs (<[b := BBData (bb_name bd) ps (bb_used_by bd)]> bs).
Proof.
  intros [H1 H2 H3 H4 H5 H6 H7 H8] Hb. constructor; try done.
  - intros c d. destruct (decide (c = b)) as [->|Hc].
    + rewrite lookup_insert. intros [= <-]. simpl. by apply H3.
    + rewrite lookup_insert_ne by done. apply H3.
  - intros u c Hu. destruct (decide (c = b)) as [->|Hc].
    + rewrite lookup_insert. by eauto.
    + rewrite lookup_insert_ne by done. by eauto.
Qed.

Lemma elem_of_snd (m : list (nat * value)) p : p ∈ map snd m ↔ ∃ i, (i, p) ∈ m.
Proof.
  rewrite elem_of_list_fmap. split; [intros ([i q] & -> & H); by exists i|].
  intros [i H]. by exists (i, p).
Qed.

Lemma remove_unused_ok E o todo : fair o → ∀ gs g gs' g',
  graph_ok E gs (d_values g) (d_bbs g) → NoDup (todo.*1) →
  remove_unused o todo gs g = Some (gs', g') →
  graph_ok E gs' (d_values g') (d_bbs g') ∧
  (∀ b m i p, (b, m) ∈ todo → (i, p) ∈ m → is_Some (d_values g !! p) ∧ d_values g' !! p = None) ∧
  (∀ p, (∀ b m i, (b, m) ∈ todo → (i, p) ∉ m) → vsk (d_values g') p = vsk (d_values g) p) ∧
  (∀ b m, (b, m) ∈ todo → bsk <$> d_bbs g' !! b =
    (λ d, (bb_name d, retain_args m 0 (bb_params d))) <$> d_bbs g !! b) ∧
  (∀ b, b ∉ todo.*1 → bsk <$> d_bbs g' !! b = bsk <$> d_bbs g !! b) ∧ same_skel gs gs'.
Proof.
  intros F. induction todo as [|[b m] todo IH]; intros gs g gs' g' Hok Hn H; cbn [remove_unused] in H.
  - injection H as <- <-. split; [done|].
    split; [intros b m i p Hb; by apply elem_of_nil in Hb|]. split; [done|].
    split; [intros b m Hb; by apply elem_of_nil in Hb|]. done.
  - apply bind_Some in H as (bd & Hb & H). apply bind_Some in H as ([gs1 g1] & H1 & H).
    simpl in Hn. apply list.NoDup_cons in Hn as [Hn1 Hn2].
    apply remove_values_ok with (E := E) in H1 as (Hok1 & [C1 C2 C3 C4] & _ & Hex).
    2:{ by apply graph_ok_params. }
    cbn [d_values d_bbs] in *.
    destruct (IH _ _ _ _ Hok1 Hn2 H) as (Hok2 & I1 & I2 & I3 & I4 & I5).
    assert (Hm : ∀ i p, (i, p) ∈ m → p ∈ map snd (o_unused o m)).
    { intros i p Hp. apply elem_of_snd. exists i. by rewrite (fo_unused _ F). }
    assert (Hm' : ∀ p, p ∈ map snd (o_unused o m) → ∃ i, (i, p) ∈ m).
    { intros p Hp. apply elem_of_snd in Hp as [i Hp]. exists i. by rewrite (fo_unused _ F) in Hp. }
    split; [done|]. split; [|split; [|split; [|split]]].
    + intros c m0 i p [[= -> ->]|Hc]%elem_of_cons Hp.
      * specialize (Hm _ _ Hp). split; [by auto|].
        specialize (C1 _ Hm). destruct (d_values g' !! p) eqn:Ep; [|done]. exfalso.
        specialize (I2 p). rewrite Ep, C1 in I2. discriminate I2.
        intros c m1 j Hc Hj. destruct (I1 _ _ _ _ Hc Hj) as [_ J]. congruence.
      * destruct (I1 _ _ _ _ Hc Hp) as [J1 J2]. split; [|done].
        destruct (decide (p ∈ map snd (o_unused o m))) as [?|Hno]; [by auto|].
        by apply (vsk_alive _ _ _ (C2 _ Hno)).
    + intros p Hp. rewrite I2.
      * apply C2. intros [i Hi]%Hm'. apply (Hp b m i); [by left|done].
      * intros c m0 i Hc. apply (Hp c m0 i). by right.
    + intros c m0 [[= -> ->]|Hc]%elem_of_cons.
      * rewrite I4 by done. rewrite C3, lookup_insert, Hb. done.
      * rewrite (I3 _ _ Hc). assert (c ≠ b) as Hcb.
        { intros ->. apply Hn1. apply elem_of_list_fmap. by exists (b, m0). }
        specialize (C3 c). rewrite lookup_insert_ne in C3 by done.
        destruct (d_bbs g1 !! c), (d_bbs g !! c); try done. simpl in C3.
        unfold bsk in C3. simpl. injection C3 as -> ->. done.
    + intros c. simpl. intros [Hc1 Hc2]%not_elem_of_cons.
      rewrite I4, C3, lookup_insert_ne by done. done.
    + by eapply same_skel_trans.
Qed.

(** ** Updating the jumps *)

Definition trim1 (b : bblock) (m : list (nat * value)) (k : vkind) : vkind :=
  match k with
  | KBranch c t f ta fa =>
      KBranch c t f (if (t =? b)%N then retain_args m 0 ta else ta)
                    (if (f =? b)%N then retain_args m 0 fa else fa)
  | KJump t args => KJump t (if (t =? b)%N then retain_args m 0 args else args)
  | _ => k
  end.
Definition apart (vs : gmap N vdata) : Prop :=
  ∀ v d c t ta fa, vs !! v = Some d → v_kind d = KBranch c t t ta fa → ta = [] ∧ fa = [].
Definition rekind (h : vkind → vkind) (d : vdata) : vdata := VData (v_ty d) (v_name d) (h (v_kind d)) ∅.

Lemma retain_sub {A} m i (l : list A) x : x ∈ retain_args m i l → x ∈ l.
Proof.
  revert i. induction l as [|y l IH]; intros i; simpl; [done|].
  destruct (existsb _ m); [by right; eauto|]. intros [-> |H]%elem_of_cons; [by left|right; by eauto].
Qed.

Lemma trim_inst_some b m k : b ∈ targets k → (∀ c t ta fa, k = KBranch c t t ta fa → ta = [] ∧ fa = []) →
  ∃ kept, trim_inst b m k = Some (trim1 b m k, kept) ∧ ∀ v, v ∈ kept → v ∈ operands (trim1 b m k).
Proof.
  intros Hb Ha. destruct k as [| | | | | | | | | | | | |c t f ta fa|t args| |]; simpl in Hb;
    try (by apply elem_of_nil in Hb).
  - simpl. destruct (N.eqb_spec t b) as [->|Htb].
    + destruct (N.eqb_spec f b) as [->|Hfb].
      * destruct (Ha _ _ _ _ eq_refl) as [-> ->]. exists []. split; [done|].
        intros v Hv. by apply elem_of_nil in Hv.
      * eexists. split; [done|]. intros v Hv. right. apply elem_of_app. by left.
    + apply elem_of_cons in Hb as [?|Hb]; [congruence|]. apply elem_of_list_singleton in Hb as ->.
      rewrite N.eqb_refl. eexists. split; [done|]. intros v Hv. right. apply elem_of_app. by right.
  - apply elem_of_list_singleton in Hb as ->. simpl. rewrite N.eqb_refl. eexists. split; [done|]. done.
Qed.
Lemma trim1_id b m k : b ∉ targets k → trim1 b m k = k.
Proof.
  destruct k as [| | | | | | | | | | | | |c t f ta fa|t args| |]; simpl; try done.
  - intros [H1 H2]%not_elem_of_cons. apply not_elem_of_cons in H2 as [H2 _].
    rewrite (proj2 (N.eqb_neq t b)) by congruence.
    by rewrite (proj2 (N.eqb_neq f b)) by congruence.
  - intros [H1 _]%not_elem_of_cons. by rewrite (proj2 (N.eqb_neq t b)) by congruence.
Qed.
Lemma trim1_targets b m k : targets (trim1 b m k) = targets k.
Proof. by destruct k. Qed.
Lemma trim1_operands b m k v : v ∈ operands (trim1 b m k) → v ∈ operands k.
Proof.
  destruct k as [| | | | | | | | | | | | |c t f ta fa|t args| |]; simpl; try done.
  - rewrite !elem_of_cons, !elem_of_app.
    intros [?|[H|H]]; [by left|right; left|right; right].
    + destruct (t =? b)%N; [by eapply retain_sub|done].
    + destruct (f =? b)%N; [by eapply retain_sub|done].
  - destruct (t =? b)%N; [by apply retain_sub|done].
Qed.
Lemma trim1_apart b m k : (∀ c t ta fa, k = KBranch c t t ta fa → ta = [] ∧ fa = []) →
  ∀ c t ta fa, trim1 b m k = KBranch c t t ta fa → ta = [] ∧ fa = [].
Proof.
  intros Ha c t ta fa H. destruct k as [| | | | | | | | | | | | |c' t' f' ta' fa'|t' args| |]; try done.
  simpl in H. injection H as -> -> -> <- <-. destruct (Ha _ _ _ _ eq_refl) as [-> ->].
  by destruct (t =? b)%N.
Qed.

Lemma remove_if_unused_id E l gs g : graph_ok E gs (d_values g) (d_bbs g) →
  (∀ v, v ∈ l → ∃ u, uses (d_values g) u v) →
  remove_if_unused l gs g = if forallb (λ v, bool_decide (is_Some (d_values g !! v))) l
                            then Some (gs, g) else None.
Proof.
  intros Hok. induction l as [|v l IH]; intros Hu; cbn [remove_if_unused forallb]; [done|].
  destruct (d_values g !! v) as [d|] eqn:Hd; cbn [mbind option_bind].
  - rewrite (bool_decide_eq_true_2 (is_Some (Some d))) by (by eauto). rewrite bool_decide_eq_false_2.
    + simpl. apply IH. intros x Hx. apply Hu. by right.
    + intros He. destruct (Hu v) as [u Huv]; [by left|].
      apply (go_loc _ _ _ _ Hok _ _ Hd) in Huv. rewrite He in Huv. set_solver.
  - by rewrite bool_decide_eq_false_2 by (by intros []).
Qed.

Lemma rekind_vsk (m m' : gmap N vdata) x h d : vsk m' x = rekind h <$> m !! x → m' !! x = Some d →
  ∃ d0, m !! x = Some d0 ∧ v_ty d = v_ty d0 ∧ v_name d = v_name d0 ∧ v_kind d = h (v_kind d0).
Proof.
  intros H Hd. rewrite Hd in H. destruct (m !! x) as [d0|]; [|done].
  exists d0. unfold clone_vdata, rekind in H. simpl in H. by injection H as -> -> ->.
Qed.

Lemma trim_users_ok E o b m : fair o → ∀ us gs g gs' g',
  graph_ok E gs (d_values g) (d_bbs g) → apart (d_values g) → NoDup us →
  (∀ u, u ∈ us → jumps_to (d_values g) u b) →
  trim_users o b m us gs g = Some (gs', g') →
  graph_ok E gs' (d_values g') (d_bbs g') ∧
  (∀ x, vsk (d_values g') x =
    rekind (if decide (x ∈ us) then trim1 b m else λ k, k) <$> d_values g !! x) ∧
  (∀ b, bsk <$> d_bbs g' !! b = bsk <$> d_bbs g !! b) ∧ same_skel gs gs'.
Proof.
  intros F. induction us as [|u us IH]; intros gs g gs' g' Hok Ha Hn Hj H; cbn [trim_users] in H.
  - injection H as <- <-. split; [done|]. split; [|done].
    intros x. rewrite decide_False by apply not_elem_of_nil. by destruct (d_values g !! x).
  - apply list.NoDup_cons in Hn as [Hn1 Hn2].
    apply bind_Some in H as (d & Hd & H). apply bind_Some in H as ([k kept] & Hk & H).
    apply bind_Some in H as ([gs1 g1] & H1 & H). apply bind_Some in H as ([gs2 g2] & H2 & H).
    assert (Htg : b ∈ targets (v_kind d)).
    { destruct (Hj u) as (d' & Hd' & Ht); [by left|]. simplify_eq. done. }
    destruct (trim_inst_some b m (v_kind d) Htg) as (kept' & Hk' & Hkept).
    { intros c t ta fa Hkb. by eapply Ha. }
    rewrite Hk' in Hk. injection Hk as <- <-.
    destruct (replace_graph _ _ _ _ _ _ _ Hok H1) as [Hok1 [(d0 & R0 & R1) R2 R3 R4]].
    simplify_eq. cbn [v_ty v_name v_kind] in R1.
    assert (gs2 = gs1 ∧ g2 = g1) as [-> ->].
    { rewrite (remove_if_unused_id E) in H2; [|done|].
      - destruct (forallb _ _); by simplify_eq.
      - intros v Hv. apply (fo_set _ F) in Hv. apply elem_of_list_to_set in Hv.
        exists u. eexists. split; [done|]. simpl. by apply Hkept. }
    apply IH in H as (Hok2 & I1 & I2 & I3); [|done|..|done|].
    + split; [done|]. split; [|split].
      * intros x. rewrite I1. destruct (decide (x = u)) as [->|Hx].
        { rewrite decide_False by done. rewrite decide_True by (by left).
          rewrite R1, Hd. done. }
        specialize (R2 x Hx).
        assert (∀ h, rekind h <$> d_values g1 !! x = rekind h <$> d_values g !! x) as ->.
        { intros h. destruct (d_values g1 !! x), (d_values g !! x); try done.
          simpl in R2. unfold clone_vdata in R2. simpl. unfold rekind. by injection R2 as -> -> ->. }
        destruct (decide (x ∈ us)) as [Hin|Hin].
        -- by rewrite decide_True by (by right).
        -- rewrite decide_False; [done|]. by intros [?|?]%elem_of_cons.
      * intros c. by rewrite I2.
      * by eapply same_skel_trans.
    + intros v d' c t ta fa Hd' Hkd. destruct (decide (v = u)) as [->|Hv].
      * simplify_eq. cbn [v_kind] in Hkd. eapply trim1_apart; [|exact Hkd].
        intros c0 t0 ta0 fa0 Hk0. by eapply Ha.
      * destruct (vsk_kind _ _ _ _ (R2 v Hv) Hd') as (d1 & Hd1 & _ & _ & Hk1).
        eapply Ha; [done|]. by rewrite <- Hk1.
    + intros x Hx. destruct (Hj x) as (d1 & Hd1 & Ht1); [by right|].
      assert (Hxu : x ≠ u) by (intros ->; done).
      specialize (R2 x Hxu). symmetry in R2.
      destruct (vsk_kind _ _ _ _ R2 Hd1) as (d2 & Hd2 & _ & _ & Hk2).
      exists d2. split; [done|]. by rewrite <- Hk2.
Qed.

Definition trims (todo : list (bblock * list (nat * value))) (k : vkind) : vkind :=
  foldl (λ k x, trim1 x.1 x.2 k) k todo.

Lemma rekind_apart (m m' : gmap N vdata) h :
  (∀ x, vsk m' x = rekind h <$> m !! x) →
  (∀ k, (∀ c t ta fa, k = KBranch c t t ta fa → ta = [] ∧ fa = []) →
     ∀ c t ta fa, h k = KBranch c t t ta fa → ta = [] ∧ fa = []) →
  apart m → apart m'.
Proof.
  intros H Hh Ha v d c t ta fa Hd Hk.
  destruct (rekind_vsk _ _ _ _ _ (H v) Hd) as (d0 & Hd0 & _ & _ & Hk0). rewrite Hk in Hk0.
  eapply Hh; [|by symmetry]. intros c0 t0 ta0 fa0 He. by eapply Ha.
Qed.

Lemma trim_all_ok E o todo : fair o → ∀ gs g gs' g',
  graph_ok E gs (d_values g) (d_bbs g) → apart (d_values g) →
  trim_all o todo gs g = Some (gs', g') →
  graph_ok E gs' (d_values g') (d_bbs g') ∧
  (∀ x, vsk (d_values g') x = rekind (trims todo) <$> d_values g !! x) ∧
  (∀ b, bsk <$> d_bbs g' !! b = bsk <$> d_bbs g !! b) ∧ same_skel gs gs' ∧ apart (d_values g').
Proof.
  intros F. induction todo as [|[b m] todo IH]; intros gs g gs' g' Hok Ha H; cbn [trim_all] in H.
  - injection H as <- <-. split; [done|]. split; [|done].
    intros x. by destruct (d_values g !! x).
  - apply bind_Some in H as (bd & Hb & H). apply bind_Some in H as ([gs1 g1] & H1 & H).
    apply trim_users_ok with (E := E) in H1 as (Hok1 & U1 & U2 & U3); [|done|done|done|..].
    2: by apply (fo_set _ F).
    2:{ intros u Hu. apply (fo_set _ F) in Hu. by apply (go_bb _ _ _ _ Hok _ _ Hb). }
    assert (U1' : ∀ x, vsk (d_values g1) x = rekind (trim1 b m) <$> d_values g !! x).
    { intros x. rewrite U1. destruct (decide _) as [Hin|Hin]; [done|].
      destruct (d_values g !! x) as [d|] eqn:Hd; [|done]. simpl. f_equal. unfold rekind. f_equal.
      symmetry. apply trim1_id. intros Ht. apply Hin. apply (fo_set _ F).
      apply (go_bb _ _ _ _ Hok _ _ Hb). by exists d. }
    apply IH in H as (Hok2 & I1 & I2 & I3 & I4); [|done|].
    + split; [done|]. split; [|split; [|split; [|done]]].
      * intros x. rewrite I1. specialize (U1' x).
        destruct (d_values g1 !! x), (d_values g !! x); try done.
        simpl in U1'. simpl. unfold clone_vdata, rekind in U1'. unfold rekind.
        injection U1' as -> -> ->. done.
      * intros c. by rewrite I2.
      * by eapply same_skel_trans.
    + eapply rekind_apart; [apply U1'|apply trim1_apart|done].
Qed.

Lemma trims_kind todo k : trims todo k = match k with
  | KBranch c t f ta fa =>
      KBranch c t f (foldl (λ l x, if (t =? x.1)%N then retain_args x.2 0 l else l) ta todo)
                    (foldl (λ l x, if (f =? x.1)%N then retain_args x.2 0 l else l) fa todo)
  | KJump t args => KJump t (foldl (λ l x, if (t =? x.1)%N then retain_args x.2 0 l else l) args todo)
  | _ => k
  end.
Proof.
  unfold trims. revert k. induction todo as [|[b m] todo IH]; intros k; simpl; [by destruct k|].
  rewrite IH. by destruct k.
Qed.
Lemma trims_args_not (t : bblock) todo (l : list value) : t ∉ todo.*1 →
  foldl (λ l x, if (t =? x.1)%N then retain_args x.2 0 l else l) l todo = l.
Proof.
  revert l. induction todo as [|[b m] todo IH]; intros l; simpl; [done|].
  intros [H1 H2]%not_elem_of_cons. rewrite (proj2 (N.eqb_neq t b)) by done. by apply IH.
Qed.
Lemma trims_args_in (t : bblock) m todo (l : list value) : NoDup (todo.*1) → (t, m) ∈ todo →
  foldl (λ l x, if (t =? x.1)%N then retain_args x.2 0 l else l) l todo = retain_args m 0 l.
Proof.
  revert l. induction todo as [|[b m'] todo IH]; intros l Hn Hin; simpl; [by apply elem_of_nil in Hin|].
  simpl in Hn. apply list.NoDup_cons in Hn as [H1 H2].
  apply elem_of_cons in Hin as [[= <- <-]|Hin].
  - rewrite N.eqb_refl. by apply trims_args_not.
  - rewrite (proj2 (N.eqb_neq t b)); [by apply IH|]. intros ->. apply H1.
    apply elem_of_list_fmap. by exists (b, m).
Qed.

(** ** All of it *)

Lemma filter_ext_in {A} (P Q : A → Prop) `{∀ x, Decision (P x), ∀ x, Decision (Q x)} (l : list A) :
  (∀ x, x ∈ l → P x ↔ Q x) → filter P l = filter Q l.
Proof.
  induction l as [|x l IH]; intros Hx; [done|].
  assert (IH' : filter P l = filter Q l) by (apply IH; intros y Hy; apply Hx; by right).
  destruct (decide (P x)) as [Hp|Hp].
  - rewrite !filter_cons_True; [by rewrite IH'|by apply Hx; [left|]|done].
  - rewrite !filter_cons_False; [done|by rewrite <- Hx by left|done].
Qed.
Lemma filter_all_in {A} (P : A → Prop) `{∀ x, Decision (P x)} (l : list A) :
  (∀ x, x ∈ l → P x) → filter P l = l.
Proof.
  induction l as [|x l IH]; intros Hx; [done|].
  rewrite filter_cons_True by (apply Hx; by left). f_equal. apply IH. intros y Hy. apply Hx. by right.
Qed.

(** The values that go: unused parameters of blocks. *)
Definition deadp (g : dfg) (p : value) : Prop :=
  ∃ b bd, d_bbs g !! b = Some bd ∧ p ∈ bb_params bd ∧ usedb (d_values g) p = false.

Lemma opt_bb_params_ok E o gs d c gs' d' : fair o → graph_ok E gs (vals d) (blks d) →
  apart (vals d) → opt_bb_params o gs d = Some (c, gs', d') →
  graph_ok E gs' (vals d') (blks d') ∧ shrunk (vals d) (blks d) (vals d') (blks d') ∧
  same_skel gs gs' ∧ apart (vals d') ∧
  (∀ x, deadp (f_dfg d) x → vals d' !! x = None) ∧
  (∀ x, is_Some (vals d !! x) → ¬ deadp (f_dfg d) x → is_Some (vals d' !! x)) ∧
  (c = true → ∃ x, deadp (f_dfg d) x) ∧ f_layout d' = f_layout d ∧
  f_ty d' = f_ty d ∧ f_name d' = f_name d ∧ f_params d' = f_params d.
Proof.
  intros F Hok Ha H. unfold opt_bb_params in H.
  apply bind_Some in H as (todo & Ht & H). apply bind_Some in H as ([gs1 g1] & H1 & H).
  apply bind_Some in H as ([gs2 g2] & H2 & H). injection H as <- <- <-.
  destruct (todo_params_in _ _ _ Ht) as (T1 & T2 & T3 & _).
  destruct (fo_bbs _ F (blks d)) as [Ob1 Ob2]. specialize (T3 Ob1).
  assert (Hn1 : NoDup ((o_todo1 o todo).*1)) by (by rewrite (fo_todo1 _ F)).
  assert (Hn2 : NoDup ((o_todo2 o todo).*1)) by (by rewrite (fo_todo2 _ F)).
  destruct (remove_unused_ok _ _ _ F _ _ _ _ Hok Hn1 H1) as (Hok1 & R1 & R2 & R3 & R4 & R5).
  assert (Hdead : ∀ p, deadp (f_dfg d) p ↔ ∃ b m i, (b, m) ∈ todo ∧ (i, p) ∈ m).
  { intros p. split.
    - intros (b & bd & Hb & Hp & Hu).
      destruct (T2 b bd) as [m Hm]; [apply Ob2; by eauto|done|].
      apply elem_of_list_lookup in Hp as [i Hp].
      assert ((i, p) ∈ m) as Hin.
      { apply (unused_params_in _ _ _ _ Hm). by exists i. }
      exists b, m, i. split; [|done]. apply T1. split; [apply Ob2; by eauto|].
      split; [intros ->; by apply elem_of_nil in Hin|]. by eauto.
    - intros (b & m & i & Hb & Hp). apply T1 in Hb as (_ & _ & bd & Hb & Hm).
      apply (unused_params_in _ _ _ _ Hm) in Hp as (k & _ & Hk & Hu).
      exists b, bd. split; [done|]. split; [|done]. by eapply elem_of_list_lookup_2. }
  assert (Hgone : ∀ x, deadp (f_dfg d) x → is_Some (vals d !! x) ∧ d_values g1 !! x = None).
  { intros x (b & m & i & Hb & Hp)%Hdead. eapply (R1 b m i); [by rewrite (fo_todo1 _ F)|done]. }
  assert (Hkeep : ∀ x, ¬ deadp (f_dfg d) x → vsk (d_values g1) x = vsk (vals d) x).
  { intros x Hx. apply R2. intros b m i Hb Hp. apply Hx, Hdead. exists b, m, i.
    by rewrite (fo_todo1 _ F) in Hb. }
  assert (Ha1 : apart (d_values g1)).
  { intros v d0 c t ta fa Hd0 Hk. assert (¬ deadp (f_dfg d) v) as Hnd.
    { intros Hd. apply Hgone in Hd as [_ Hd]. congruence. }
    destruct (vsk_kind _ _ _ _ (Hkeep v Hnd) Hd0) as (d1 & Hd1 & _ & _ & Hk1).
    eapply Ha; [done|]. by rewrite <- Hk1. }
  destruct (trim_all_ok _ _ _ F _ _ _ _ Hok1 Ha1 H2) as (Hok2 & A1 & A2 & A3 & A4).
  cbn [f_dfg set_dfg f_layout f_ty f_name f_params].
  assert (Halive : ∀ x, is_Some (d_values g2 !! x) ↔ is_Some (d_values g1 !! x)).
  { intros x. specialize (A1 x). by destruct (d_values g2 !! x), (d_values g1 !! x). }
  (* what is kept of the parameters of a block *)
  assert (Hpar : ∀ b bd p, blks d !! b = Some bd → p ∈ bb_params bd →
    usedb (vals d) p = bool_decide (alive (d_values g2) p)).
  { intros b bd p Hb Hp. unfold alive. destruct (usedb (vals d) p) eqn:Hu; symmetry.
    - apply bool_decide_eq_true_2, Halive.
      assert (¬ deadp (f_dfg d) p) as Hnd.
      { intros (? & ? & _ & _ & ?). congruence. }
      apply (vsk_alive _ _ _ (Hkeep _ Hnd)).
      destruct (T2 b bd) as [m Hm]; [apply Ob2; by eauto|done|].
      by eapply unused_params_in.
    - apply bool_decide_eq_false_2. rewrite Halive.
      destruct (Hgone p) as [_ Hg]; [by exists b, bd|]. rewrite Hg. by intros []. }
  assert (Hargs : ∀ t l, foldl (λ l x, if (t =? x.1)%N then retain_args x.2 0 l else l) l (o_todo2 o todo)
    = still_passed (d_values g2) (blks d) t l).
  { intros t l. unfold still_passed.
    destruct (decide (t ∈ (o_todo2 o todo).*1)) as [Hin|Hin].
    - apply elem_of_list_fmap in Hin as ([t' m] & -> & Hin). simpl.
      rewrite (trims_args_in t' m) by done. rewrite (fo_todo2 _ F) in Hin.
      apply T1 in Hin as (_ & _ & bd & Hb & Hm). rewrite Hb.
      rewrite still_keepb, (retain_unused _ _ _ _ Hm). apply keepb_ext. intros p Hp. by eapply Hpar.
    - rewrite trims_args_not by done. destruct (blks d !! t) as [bd|] eqn:Hb; [|done].
      rewrite still_keepb, keepb_all; [done|]. intros p Hp.
      rewrite <- (Hpar t bd p) by done. destruct (usedb (vals d) p) eqn:Hu; [done|]. exfalso.
      assert (deadp (f_dfg d) p) as Hd by (by exists t, bd).
      destruct (T2 t bd) as [m Hm]; [apply Ob2; by eauto|done|].
      apply elem_of_list_lookup in Hp as [i Hp].
      assert ((i, p) ∈ m) as Hin'.
      { apply (unused_params_in _ _ _ _ Hm). by exists i. }
      apply Hin. apply elem_of_list_fmap. exists (t, m). split; [done|]. rewrite (fo_todo2 _ F).
      apply T1. split; [apply Ob2; by eauto|]. split; [intros ->; by apply elem_of_nil in Hin'|].
      by eauto. }
  split; [done|]. split; [split|split; [|split; [done|split; [|split; [|split]]]]].
  - intros v x' Hx'. destruct (rekind_vsk _ _ _ _ _ (A1 v) Hx') as (d1 & Hd1 & E1 & E2 & E3).
    assert (¬ deadp (f_dfg d) v) as Hnd.
    { intros Hd. apply Hgone in Hd as [_ Hd]. congruence. }
    destruct (vsk_kind _ _ _ _ (Hkeep v Hnd) Hd1) as (d0 & Hd0 & D1 & D2 & D3).
    exists d0. split; [done|]. split; [congruence|]. split; [congruence|].
    rewrite E3, D3, trims_kind. destruct (v_kind d0); simpl; try done; by rewrite !Hargs.
  - intros b. specialize (A2 b). unfold bsk in A2. rewrite A2. clear A2.
    destruct (decide (b ∈ (o_todo1 o todo).*1)) as [Hin|Hin].
    + apply elem_of_list_fmap in Hin as ([b' m] & -> & Hin). simpl.
      specialize (R3 _ _ Hin). unfold bsk in R3. rewrite R3.
      rewrite (fo_todo1 _ F) in Hin. apply T1 in Hin as (_ & _ & bd & Hb & Hm). rewrite Hb. simpl.
      do 2 f_equal. rewrite (retain_unused _ _ _ _ Hm), keepb_self.
      apply filter_ext_in. intros p Hp.
      rewrite (Hpar b' bd p) by done. by rewrite bool_decide_eq_true.
    + specialize (R4 _ Hin). unfold bsk in R4. rewrite R4. destruct (blks d !! b) as [bd|] eqn:Hb; [|done]. simpl.
      do 2 f_equal. symmetry. apply filter_all_in. intros p Hp.
      apply (bool_decide_eq_true_1 (alive (d_values g2) p)). rewrite <- (Hpar b bd p) by done.
      destruct (usedb (vals d) p) eqn:Hu; [done|]. exfalso. apply Hin.
      destruct (T2 b bd) as [m Hm]; [apply Ob2; by eauto|done|].
      apply elem_of_list_lookup in Hp as [i Hp].
      assert ((i, p) ∈ m) as Hin'.
      { apply (unused_params_in _ _ _ _ Hm). by exists i. }
      apply elem_of_list_fmap. exists (b, m). split; [done|]. rewrite (fo_todo1 _ F).
      apply T1. split; [apply Ob2; by eauto|]. split; [intros ->; by apply elem_of_nil in Hin'|].
      by eauto.
  - by eapply same_skel_trans.
  - intros x Hx. apply Hgone in Hx as [_ Hx]. specialize (A1 x). rewrite Hx in A1.
    by destruct (d_values g2 !! x).
  - intros x Hx Hnd. apply Halive. by apply (vsk_alive _ _ _ (Hkeep _ Hnd)).
  - intros Hc. destruct todo as [|[b m] todo]; [done|].
    assert ((b, m) ∈ (b, m) :: todo) as Hin by (by left). apply T1 in Hin as Hin'.
    destruct Hin' as (_ & Hm & _). destruct m as [|[i p] m]; [done|].
    exists p. apply Hdead. exists b, ((i, p) :: m), i. split; [by left|by left].
  - done.
Qed.
