(** Proofs about the driver: termination, errors are never lost. *)
From Coq Require Import Lia ZifyBool ZifyNat ZifyN.
From Verif Require Import Base IdModel TypeModel IrModel WorldModel LexerModel LexerProofs
  LexerRunProofs ParserModel ParserSpec ParserProofs FrontModel DriverModel DriverSpec FrontProofs.

Lemma set_perrs_id s : set_perrs (perrs s) s = s.
Proof. by destruct s as [[] ?]. Qed.
Lemma set_errs_id b : set_errs (b_errs b) b = b.
Proof. by destruct b. Qed.
Lemma mu_set_perrs e s : mu (set_perrs e s) = mu s.
Proof. done. Qed.
Lemma inv_set_perrs e s : inv (p_lex s) → inv (p_lex (set_perrs e s)).
Proof. done. Qed.

Lemma drive_fuel fuel : ∀ s b, inv (p_lex s) → mu s < fuel →
  (drive fuel s b).1.1 ≠ Rfuel ∧ (perrs s ≤ (drive fuel s b).1.2)%N.
Proof.
  induction fuel as [|fuel IH]; intros s b Hi Hf; [lia|]. simpl.
  destruct (fine_parse_next s Hi) as [Fi Hlt].
  destruct (parse_next s) as [[t|f| |] s1] eqn:Hp; destruct Fi as [F1 F2 F3 F4 F5 _ _ _]; simpl in *; try done.
  assert (G : t ≠ TEnd →
    let r := match build_on t (set_errs (perrs s1) b) with
    | (Rok _, b1) => if (max_err_num <? b_errs b1)%N then (Rerr false, (b_errs b1 + 1)%N, b1)
        else drive fuel (set_perrs (b_errs b1) s1) b1
    | (Rerr x, b1) => (Rerr x, b_errs b1, b1)
    | (Rpanic, b1) => (Rpanic, b_errs b1, b1)
    | (Rfuel, b1) => (Rfuel, b_errs b1, b1)
    end in r.1.1 ≠ Rfuel ∧ (perrs s ≤ r.1.2)%N).
  { intros Hne. pose proof (sane_build_on t (set_errs (perrs s1) b)) as [S1 S2 S3].
    destruct (build_on t (set_errs (perrs s1) b)) as [[[]|f| |] b1]; simpl in *; try done.
    - destruct (max_err_num <? b_errs b1)%N; simpl; [split; [done|lia]|].
      destruct (IH (set_perrs (b_errs b1) s1) b1) as [I1 I2]; [done| |].
      { rewrite mu_set_perrs. specialize (Hlt _ _ eq_refl Hne). lia. }
      split; [done|]. simpl in I2. lia.
    - by destruct (S3 f eq_refl).
    - split; [done|lia]. }
  destruct t; try by apply G.
  destruct (perrs s1 =? 0)%N; simpl; done.
Qed.

Lemma parser_new_spec r e d l : parser_new (lex_new r e) = (d, l) →
  d ≠ Rfuel ∧ d ≠ Rpanic ∧ (∀ s, d = Rok s → l = p_lex s ∧ inv (p_lex s) ∧ perrs s = e) ∧
  (∀ f, d = Rerr f → (e < errs l)%N).
Proof.
  unfold parser_new, p_next. cbn [p_lex p_cur].
  pose proof (lex_new_inv r e) as Hi.
  destruct (lex_next_token (lex_new r e)) as [r' l'] eqn:H.
  apply lex_next_token_spec in H as (Hp & Hs & Hn & Ht); [|done].
  destruct Ht as [(gap & l1 & _ & Hm & He & k' & c' & t & -> & Hm' & He' & _)|
      [(_ & -> & _ & _ & He)|(cs & f & -> & _ & He & Hf)]]; intros [= <- <-];
    split_and!; try done; try (intros ? [= <-]); simpl.
  - split_and!; [done|apply Hp|]. rewrite He', He. done.
  - split_and!; [done|apply Hp|]. rewrite He. done.
  - simpl in He. lia.
Qed.

Lemma driver_spec r d e0 : driver_new r = (d, e0) →
  d ≠ Rfuel ∧ d ≠ Rpanic ∧ (∀ s, d = Rok s → inv (p_lex s) ∧ perrs s = 0%N ∧ e0 = 0%N) ∧
  (∀ f, d = Rerr f → (0 < e0)%N).
Proof.
  unfold driver_new. destruct (parser_new (lex_new r 0)) as [p l] eqn:H. intros [= <- <-].
  apply parser_new_spec in H as (H1 & H2 & H3 & H4). split_and!; [done|done| |done].
  intros s Hs. destruct (H3 s Hs) as (-> & ? & He). done.
Qed.

Lemma generate_terminates r d e0 i e w : driver_new r = (d, e0) →
  (generate i d e w).1.1 ≠ Rfuel ∧ (e ≤ (generate i d e w).1.2)%N.
Proof.
  intros H. apply driver_spec in H as (H1 & H2 & H3 & _). unfold generate.
  destruct d as [s|f| |]; simpl; try done. destruct (H3 s eq_refl) as (Hi & _).
  apply (drive_fuel (p_fuel s) (set_perrs e s)); [done|]. rewrite mu_set_perrs. apply p_fuel_mu.
Qed.

(** ** Successful runs *)
Lemma drive_ok fuel : ∀ s b p n b', drive fuel s b = (Rok p, n, b') → inv (p_lex s) →
  b_errs b = perrs s →
  n = 0%N ∧ perrs s = 0%N ∧ ∃ ts s', parses s ts s' ∧ perrs s' = 0%N ∧ builds b ts b' ∧
    b_errs b' = 0%N ∧ p = w_prog (b_world b').
Proof.
  induction fuel as [|fuel IH]; intros s b p n b' H Hi Hb; [done|]. simpl in H.
  destruct (fine_parse_next s Hi) as [Fi _].
  destruct (parse_next s) as [[t|f| |] s1] eqn:Hp; try done; destruct Fi as [_ _ F3 F4 F5 _ _ _]; simpl in *.
  assert (G : t ≠ TEnd →
    match build_on t (set_errs (perrs s1) b) with
    | (Rok _, b1) => if (max_err_num <? b_errs b1)%N then (Rerr false, (b_errs b1 + 1)%N, b1)
        else drive fuel (set_perrs (b_errs b1) s1) b1
    | (Rerr x, b1) => (Rerr x, b_errs b1, b1)
    | (Rpanic, b1) => (Rpanic, b_errs b1, b1)
    | (Rfuel, b1) => (Rfuel, b_errs b1, b1)
    end = (Rok p, n, b') →
    n = 0%N ∧ perrs s = 0%N ∧ ∃ ts s', parses s ts s' ∧ perrs s' = 0%N ∧ builds b ts b' ∧
      b_errs b' = 0%N ∧ p = w_prog (b_world b')).
  { clear H. intros Hne H. pose proof (sane_build_on t (set_errs (perrs s1) b)) as [S1 S2 S3].
    destruct (build_on t (set_errs (perrs s1) b)) as [[[]|f| |] b1] eqn:Hbu; simpl in *; try done.
    destruct (max_err_num <? b_errs b1)%N; [done|].
    destruct (IH _ _ _ _ _ H F3 eq_refl) as (-> & H0 & ts & s' & I1 & I2 & I3 & I4 & ->).
    simpl in H0. assert (perrs s1 = 0%N) as H1 by lia. assert (perrs s = 0%N) as H2 by lia.
    split_and!; [done|done|]. exists (t :: ts), s'. split_and!; [|done| |done|done].
    - econstructor; [done|done|]. rewrite H0, <- H1, set_perrs_id in I1. done.
    - econstructor; [|by rewrite H0, Hb, H2|exact I3].
      replace (perrs s1) with (b_errs b) in Hbu by lia. by rewrite set_errs_id in Hbu. }
  destruct t; try (by apply G). destruct (perrs s1 =? 0)%N eqn:E; [|done]. injection H as <- <- <-.
  assert (perrs s = 0%N) as H0 by lia. assert (perrs s1 = 0%N) as H1 by lia.
  split_and!; [done|done|]. exists [], s1. split_and!; [by constructor|done|constructor|lia|done].
Qed.

Lemma generate_ok r d e0 i e w p n b : driver_new r = (d, e0) → generate i d e w = (Rok p, n, b) →
  e = 0%N ∧ n = 0%N ∧ ∃ s ts s', d = Rok s ∧ parses s ts s' ∧ perrs s' = 0%N ∧
    Forall top_shape ts ∧ Forall no_err_top ts ∧
    builds (bstate0 i 0 w) ts b ∧ b_errs b = 0%N ∧ p = w_prog (b_world b).
Proof.
  intros Hd Hg. apply driver_spec in Hd as (H1 & H2 & H3 & _). unfold generate in Hg.
  destruct d as [s|f| |]; try done. destruct (H3 s eq_refl) as (Hi & H0 & _).
  apply drive_ok in Hg as (-> & He & ts & s' & P1 & P2 & P3 & P4 & ->); [|done|done].
  simpl in He. subst e. split_and!; [done|done|]. rewrite <- H0, set_perrs_id in P1.
  pose proof (parses_facts _ _ _ P1 Hi) as (_ & _ & T1 & T2).
  exists s, ts, s'. split_and!; try done.
  destruct (decide (Forall no_err_top ts)) as [|Hn]; [done|]. specialize (T2 Hn). lia.
Qed.

Lemma drive_accepts s ts s' : parses s ts s' → ∀ fuel b b', inv (p_lex s) → mu s < fuel →
  perrs s' = 0%N → builds b ts b' → b_errs b = 0%N →
  drive fuel s b = (Rok (w_prog (b_world b')), 0%N, b').
Proof.
  induction 1 as [s s' Hp|s t s1 ts s' Hp Hne Hps IH]; intros fuel b b' Hi Hf H0 Hb He;
    (destruct fuel as [|fuel]; [lia|]); simpl; rewrite Hp.
  - inversion Hb; subst. by rewrite H0.
  - inversion Hb as [|? ? b1 ? ? Hb1 Hb2 Hb3]; subst.
    destruct (fine_parse_next s Hi) as [Fi Hlt]. rewrite Hp in Fi. destruct Fi as [_ _ F3 _ F5 _ _ _]; simpl in *.
    destruct (parses_facts _ _ _ Hps F3) as (_ & Hle & _).
    assert (perrs s1 = 0%N) as H1 by lia. rewrite H1, <- He, set_errs_id, Hb1, Hb2, He.
    replace (set_perrs 0 s1) with s1 by (rewrite <- H1; by rewrite set_perrs_id).
    specialize (Hlt _ _ Hp Hne).
    assert (Hd : drive fuel s1 b1 = (Rok (w_prog (b_world b')), 0%N, b')).
    { apply IH; [done|lia|done|done|by rewrite Hb2]. }
    simpl. rewrite Hd. by destruct t.
Qed.
Lemma generate_accepts r s i w ts s' b : driver_new r = (Rok s, 0%N) → parses s ts s' →
  perrs s' = 0%N → builds (bstate0 i 0 w) ts b →
  generate i (Rok s) 0 w = (Rok (w_prog (b_world b)), 0%N, b).
Proof.
  intros Hd Hp H0 Hb. apply driver_spec in Hd as (_ & _ & H3 & _).
  destruct (H3 s eq_refl) as (Hi & Hs & _). unfold generate. rewrite <- Hs at 1. rewrite set_perrs_id.
  eapply drive_accepts; [done|done|apply p_fuel_mu|done|done|done].
Qed.
