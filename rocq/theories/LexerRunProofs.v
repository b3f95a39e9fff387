(** Proofs about sequences of calls to the lexer. *)
From Coq Require Import Lia ZifyBool ZifyNat ZifyN.
From stdpp Require Import pretty.
From Verif Require Import Base IrModel TypeModel LexerModel TextModel LexerSpec LexerProofs LexerFwdProofs.

Ltac Zify.zify_post_hook ::= Z.div_mod_to_equations.

(** ** Single calls *)
Lemma lex_next_token_spec l r l' :
  lex_next_token l = (r, l') → inv l →
  progress0 l l' ∧ (last l ≠ None → progress l l') ∧ (last l = None → l' = l) ∧
  tok_result l r l'.
Proof. intros H Hi. eapply next_token_f_spec; [exact H|done|lia]. Qed.

Lemma tok_result_cases l r l' : tok_result l r l' → (∃ x, r = Rok x) ∨ (∃ f, r = Rerr f).
Proof.
  intros [(gap & l1 & _ & _ & _ & k & c & t & -> & _)|[(_ & -> & _)|(cs & f & -> & _)]]; eauto.
Qed.

Lemma lex_at_end l : inv l → last l = None →
  lex_next_token l = (Rok (Token (span_new (lpos l)) TkEnd), l).
Proof.
  intros Hi Hl. destruct l as [r q la n]; simpl in *. subst la.
  unfold inv in Hi; simpl in Hi. rewrite Hi by done. done.
Qed.

Lemma lex_run_inv n l rs l' : lex_run n l = (rs, l') → inv l → inv l' ∧ length rs = n.
Proof.
  revert l rs. induction n as [|n IH]; intros l rs H Hi; simpl in H; simplify_eq; [done|].
  destruct (lex_next_token l) as [r l1] eqn:H1. destruct (lex_run n l1) as [rs1 l2] eqn:H2.
  simplify_eq. apply lex_next_token_spec in H1 as (Hp & _); [|done].
  apply IH in H2 as [? <-]; [done|apply Hp].
Qed.

(** ** After [pend] calls the input is exhausted *)
Lemma lex_run_pend n l rs l' : lex_run n l = (rs, l') → inv l → pend l ≤ n → last l' = None.
Proof.
  revert l rs. induction n as [|n IH]; intros l rs H Hi Hn; simpl in H; simplify_eq.
  { unfold pend in Hn. destruct (last l'); [lia|done]. }
  destruct (lex_next_token l) as [r l1] eqn:H1. destruct (lex_run n l1) as [rs1 l2] eqn:H2.
  simplify_eq. apply lex_next_token_spec in H1 as (Hp & Hs & Heq & _); [|done].
  eapply IH; [done|apply Hp|]. destruct (last l) as [c|] eqn:Hl.
  - destruct (Hs ltac:(done)) as [? _ _ _]. lia.
  - rewrite (Heq eq_refl). unfold pend in *. rewrite Hl, (Hi Hl). simpl. lia.
Qed.

Lemma lex_run_ended n l : inv l → last l = None →
  lex_run n l = (replicate n (Rok (Token (span_new (lpos l)) TkEnd)), l).
Proof.
  intros Hi Hl. induction n as [|n IH]; [done|]. simpl. by rewrite lex_at_end, IH.
Qed.

(** ** Positions *)
Lemma adv_pos_gen cs q n k :
  line q = ((1 + n) mod two32)%N → col q = (k mod two32)%N →
  adv q cs = Pos ((1 + n + count_nl cs) mod two32) (after_nl cs k mod two32).
Proof.
  revert q n k. induction cs as [|c cs IH]; intros [li co] n k Hl Hc; simpl in *; subst.
  - by rewrite N.add_0_r.
  - unfold pos_update. simpl. destruct (Ascii.eqb c "010").
    + erewrite (IH _ (n + 1)%N 0%N); simpl; [f_equal; f_equal; lia| |done].
      rewrite N.add_mod_idemp_l by done. f_equal. lia.
    + erewrite (IH _ n (k + 1)%N); simpl; [f_equal; f_equal; lia|done|].
      by rewrite N.add_mod_idemp_l.
Qed.
Lemma adv_pos_after cs : adv pos0 cs = pos_after cs.
Proof. rewrite (adv_pos_gen cs pos0 0 0); done. Qed.

(** ** Where a state is in the text *)
Record at_ (b : list ascii) (l : lex) (j : nat) : Prop := {
  at_rem : rem l = drop j (" "%char :: b);
  at_pos : lpos l = adv pos0 (take j b);
  at_len : j ≤ S (length b);
}.

Lemma at_moved b l j cs l' : at_ b l j → moved l cs l' → at_ b l' (j + length cs).
Proof.
  intros [H1 H2 H3] [H4 H5]. split.
  - rewrite <- drop_drop, <- H1, H4. by rewrite drop_app.
  - rewrite H5, H1, H2, tail_drop. simpl. by rewrite <- adv_app, take_take_drop.
  - assert (Hlen : length (rem l) = length cs + length (rem l')) by (rewrite H4; apply app_length).
    rewrite H1, drop_length in Hlen. simpl in Hlen. lia.
Qed.

Lemma sep_space s : sep (" "%char :: s) → sep s.
Proof. by inversion 1. Qed.
Lemma trailer_space s : trailer (" "%char :: s) → trailer s.
Proof.
  inversion 1 as [? Hs|s' b' Hs Hb Heq]; subst.
  - by apply tr_sep, sep_space.
  - destruct s' as [|c s']; simplify_eq/=. apply sep_space in Hs. by constructor.
Qed.

Lemma covers_run b n l rs l' j :
  lex_run n l = (rs, l') → inv l → at_ b l j → covers b (pred j) rs.
Proof.
  revert l rs j. induction n as [|n IH]; intros l rs j H Hi Ha; simpl in H; simplify_eq.
  { constructor. }
  destruct (lex_next_token l) as [r l1] eqn:H1. destruct (lex_run n l1) as [rs1 l2] eqn:H2.
  simplify_eq. apply lex_next_token_spec in H1 as (Hp & _ & _ & Hr); [|done].
  destruct Hr as [(gap & l0 & Hs & Hm0 & _ & k & c & t & -> & Hm1 & _ & Ht & Hx)|
    [(Ht & -> & Hm & Hla & _)|(cs & f & -> & Hm & _)]].
  - pose proof (at_moved _ _ _ _ _ Ha Hm0) as Ha0.
    pose proof (at_moved _ _ _ _ _ Ha0 Hm1) as Ha1.
    specialize (IH _ _ _ H2 (pr0_inv _ _ Hp) Ha1).
    assert (∃ k gap', pred j = k ∧ j + length gap = S (k + length gap') ∧
      drop k b = gap' ++ (c :: t) ++ rem l1 ∧ sep gap') as (k0 & gap' & Hk & Hj & Hd & Hs').
    { pose proof (mv_rem _ _ _ Hm0) as Hr. rewrite (mv_rem _ _ _ Hm1), (at_rem _ _ _ Ha) in Hr.
      destruct j as [|j]; simpl in Hr.
      - destruct gap as [|g gap]; simplify_eq/=.
        { by apply token_text_first in Ht. }
        exists 0, gap. repeat split_and!; try done. by apply sep_space.
      - exists j, gap. by repeat split_and!. }
    rewrite Hk. eapply cov_tok; [exact Hd|done|done|done| |].
    + rewrite <- !adv_pos_after. rewrite (at_pos _ _ _ Ha0), Hj.
      assert (take (S (k0 + length gap')) b = take (k0 + length gap') b ++ [c]) as ->.
      { replace (S (k0 + length gap')) with (k0 + length gap' + 1) by lia.
        rewrite <- take_take_drop. f_equal. rewrite <- drop_drop, Hd, drop_app. done. }
      f_equal. rewrite <- adv_app, <- app_assoc. done.
    + rewrite <- Hj || idtac. by rewrite Hj in IH.
  - pose proof (at_moved _ _ _ _ _ Ha Hm) as Ha1.
    specialize (IH _ _ _ H2 (pr0_inv _ _ Hp) Ha1).
    rewrite (at_rem _ _ _ Ha), drop_length in *. simpl length in *.
    replace (j + (S (length b) - j)) with (S (length b)) in * by (destruct Ha; lia).
    unfold span_new. rewrite (at_pos _ _ _ Ha1), adv_pos_after, take_ge by lia.
    apply cov_end; [|done]. destruct j as [|j]; simpl in *; [by apply trailer_space|done].
  - pose proof (at_moved _ _ _ _ _ Ha Hm) as Ha1.
    eapply cov_err; [|by eapply IH; [|apply Hp|]]. lia.
Qed.

Lemma lex_new_at inp e : at_ (bytes_of inp) (lex_new inp e) 0.
Proof. split; [done|done|lia]. Qed.
Lemma lex_new_inv inp e : inv (lex_new inp e).
Proof. done. Qed.

(** ** Documents *)
Lemma lex_doc_gen s ks :
  doc s ks → ∀ l m, noerr l → inv l → rem l = s →
  ∃ rs l', lex_run (length ks + m) l = (rs, l') ∧ errs l' = errs l ∧
    map kind_of rs = map Some ks ++ replicate m (Some TkEnd).
Proof.
  induction 1 as [s Ht|gap t rest k ks Hs Ht Hx Hd IH]; intros l m Hn Hi Hr.
  - destruct m as [|m]; [by exists [], l|]. rewrite <- Hr in Ht.
    destruct (lex_end l Hn Hi Ht) as (l' & H1 & Hm & He & Hn' & Hi' & Hla).
    simpl. rewrite H1, lex_run_ended by done. eexists _, _. split; [done|].
    split; [done|]. simpl. f_equal. clear. induction m as [|m IH]; [done|]. simpl. by f_equal.
  - destruct (lex_token l gap k t rest) as (l1 & l2 & H1 & Hm1 & Hm2 & He & Hn2 & Hi2); try done.
    destruct (IH l2 m) as (rs & l' & H2 & He' & Hk); try done.
    { by eapply moved_rem, moved_rem. }
    simpl. rewrite H1, H2. eexists _, _. split; [done|]. split; [congruence|]. simpl. by f_equal.
Qed.

Lemma sep_space_cons s : sep s → sep (" "%char :: s).
Proof. by apply sep_ws. Qed.
Lemma doc_space s ks : doc s ks → doc (" "%char :: s) ks.
Proof.
  inversion 1 as [? Ht|gap t rest k ks' Hs Ht Hx Hd]; subst.
  - constructor. inversion Ht as [? Hs|s' b' Hs Hb]; subst.
    + by apply tr_sep, sep_space_cons.
    + change (" "%char :: s' ++ "/"%char :: "/"%char :: b')
        with ((" "%char :: s') ++ "/"%char :: "/"%char :: b').
      apply tr_line; [by apply sep_space_cons|done].
  - change (" "%char :: gap ++ t ++ rest) with ((" "%char :: gap) ++ t ++ rest).
    constructor; try done. by apply sep_space_cons.
Qed.

Lemma bytes_of_RByte s : bytes_of (RByte <$> s) = s.
Proof. induction s as [|c s IH]; [done|]. unfold bytes_of in *. simpl. by f_equal. Qed.
Lemma noerr_RByte s e : noerr (lex_new (RByte <$> s) e).
Proof. unfold noerr. simpl. intros (? & ? & _)%elem_of_list_fmap. done. Qed.

Lemma lex_doc s ks e m :
  doc s ks →
  ∃ rs l', lex_run (length ks + m) (lex_new (RByte <$> s) e) = (rs, l') ∧ errs l' = e ∧
    map kind_of rs = map Some ks ++ replicate m (Some TkEnd).
Proof.
  intros Hd%doc_space. eapply lex_doc_gen; [exact Hd|apply noerr_RByte|done|].
  unfold rem. simpl. by rewrite bytes_of_RByte.
Qed.

(** ** Printed numbers *)
Lemma digit_ascii_ok d : (d < 10)%N →
  is_ascii_digit (digit_ascii d) = true ∧ (N_of_ascii (digit_ascii d) - 48 = d)%N ∧
  (digit_ascii d = "0"%char ↔ d = 0%N).
Proof.
  intros H. assert (d ∈ [0; 1; 2; 3; 4; 5; 6; 7; 8; 9]%N) as Hd.
  { rewrite !elem_of_cons. lia. }
  rewrite !elem_of_cons, elem_of_nil in Hd.
  repeat (destruct Hd as [-> |Hd]; [done|]). done.
Qed.

Lemma dec_val_app a b :
  dec_val (a ++ b) = (dec_val a * 10 ^ Z.of_nat (length b) + dec_val b)%Z.
Proof.
  induction a as [|c a IH]; [simpl; lia|]. cbn [app dec_val]. rewrite IH, app_length.
  rewrite Nat2Z.inj_add, Z.pow_add_r by lia. ring.
Qed.

Lemma dec_aux_spec f n acc :
  (n < 2 ^ N.of_nat f)%N →
  ∃ ds, String.list_ascii_of_string (dec_aux f n acc) = ds ++ String.list_ascii_of_string acc ∧
    Forall (λ c, is_ascii_digit c = true) ds ∧ dec_val ds = Z.of_N n ∧
    (∀ c ds', ds = c :: ds' → c = "0"%char → n = 0%N ∧ ds' = []) ∧ (0 < f → ds ≠ []).
Proof.
  revert n acc. induction f as [|f IH]; intros n acc Hn.
  - exists []. simpl in *. repeat split_and!; try done; lia.
  - cbn [dec_aux]. destruct (digit_ascii_ok (n `mod` 10)%N) as (Hd1 & Hd2 & Hd3).
    { by apply N.mod_upper_bound. }
    destruct (n <? 10)%N eqn:H10.
    + exists [digit_ascii (n `mod` 10)]. repeat split_and!; try done.
      * by constructor.
      * cbn [dec_val length]. rewrite Hd2. rewrite N.mod_small by lia. simpl. lia.
      * intros c ds' [= <- <-] Hz. split; [|done]. apply Hd3 in Hz.
        rewrite N.mod_small in Hz by lia. done.
    + destruct (IH (n / 10)%N (String (digit_ascii (n `mod` 10)) acc)) as (ds & He & Hf & Hv & H0 & Hne).
      { rewrite Nat2N.inj_succ, N.pow_succ_r' in Hn. apply N.div_lt_upper_bound; [done|]. lia. }
      exists (ds ++ [digit_ascii (n `mod` 10)]). rewrite He.
      assert (Hds : ds ≠ []).
      { intros ->. simpl in Hv. assert (n / 10 = 0)%N as Hz by lia.
        apply N.div_small_iff in Hz; lia. }
      repeat split_and!.
      * by rewrite <- app_assoc.
      * apply Forall_app. by repeat constructor.
      * rewrite dec_val_app, Hv. cbn [dec_val length]. rewrite Hd2. lia.
      * intros c ds' Heq ->. destruct ds as [|c ds]; [done|]. simplify_eq/=.
        destruct (H0 "0"%char ds eq_refl eq_refl) as [Hz _].
        apply N.div_small_iff in Hz; lia.
      * by destruct ds.
Qed.

Lemma show_N_spec n :
  let ds := String.list_ascii_of_string (show_N n) in
  digits ds ∧ dec_val ds = Z.of_N n ∧
  (∀ c ds', ds = c :: ds' → c = "0"%char → n = 0%N ∧ ds' = []).
Proof.
  unfold show_N.
  destruct (dec_aux_spec (S (N.to_nat (N.size n))) n EmptyString) as (ds & He & Hf & Hv & H0 & Hne).
  { rewrite Nat2N.inj_succ, N2Nat.id, N.pow_succ_r'. pose proof (N.size_gt n). lia. }
  simpl in *. rewrite app_nil_r in He. rewrite He. split; [split; [apply Hne; lia|done]|done].
Qed.

Lemma show_Z_token z : i64 z → token_text (TkInt z) (String.list_ascii_of_string (show_Z z)).
Proof.
  intros Hz. unfold show_Z. destruct (z <? 0)%Z eqn:H.
  - destruct (show_N_spec (Z.to_N (- z))) as (Hd & Hv & _). cbn [String.list_ascii_of_string].
    assert (z = - dec_val (String.list_ascii_of_string (show_N (Z.to_N (- z)))))%Z as Hz' by lia.
    rewrite Hz' at 1. constructor; [done|]. by rewrite <- Hz'.
  - destruct (show_N_spec (Z.to_N z)) as (Hd & Hv & _).
    assert (z = dec_val (String.list_ascii_of_string (show_N (Z.to_N z))))%Z as Hz' by lia.
    rewrite Hz' at 1. constructor; [done|]. by rewrite <- Hz'.
Qed.

(** ** Printed tokens *)
Lemma printable_text k :
  printable k → token_text k (String.list_ascii_of_string (show_token k)).
Proof.
  destruct k as [z|s|kw|o|c|]; simpl; intros H.
  - apply show_Z_token. unfold i64. lia.
  - destruct H as [Ha Hs]. pose proof (tt_sym _ Hs) as Ht.
    by rewrite utf8s_ascii, String.string_of_list_ascii_of_string in Ht.
  - apply tt_kw. destruct kw; set_solver.
  - apply tt_op. destruct o; set_solver.
  - apply tt_other. rewrite !elem_of_cons, elem_of_nil in H.
    repeat (destruct H as [-> |H]; [by repeat split; set_solver|]). done.
  - done.
Qed.

Lemma noerr_rd l : noerr l → rd l = RByte <$> bytes_of (rd l).
Proof.
  unfold noerr. generalize (rd l). intros r. induction r as [|[c|] r IH]; intros H; [done| |].
  - unfold bytes_of in *. simpl. f_equal. apply IH. set_solver.
  - set_solver.
Qed.

Lemma state_eq l s e :
  noerr l → inv l → rem l = s → errs l = e →
  l = Lex (RByte <$> tail s) (lpos l) (head s) e.
Proof.
  intros Hn Hi <- <-. destruct l as [r q [c|] n]; simpl.
  - f_equal. by apply noerr_rd in Hn.
  - f_equal. by apply Hi.
Qed.

Lemma lex_print k rest e :
  printable k →
  let t := String.list_ascii_of_string (show_token k) in
  not_extended k t rest →
  lex_next_token (lex_new (RByte <$> t ++ rest) e) =
  (Rok (Token (Span (pos_after (take 1 t)) (pos_after t)) k),
   Lex (RByte <$> tail rest) (pos_after (t ++ take 1 rest)) (head rest) e).
Proof.
  intros Hp t Hx. pose proof (printable_text k Hp) as Ht. fold t in Ht.
  destruct (lex_token (lex_new (RByte <$> t ++ rest) e) [" "%char] k t rest)
    as (l1 & l2 & H1 & Hm1 & Hm2 & He & Hn2 & Hi2); try done.
  { apply noerr_RByte. }
  { unfold rem. simpl. by rewrite bytes_of_RByte. }
  { by repeat constructor. }
  pose proof (lex_new_at (RByte <$> t ++ rest) e) as Ha. rewrite bytes_of_RByte in Ha.
  pose proof (at_moved _ _ _ _ _ Ha Hm1) as Ha1. simpl in Ha1.
  pose proof (at_moved _ _ _ _ _ Ha1 Hm2) as Ha2. simpl in Ha2.
  assert (Hr : rem l2 = rest).
  { rewrite (at_rem _ _ _ Ha2). simpl. apply drop_app. }
  assert (t ≠ []) as Hne.
  { intros Hn. rewrite Hn in *. pose proof (mv_rem _ _ _ Hm1) as Hq.
    inversion Ht as [? [? _]| | ? Hs | s ? Hk | s ? Hk |]; subst; try done.
    - inversion Hs.
    - apply kw_shape_kw, kw_shape_spec in Hk as [_ (? & ? & Hq' & _)]. congruence.
    - apply kw_shape_op, kw_shape_spec in Hk as [_ (? & ? & Hq' & _)]. congruence. }
  rewrite H1. f_equal.
  - do 2 f_equal. rewrite (at_pos _ _ _ Ha1). destruct t as [|c t']; [done|]. rewrite <- !adv_pos_after. done.
  - rewrite (state_eq l2 rest e) at 1; try done. f_equal.
    rewrite (at_pos _ _ _ Ha2), adv_pos_after. f_equal.
    replace (S (length t)) with (length t + 1) by lia.
    rewrite <- take_take_drop, drop_app, take_app. done.
Qed.

(** ** The two ways of printing numbers agree *)
Lemma digit_pretty d : (d < 10)%N → digit_ascii d = pretty_N_char d.
Proof.
  intros H. assert (d ∈ [0; 1; 2; 3; 4; 5; 6; 7; 8; 9]%N) as Hd.
  { rewrite !elem_of_cons. lia. }
  rewrite !elem_of_cons, elem_of_nil in Hd.
  repeat (destruct Hd as [-> |Hd]; [done|]). done.
Qed.
Lemma dec_aux_pretty f n acc :
  (0 < n < 2 ^ N.of_nat f)%N → dec_aux f n acc = pretty_N_go n acc.
Proof.
  revert n acc. induction f as [|f IH]; intros n acc Hn; [simpl in Hn; lia|].
  rewrite pretty_N_go_step by lia. cbn [dec_aux].
  rewrite digit_pretty by by apply N.mod_upper_bound.
  destruct (n <? 10)%N eqn:H10.
  - rewrite N.div_small by lia. by rewrite pretty_N_go_0.
  - apply IH. rewrite Nat2N.inj_succ, N.pow_succ_r' in Hn. split.
    + apply N.div_str_pos. lia.
    + apply N.div_lt_upper_bound; [done|]. lia.
Qed.
Lemma show_N_pretty n : show_N n = pretty n.
Proof.
  unfold show_N, pretty, pretty_N. case_decide as H; [by subst|].
  apply dec_aux_pretty. split; [lia|].
  rewrite Nat2N.inj_succ, N2Nat.id, N.pow_succ_r'. pose proof (N.size_gt n). lia.
Qed.

(** ** Final forms *)
Lemma lex_progress inp e n rs l r l' :
  lex_run n (lex_new inp e) = (rs, l) → lex_next_token l = (r, l') →
  ((∃ t, r = Rok t) ∨ (∃ f, r = Rerr f)) ∧
  (∀ c, last l = Some c →
     length (rd l') < length (rd l) ∨ rd l = [] ∧ rd l' = [] ∧ last l' = None) ∧
  (last l = None → r = Rok (Token (span_new (lpos l)) TkEnd) ∧ l' = l).
Proof.
  intros Hr H. apply lex_run_inv in Hr as [Hi _]; [|apply lex_new_inv].
  pose proof (lex_next_token_spec _ _ _ H Hi) as (Hp0 & Hp & Heq & Ht). split_and!.
  - by eapply tok_result_cases.
  - intros c Hc. destruct Hp as [H1 H2 _ H4]; [congruence|]. unfold pend in H1. rewrite Hc in H1.
    destruct (decide (length (rd l') < length (rd l))) as [?|Hn]; [by left|right].
    destruct (last l') eqn:Hl'; [lia|]. rewrite (H4 Hl') in *. simpl in *.
    destruct (rd l); simpl in *; [done|lia].
  - intros Hl. rewrite lex_at_end in H by done. by simplify_eq.
Qed.

Lemma lex_run_add n m l :
  lex_run (n + m) l =
  let '(rs, l1) := lex_run n l in let '(rs', l2) := lex_run m l1 in (rs ++ rs', l2).
Proof.
  revert l. induction n as [|n IH]; intros l; simpl.
  - by destruct (lex_run m l).
  - destruct (lex_next_token l) as [r l1]. rewrite IH.
    destruct (lex_run n l1) as [rs l2]. by destruct (lex_run m l2).
Qed.

Lemma lex_ends inp e m :
  ∃ rs l, lex_run (S (length inp) + m) (lex_new inp e) =
    (rs ++ replicate m (Rok (Token (Span (lpos l) (lpos l)) TkEnd)), l) ∧
    length rs = S (length inp).
Proof.
  rewrite lex_run_add. destruct (lex_run (S (length inp)) (lex_new inp e)) as [rs l] eqn:H.
  exists rs, l. pose proof (lex_run_inv _ _ _ _ H (lex_new_inv _ _)) as [Hi Hlen].
  apply lex_run_pend in H; [|done|unfold pend; simpl; lia].
  by rewrite lex_run_ended.
Qed.

Lemma lex_layout s s' ks e e' n :
  doc s ks → doc s' ks →
  map kind_of (lex_run n (lex_new (RByte <$> s) e)).1 =
  map kind_of (lex_run n (lex_new (RByte <$> s') e')).1.
Proof.
  assert (Hg : ∀ s e, doc s ks → map kind_of (lex_run n (lex_new (RByte <$> s) e)).1 =
    take n (map Some ks ++ replicate n (Some TkEnd))).
  { intros s0 e0 Hd. destruct (lex_doc s0 ks e0 n Hd) as (rs & l' & H & _ & Hk).
    replace (length ks + n) with (n + length ks) in H by lia. rewrite lex_run_add in H.
    destruct (lex_run n (lex_new (RByte <$> s0) e0)) as [rs1 l1] eqn:H1.
    destruct (lex_run (length ks) l1) as [rs2 l2]. simplify_eq. simpl.
    rewrite <- Hk, map_app. apply lex_run_inv in H1 as [_ <-]; [|apply lex_new_inv].
    rewrite <- (map_length kind_of rs1). by rewrite take_app. }
  intros H1 H2. by rewrite !Hg.
Qed.
