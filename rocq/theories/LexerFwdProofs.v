(** Proofs about the lexer: from texts to results. *)
From Coq Require Import Lia ZifyBool ZifyNat ZifyN.
From Verif Require Import Base IrModel LexerModel LexerSpec LexerProofs.

(** ** Facts about characters *)
Lemma digit_facts c : is_ascii_digit c = true →
  is_whitespace c = false ∧ Ascii.eqb c "/" = false ∧
  Ascii.eqb c "@" || Ascii.eqb c "%" = false ∧ is_alphabetic c = false ∧
  is_numeric c || Ascii.eqb c "-" = true.
Proof. all_chars c; vm_compute; intros H; repeat split_and!; congruence. Qed.

Lemma alpha_facts c : is_alphabetic c = true →
  is_whitespace c = false ∧ Ascii.eqb c "/" = false ∧
  Ascii.eqb c "@" || Ascii.eqb c "%" = false.
Proof. all_chars c; vm_compute; intros H; repeat split_and!; congruence. Qed.

(** ** From texts to results *)
Lemma next_char_fwd l c :
  noerr l → last l = Some c →
  ∃ l', next_char l = (Rok tt, l') ∧ moved l [c] l' ∧ errs l' = errs l ∧ noerr l' ∧ inv l' ∧
    length (rd l') ≤ length (rd l).
Proof.
  intros Hn Hl. destruct (next_char l) as [r l'] eqn:H. exists l'.
  apply next_char_spec' with (c := c) in H as [Hp H]; [|done].
  destruct H as [(-> & ? & ? & _)|(_ & _ & _ & ?)]; [|done].
  repeat split_and!; try done; apply Hp; done.
Qed.

Lemma scan_fwd p e l cs rest :
  noerr l → inv l → rem l = cs ++ rest → Forall (λ c, p c = true) cs → stops p rest →
  ∃ l', scan p e l = (Rok (cs, ends_at (lpos l) e cs), l') ∧ moved l cs l' ∧ errs l' = errs l ∧
    noerr l' ∧ inv l' ∧ length (rd l') ≤ length (rd l).
Proof.
  intros Hn Hi Hr Hcs Hst. destruct (scan p e l) as [r l'] eqn:H. exists l'.
  apply scan_spec' in H as (Hp & _ & H); [|done].
  destruct H as [(cs' & -> & Hm & He & Hcs' & Hst')|(? & _ & _ & _ & ? & _)]; [|done].
  destruct (longest_unique p cs cs' rest (rem l')) as [<- _]; try done.
  { rewrite <- Hr. apply Hm. }
  repeat split_and!; try done; apply Hp; done.
Qed.

Lemma moved_rem l a l' b : moved l a l' → rem l = a ++ b → rem l' = b.
Proof. intros [H _] H'. rewrite H in H'. by simplify_list_eq. Qed.

Definition reads (l : lex) (k : tokkind) (t : list ascii) (r : res token) (l' : lex) : Prop :=
  r = Rok (Token (Span (lpos l) (adv (lpos l) (tail t))) k) ∧ moved l t l' ∧
  errs l' = errs l ∧ noerr l' ∧ inv l' ∧ length (rd l') ≤ length (rd l).

Lemma stops_not_extended k t c p rest :
  not_extended k (c :: t) rest → (∀ x, p x = true → extends k (c :: t) x = true) → stops p rest.
Proof.
  unfold not_extended, stops. destruct rest as [|x s]; [done|]. intros H Hp.
  destruct (p x) eqn:Hx; [|done]. by rewrite Hp in H.
Qed.

Lemma ws_none l c : last l = Some c → is_whitespace c = false →
  scan is_whitespace pos0 l = (Rok ([], pos0), l).
Proof.
  intros Hl Hc. destruct l as [r q la n]. unfold scan. simpl in *. subst.
  destruct r as [|? ?]; simpl; by rewrite Hc.
Qed.

Lemma handle_integer_fwd l c t z rest :
  noerr l → rem l = (c :: t) ++ rest → token_text (TkInt z) (c :: t) →
  not_extended (TkInt z) (c :: t) rest →
  ∃ l', handle_integer c l = (Rok (Token (Span (lpos l) (adv (lpos l) t)) (TkInt z)), l') ∧
    moved l (c :: t) l' ∧ errs l' = errs l ∧ noerr l' ∧ inv l' ∧ length (rd l') ≤ length (rd l).
Proof.
  intros Hn Hr Ht Hx. unfold handle_integer, mthen, mget, mok.
  destruct (next_char_fwd l c Hn) as (l1 & -> & Hm1 & He1 & Hn1 & Hi1 & Hl1).
  { by eapply rem_last. }
  destruct (scan_fwd is_numeric (lpos l) l1 t rest) as (l2 & -> & Hm2 & He2 & Hn2 & Hi2 & Hl2); try done.
  { by eapply moved_rem. }
  { assert (Forall (λ c, is_ascii_digit c = true) t) as Hd.
    { inversion Ht as [? [_ Hd]|? [_ Hd]| | | |]; subst; [by inversion Hd|done]. }
    revert Hd. apply Forall_impl. apply ascii_digit_numeric. }
  apply parse_i64_ok in Ht as ->. exists l2. repeat split_and!; try done.
  - do 3 f_equal. f_equal. eapply ends_at_adv; [done|apply Hm2].
  - change (c :: t) with ([c] ++ t). by eapply moved_trans.
  - congruence.
  - lia.
Qed.

Lemma handle_keyword_fwd l c t k rest :
  noerr l → inv l → rem l = (c :: t) ++ rest → token_text k (c :: t) →
  (∃ kw, k = TkKeyword kw) ∨ (∃ o, k = TkBinaryOp o) →
  not_extended k (c :: t) rest →
  ∃ l', handle_keyword l = (Rok (Token (Span (lpos l) (adv (lpos l) t)) k), l') ∧
    moved l (c :: t) l' ∧ errs l' = errs l ∧ noerr l' ∧ inv l' ∧ length (rd l') ≤ length (rd l).
Proof.
  intros Hn Hi Hr Ht Hk Hx. unfold handle_keyword, mthen, mget, mok.
  assert (∃ s, c :: t = String.list_ascii_of_string s ∧ kw_shape s = true ∧
    ((∃ kw, k = TkKeyword kw ∧ map_get s KEYWORDS = Some kw) ∨
     (∃ o, k = TkBinaryOp o ∧ map_get s KEYWORDS = None ∧ map_get s BINARY_OPS = Some o)))
    as (s & Hs & Hsh & Hget).
  { destruct Hk as [[kw ->]|[o ->]]; inversion Ht; subst; exists s; (split; [done|]).
    - split; [by eapply kw_shape_kw|]. left. exists kw. split; [done|]. by apply KEYWORDS_get.
    - split; [by eapply kw_shape_op|]. right. exists o. split; [done|]. by apply BINARY_OPS_get. }
  apply kw_shape_spec in Hsh as [Has (c' & t' & He & Hc & Hal)].
  rewrite <- Hs in He. simplify_eq.
  destruct (scan_fwd is_alphanumeric (lpos l) l (c' :: t') rest) as (l2 & -> & Hm2 & He2 & Hn2 & Hi2 & Hl2); try done.
  { eapply stops_not_extended; [done|]. by destruct Hk as [[? ->]|[? ->]]. }
  assert (utf8s (c' :: t') = s) as ->.
  { rewrite Hs, utf8s_ascii by done. apply String.string_of_list_ascii_of_string. }
  exists l2. destruct Hget as [(kw & -> & ->)|(o & -> & -> & ->)]; by repeat split_and!.
Qed.

Lemma handle_symbol_fwd l c t rest :
  noerr l → rem l = (c :: t) ++ rest → symbol_text (c :: t) →
  not_extended (TkSymbol (utf8s (c :: t))) (c :: t) rest →
  ∃ l', handle_symbol c l =
      (Rok (Token (Span (lpos l) (adv (lpos l) t)) (TkSymbol (utf8s (c :: t)))), l') ∧
    moved l (c :: t) l' ∧ errs l' = errs l ∧ noerr l' ∧ inv l' ∧ length (rd l') ≤ length (rd l).
Proof.
  intros Hn Hr Hs Hx. unfold handle_symbol. unfold mthen at 1. simpl. unfold mthen at 1.
  destruct (next_char_fwd l c Hn) as (l1 & -> & Hm1 & He1 & Hn1 & Hi1 & Hl1).
  { by eapply rem_last. }
  unfold mthen at 1. simpl.
  assert (Hr1 : rem l1 = t ++ rest) by by eapply moved_rem.
  inversion Hs as [|d ds Hd Hd0 Hds|tag d ds Htag Hd Hds]; subst.
  - (* %0 *)
    simpl in Hr1. assert (Hla : last l1 = Some "0"%char) by by eapply rem_last.
    rewrite Hla. simpl.
    destruct (next_char_fwd l1 "0"%char Hn1 Hla) as (l2 & Hn2' & Hm2 & He2 & Hn2 & Hi2 & Hl2).
    unfold mthen, mok. rewrite Hn2'. exists l2. repeat split_and!; try done.
    + do 4 f_equal. destruct Hm1 as [Hq1 Hq2]. rewrite Hq2, Hr. done.
    + change (["%"; "0"]%char) with (["%"%char] ++ ["0"%char]). by eapply moved_trans.
    + congruence.
    + lia.
  - simpl in Hr1. assert (Hla : last l1 = Some d) by by eapply rem_last.
    rewrite Hla. rewrite Hd. simpl. rewrite (eqb_neq _ _ Hd0).
    destruct (next_char_fwd l1 d Hn1 Hla) as (l2 & Hn2' & Hm2 & He2 & Hn2 & Hi2 & Hl2).
    destruct (scan_fwd is_numeric (lpos l1) l2 ds rest) as (l3 & Hs3 & Hm3 & He3 & Hn3 & Hi3 & Hl3); try done.
    { eapply moved_rem; [done|]. by rewrite Hr1. }
    { eapply stops_not_extended; [done|]. simpl. rewrite Hd. rewrite (eqb_neq _ _ Hd0). done. }
    unfold mthen, mok. rewrite Hn2', Hs3. exists l3. repeat split_and!; try done.
    + do 4 f_equal. rewrite (ends_at_adv l1 d _ _ _ Hm2 (mv_rem _ _ _ Hm3)).
      destruct Hm1 as [Hq1 Hq2]. rewrite Hq2, Hr. done.
    + change ("%"%char :: d :: ds) with (["%"%char] ++ [d] ++ ds).
      eapply moved_trans; [done|]. by eapply moved_trans.
    + congruence.
    + lia.
  - simpl in Hr1. assert (Hla : last l1 = Some d) by by eapply rem_last.
    rewrite Hla, Hd.
    destruct (scan_fwd is_symbol_char (lpos l) l1 (d :: ds) rest) as (l3 & Hs3 & Hm3 & He3 & Hn3 & Hi3 & Hl3); try done.
    { eapply stops_not_extended; [done|]. simpl. by rewrite Hd. }
    unfold mthen, mok. rewrite Hs3. exists l3. repeat split_and!; try done.
    + do 3 f_equal. rewrite (ends_at_adv _ _ _ _ _ Hm1 (mv_rem _ _ _ Hm3)). done.
    + change (c :: d :: ds) with ([c] ++ (d :: ds)). by eapply moved_trans.
    + congruence.
    + lia.
Qed.

Lemma next_token_text fuel l k t rest :
  noerr l → inv l → rem l = t ++ rest → token_text k t → not_extended k t rest → 0 < fuel →
  ∃ l', next_token_f fuel l =
      (Rok (Token (Span (lpos l) (adv (lpos l) (tail t))) k), l') ∧
    moved l t l' ∧ errs l' = errs l ∧ noerr l' ∧ inv l' ∧ length (rd l') ≤ length (rd l).
Proof.
  intros Hn Hi Hr Ht Hx Hf. destruct fuel as [|fuel]; [lia|].
  destruct t as [|c t].
  { exfalso. inversion Ht as [? [? _]| | ? Hs | s ? Hk | s ? Hk |]; subst; try done.
    - inversion Hs.
    - apply kw_shape_kw, kw_shape_spec in Hk as [_ (? & ? & He & _)]. congruence.
    - apply kw_shape_op, kw_shape_spec in Hk as [_ (? & ? & He & _)]. congruence. }
  assert (Hla : last l = Some c) by by eapply rem_last.
  cbn [next_token_f tail]. unfold mthen at 1. rewrite (ws_none l c) by (done || by eapply token_text_first).
  unfold mthen at 1. simpl. rewrite Hla.
  rewrite (eqb_neq c "/") by by eapply token_text_slash.
  inversion Ht as [? [_ Hd]|ds [_ Hd]|? Hs|s ? Hk|s ? Hk|? Ho]; subst.
  - inversion Hd as [|?? Hc]; subst. destruct (digit_facts c Hc) as (_ & _ & -> & -> & ->).
    by eapply handle_integer_fwd.
  - simpl. by eapply handle_integer_fwd.
  - assert (Ascii.eqb c "@" || Ascii.eqb c "%" = true) as ->.
    { inversion Hs as [| |? ? ? [-> | ->]]; subst; done. }
    by eapply handle_symbol_fwd.
  - pose proof Hk as Hk'. apply kw_shape_kw, kw_shape_spec in Hk' as [_ (c' & t' & He & Hc & _)].
    assert (c' = c) as -> by congruence.
    destruct (alpha_facts c Hc) as (_ & _ & ->). rewrite Hc.
    match goal with H : String.list_ascii_of_string s = c :: t |- _ => rewrite ?H end.
    eapply handle_keyword_fwd; eauto.
  - pose proof Hk as Hk'. apply kw_shape_op, kw_shape_spec in Hk' as [_ (c' & t' & He & Hc & _)].
    assert (c' = c) as -> by congruence.
    destruct (alpha_facts c Hc) as (_ & _ & ->). rewrite Hc.
    match goal with H : String.list_ascii_of_string s = c :: t |- _ => rewrite ?H end.
    eapply handle_keyword_fwd; eauto.
  - destruct Ho as (_ & Ho1 & Ho2 & Ho3). rewrite !not_elem_of_cons in Ho3.
    destruct Ho3 as (_ & H1 & H2 & H3 & _).
    rewrite (eqb_neq c "@"), (eqb_neq c "%"), Ho1, Ho2, (eqb_neq c "-") by done. simpl.
    destruct (next_char_fwd l c Hn Hla) as (l2 & Hn2' & Hm2 & He2 & Hn2 & Hi2 & Hl2).
    unfold mthen, mok. rewrite Hn2'. by exists l2.
Qed.

(** ** Skipping separators *)
Lemma scan_ws_step l c l1 :
  last l = Some c → is_whitespace c = true → next_char l = (Rok tt, l1) →
  ∀ B (k : list ascii * pos → M lex B), (∀ x y, k x = k y) →
  (scan is_whitespace pos0;; (λ l, k ([], pos0) l)) l = (scan is_whitespace pos0;; (λ l, k ([], pos0) l)) l1.
Proof.
  intros Hl Hc Hn B k Hk. destruct l as [r q la n]; simpl in *. subst. unfold next_char in Hn. simpl in Hn.
  unfold mthen, scan. simpl. destruct r as [|[c'|] r]; simplify_eq/=.
  - by rewrite Hc.
  - rewrite Hc.
    assert (Hgen : ∀ r q la n e e',
      match scan_ is_whitespace r q la n e with
      | (Rok _, l) => (Rok tt, l) | (Rerr f, l) => (Rerr f, l)
      | (Rpanic, l) => (Rpanic, l) | (Rfuel, l) => (Rfuel, l) end =
      match scan_ is_whitespace r q la n e' with
      | (Rok _, l) => (Rok tt, l) | (Rerr f, l) => (Rerr f, l)
      | (Rpanic, l) => (Rpanic, l) | (Rfuel, l) => (Rfuel, l) end).
    { clear. intros r q la n e e'. destruct r as [|[x|] r], la as [y|]; simpl; try done; by destruct (is_whitespace y). }
    specialize (Hgen r (pos_update c' q) (Some c') n q pos0).
    destruct (scan_ is_whitespace r (pos_update c' q) (Some c') n q) as [[[]| | |] ?],
      (scan_ is_whitespace r (pos_update c' q) (Some c') n pos0) as [[[]| | |] ?]; simplify_eq/=; done.
Qed.

Lemma next_token_ws fuel l c l1 :
  last l = Some c → is_whitespace c = true → next_char l = (Rok tt, l1) →
  next_token_f fuel l1 = next_token_f fuel l ∨ fuel = 0.
Proof.
  intros Hl Hc Hn. destruct fuel as [|fuel]; [by right|left].
  symmetry. cbn [next_token_f]. by eapply (scan_ws_step _ _ _ Hl Hc Hn _ (λ _, _)).
Qed.

Lemma block_loop_fwd star l b rest :
  noerr l → no_close (star_pre star ++ b ++ ["*"%char]) →
  rem l = b ++ "*"%char :: "/"%char :: rest →
  ∃ l', block_loop star (rd l) (lpos l) (last l) (errs l) = (Rok tt, l') ∧
    moved l (b ++ ["*"%char]) l' ∧ last l' = Some "/"%char ∧ errs l' = errs l ∧ noerr l' ∧
    length (rd l') ≤ length (rd l).
Proof.
  destruct l as [r q la n]; simpl. unfold noerr; simpl.
  revert star q la b. induction r as [|ev r IH]; intros star q la b Hn Hnc Hr.
  { exfalso. unfold rem in Hr. simpl in Hr. destruct la, b as [|? [|? ?]]; simplify_eq/=. }
  destruct la as [c|]; [|by destruct b].
  destruct ev as [c'|]; [|set_solver].
  assert (Hmv : ∀ cs l', moved (Lex r (pos_update c' q) (Some c') n) cs l' →
                 moved (Lex (RByte c' :: r) q (Some c) n) (c :: cs) l').
  { intros cs l' Hm. change (c :: cs) with ([c] ++ cs). eapply moved_trans; [|exact Hm].
    by split. }
  unfold rem in Hr. simpl in Hr. destruct b as [|c0 b]; simplify_eq/=.
  - rewrite andb_false_r. change (Ascii.eqb "*" "*") with true.
    exists (Lex r (pos_update "/" q) (Some "/"%char) n). destruct r; simpl;
    (repeat split_and!; [done|by apply Hmv, moved_refl|done|done|set_solver|lia]).
  - assert (star && Ascii.eqb c0 "/" = false) as ->.
    { destruct star; [|done]. simpl. apply eqb_neq. intros ->. apply Hnc. by exists [], (b ++ ["*"%char]). }
    destruct (IH (Ascii.eqb c0 "*") (pos_update c' q) (Some c') b) as (l' & H1 & H2 & H3 & H4 & H5 & H6).
    { set_solver. }
    { apply no_close_app_r in Hnc. destruct (Ascii.eqb c0 "*") eqn:Hc0.
      - apply eqb_true in Hc0 as ->. done.
      - by apply no_close_tail in Hnc. }
    { done. }
    exists l'. repeat split_and!; try done; [by apply Hmv|lia].
Qed.

Lemma scan_stop p e l c : last l = Some c → p c = false → scan p e l = (Rok ([], e), l).
Proof.
  intros Hl Hc. destruct l as [r q la n]. unfold scan. simpl in *. subst.
  destruct r as [|? ?]; simpl; by rewrite Hc.
Qed.

Lemma next_token_slash f l :
  last l = Some "/"%char → next_token_f (S f) l = handle_comment (next_token_f f) l.
Proof.
  intros Hl. cbn [next_token_f]. unfold mthen at 1.
  rewrite (scan_stop _ _ l "/"%char) by done. unfold mthen at 1. simpl. by rewrite Hl.
Qed.

Lemma no_line_end_p b :
  no_line_end b → Forall (λ c, negb (Ascii.eqb c "013") && negb (Ascii.eqb c "010") = true) b.
Proof.
  apply Forall_impl. intros c [H1 H2]. by rewrite (eqb_neq _ _ H1), (eqb_neq _ _ H2).
Qed.

Lemma next_token_line f l b rest :
  noerr l → inv l → rem l = "/"%char :: "/"%char :: b ++ rest → no_line_end b →
  (∀ c, head rest = Some c → c = "013"%char ∨ c = "010"%char) →
  ∃ l1, next_token_f (S f) l = next_token_f f l1 ∧ moved l ("/"%char :: "/"%char :: b) l1 ∧
    errs l1 = errs l ∧ noerr l1 ∧ inv l1 ∧ length (rd l1) < length (rd l).
Proof.
  intros Hn Hi Hr Hb Hrest. assert (Hla : last l = Some "/"%char) by by eapply rem_last.
  rewrite next_token_slash by done. unfold handle_comment. unfold mthen at 1.
  destruct (next_char l) as [r1 l1] eqn:H1.
  apply next_char_spec' with (c := "/"%char) in H1 as [Hp1 H1]; [|done].
  destruct H1 as [(-> & Hm1 & He1 & Hlt)|(_ & _ & _ & ?)]; [|done].
  unfold mthen at 1. simpl.
  assert (Hr1 : rem l1 = "/"%char :: b ++ rest) by by eapply moved_rem.
  assert (Hla1 : last l1 = Some "/"%char) by by eapply rem_last.
  rewrite Hla1. simpl. unfold mthen at 1.
  destruct (scan_fwd (λ c, negb (Ascii.eqb c "013") && negb (Ascii.eqb c "010")) pos0 l1
    ("/"%char :: b) rest) as (l2 & -> & Hm2 & He2 & Hn2 & Hi2 & Hl2); try done.
  { by apply Hp1. }
  { by apply Hp1. }
  { constructor; [done|]. by apply no_line_end_p. }
  { destruct rest as [|c rest]; [done|]. simpl. destruct (Hrest c) as [-> | ->]; done. }
  exists l2. repeat split_and!; try done.
  - change ("/"%char :: "/"%char :: b) with (["/"%char] ++ "/"%char :: b). by eapply moved_trans.
  - congruence.
  - rewrite Hla1 in Hlt. specialize (Hlt ltac:(done)). lia.
Qed.

Lemma next_token_block f l b rest :
  noerr l → inv l → rem l = "/"%char :: "*"%char :: b ++ "*"%char :: "/"%char :: rest →
  no_close (b ++ ["*"%char]) →
  ∃ l1, next_token_f (S f) l = next_token_f f l1 ∧
    moved l ("/"%char :: "*"%char :: b ++ ["*"%char; "/"%char]) l1 ∧
    errs l1 = errs l ∧ noerr l1 ∧ inv l1 ∧ length (rd l1) < length (rd l).
Proof.
  intros Hn Hi Hr Hb. assert (Hla : last l = Some "/"%char) by by eapply rem_last.
  rewrite next_token_slash by done. unfold handle_comment. unfold mthen at 1.
  destruct (next_char l) as [r1 l1] eqn:H1.
  apply next_char_spec' with (c := "/"%char) in H1 as [Hp1 H1]; [|done].
  destruct H1 as [(-> & Hm1 & He1 & Hlt)|(_ & _ & _ & ?)]; [|done].
  unfold mthen at 1. simpl.
  assert (Hr1 : rem l1 = "*"%char :: b ++ "*"%char :: "/"%char :: rest) by by eapply moved_rem.
  assert (Hla1 : last l1 = Some "*"%char) by by eapply rem_last.
  rewrite Hla1. simpl. rewrite Hla1 in Hlt. specialize (Hlt ltac:(done)).
  unfold handle_block_comment. unfold mthen at 1.
  destruct (next_char_fwd l1 "*"%char) as (l2 & -> & Hm2 & He2 & Hn2 & Hi2 & Hl2); [by apply Hp1|done|].
  assert (Hr2 : rem l2 = b ++ "*"%char :: "/"%char :: rest) by by eapply moved_rem.
  unfold mthen at 1.
  destruct (block_loop_fwd false l2 b rest) as (l3 & -> & Hm3 & Hla3 & He3 & Hn3 & Hl3); try done.
  unfold mthen at 1. simpl. rewrite Hla3. unfold mthen.
  destruct (next_char_fwd l3 "/"%char) as (l4 & -> & Hm4 & He4 & Hn4 & Hi4 & Hl4); [done|done|].
  exists l4. repeat split_and!; try done.
  - replace ("/"%char :: "*"%char :: b ++ ["*"; "/"]%char)
      with (["/"%char] ++ ["*"%char] ++ (b ++ ["*"%char]) ++ ["/"%char]) by by simplify_list_eq.
    repeat (eapply moved_trans; [done|]). done.
  - congruence.
  - lia.
Qed.

(** Separators are skipped without a trace. *)
Lemma next_token_sep gap :
  sep gap → ∀ l rest f, noerr l → inv l → rem l = gap ++ rest → length (rd l) < f →
  ∃ l1 f1, next_token_f f l = next_token_f f1 l1 ∧ length (rd l1) < f1 ∧ moved l gap l1 ∧
    errs l1 = errs l ∧ noerr l1 ∧ inv l1 ∧ length (rd l1) ≤ length (rd l).
Proof.
  induction 1 as [|c s Hc Hs IH|b c s Hb Hc Hs IH|b s Hb Hs IH]; intros l rest f Hn Hi Hr Hf.
  - exists l, f. repeat split_and!; try done; apply moved_refl.
  - destruct (next_char_fwd l c Hn) as (l1 & Hn1' & Hm1 & He1 & Hn1 & Hi1 & Hl1).
    { by eapply rem_last. }
    destruct (IH l1 rest f) as (l2 & f2 & H1 & H2 & H3 & H4 & H5 & H6 & H7); try done.
    { by eapply moved_rem. } { lia. }
    exists l2, f2. repeat split_and!; try done; [|change (c :: s) with ([c] ++ s); by eapply moved_trans|congruence|lia].
    rewrite <- H1. destruct (next_token_ws f l c l1) as [->|]; try done; [|lia].
    by eapply rem_last.
  - destruct f as [|f]; [lia|].
    destruct (next_token_line f l b (c :: s ++ rest)) as (l1 & H1 & Hm1 & He1 & Hn1 & Hi1 & Hl1); try done.
    { rewrite Hr. by simplify_list_eq. }
    { intros ? [= <-]. done. }
    destruct (IH l1 rest f) as (l2 & f2 & H2 & H3 & H4 & H5 & H6 & H7 & H8); try done.
    { eapply moved_rem; [done|]. rewrite Hr. by simplify_list_eq. } { lia. }
    exists l2, f2. repeat split_and!; try done; [by rewrite H1| |congruence|lia].
    replace ("/"%char :: "/"%char :: b ++ c :: s) with (("/"%char :: "/"%char :: b) ++ c :: s) by done.
    by eapply moved_trans.
  - destruct f as [|f]; [lia|].
    destruct (next_token_block f l b (s ++ rest)) as (l1 & H1 & Hm1 & He1 & Hn1 & Hi1 & Hl1); try done.
    { rewrite Hr. by simplify_list_eq. }
    destruct (IH l1 rest f) as (l2 & f2 & H2 & H3 & H4 & H5 & H6 & H7 & H8); try done.
    { eapply moved_rem; [done|]. rewrite Hr. by simplify_list_eq. } { lia. }
    exists l2, f2. repeat split_and!; try done; [by rewrite H1| |congruence|lia].
    replace ("/"%char :: "*"%char :: b ++ "*"%char :: "/"%char :: s)
      with (("/"%char :: "*"%char :: b ++ ["*"; "/"]%char) ++ s) by by simplify_list_eq.
    by eapply moved_trans.
Qed.

Lemma next_token_end f l : inv l → rem l = [] → 0 < f →
  next_token_f f l = (Rok (Token (span_new (lpos l)) TkEnd), l) ∧ last l = None.
Proof.
  intros Hi Hr Hf. unfold rem in Hr. destruct l as [r q [c|] n]; [done|].
  unfold inv in Hi. simpl in *. rewrite Hi by done.
  destruct f as [|f]; [lia|]. by cbn.
Qed.

(** A token after a separator. *)
Lemma lex_token l gap k t rest :
  noerr l → inv l → rem l = gap ++ t ++ rest → sep gap → token_text k t → not_extended k t rest →
  ∃ l1 l2, lex_next_token l = (Rok (Token (Span (lpos l1) (adv (lpos l1) (tail t))) k), l2) ∧
    moved l gap l1 ∧ moved l1 t l2 ∧ errs l2 = errs l ∧ noerr l2 ∧ inv l2.
Proof.
  intros Hn Hi Hr Hs Ht Hx. unfold lex_next_token.
  destruct (next_token_sep gap Hs l (t ++ rest) (S (length (rd l))))
    as (l1 & f1 & -> & Hf1 & Hm1 & He1 & Hn1 & Hi1 & _); try done; [lia|].
  destruct (next_token_text f1 l1 k t rest) as (l2 & -> & Hm2 & He2 & Hn2 & Hi2 & _); try done.
  { by eapply moved_rem. } { lia. }
  exists l1, l2. repeat split_and!; try done. congruence.
Qed.

(** The end after a trailer. *)
Lemma lex_end l :
  noerr l → inv l → trailer (rem l) →
  ∃ l', lex_next_token l = (Rok (Token (span_new (lpos l')) TkEnd), l') ∧
    moved l (rem l) l' ∧ errs l' = errs l ∧ noerr l' ∧ inv l' ∧ last l' = None.
Proof.
  intros Hn Hi Ht. unfold lex_next_token. inversion Ht as [s Hs Heq|s b Hs Hb Heq]; subst.
  - destruct (next_token_sep (rem l) Hs l [] (S (length (rd l))))
      as (l1 & f1 & -> & Hf1 & Hm1 & He1 & Hn1 & Hi1 & _); try done; [by simplify_list_eq|lia|].
    assert (rem l1 = []). { eapply moved_rem; [done|]. by simplify_list_eq. }
    destruct (next_token_end f1 l1) as [-> ?]; try done; [lia|].
    exists l1. by repeat split_and!.
  - destruct (next_token_sep s Hs l ("/"%char :: "/"%char :: b) (S (length (rd l))))
      as (l1 & f1 & -> & Hf1 & Hm1 & He1 & Hn1 & Hi1 & _); try done; [lia|].
    destruct f1 as [|f1]; [lia|].
    assert (Hr1 : rem l1 = "/"%char :: "/"%char :: b) by by eapply moved_rem.
    destruct (next_token_line f1 l1 b []) as (l2 & -> & Hm2 & He2 & Hn2 & Hi2 & Hl2); try done.
    { rewrite Hr1. by simplify_list_eq. }
    assert (rem l2 = []). { eapply moved_rem; [done|]. rewrite Hr1. by simplify_list_eq. }
    destruct (next_token_end f1 l2) as [-> ?]; try done; [lia|].
    exists l2. repeat split_and!; try done; [|congruence].
    by eapply moved_trans.
Qed.
