(** Proofs about the lexer. *)
From Coq Require Import Lia ZifyBool ZifyNat ZifyN.
From Verif Require Import Base IrModel LexerModel LexerSpec.

Ltac Zify.zify_post_hook ::= Z.div_mod_to_equations.

(** ** Remaining text and positions *)

Definition rem (l : lex) : list ascii :=
  match last l with Some c => c :: bytes_of (rd l) | None => [] end.
Definition adv (q : pos) (cs : list ascii) : pos := foldl (λ p c, pos_update c p) q cs.

Lemma adv_app q a b : adv q (a ++ b) = adv (adv q a) b.
Proof. apply foldl_app. Qed.

Record moved (l : lex) (cs : list ascii) (l' : lex) : Prop := {
  mv_rem : rem l = cs ++ rem l';
  mv_pos : lpos l' = adv (lpos l) (take (length cs) (tail (rem l)));
}.

Lemma tail_drop {A} n (l : list A) : tail (drop n l) = drop n (tail l).
Proof. revert l; induction n as [|n IH]; intros [|x l]; simpl; try done.
  rewrite IH. destruct l; simpl; [by rewrite drop_nil|done].
Qed.

Lemma moved_refl l : moved l [] l.
Proof. split; [done|]. by destruct (tail (rem l)). Qed.

Lemma moved_trans l a l1 b l2 : moved l a l1 → moved l1 b l2 → moved l (a ++ b) l2.
Proof.
  intros [H1 H2] [H3 H4]. split; [by rewrite H1, H3, app_assoc|].
  rewrite H4, H2, app_length, <- take_take_drop, adv_app. f_equal. f_equal.
  rewrite <- tail_drop, H1, drop_app. done.
Qed.

(** ** Measure *)
Definition pend (l : lex) : nat :=
  length (rd l) + match last l with Some _ => 1 | None => 0 end.

Lemma bytes_of_length r : length (bytes_of r) ≤ length r.
Proof. induction r as [|[c|] r IH]; simpl; [lia| |]; unfold bytes_of in *; lia. Qed.

Definition noerr (l : lex) : Prop := RErr ∉ rd l.

(** ** next_char *)
Lemma next_char_spec l r l' c :
  last l = Some c → next_char l = (r, l') →
  pend l' < pend l ∧ length (rd l') ≤ length (rd l) ∧ (noerr l → noerr l') ∧
  ((r = Rok tt ∧ moved l [c] l' ∧ errs l' = errs l ∧
    (last l' = None → rd l' = []) ∧ (last l' ≠ None → length (rd l') < length (rd l))) ∨
   (r = Rerr true ∧ moved l [] l' ∧ errs l' = (errs l + 1)%N ∧ last l' = last l ∧ ¬ noerr l)).
Proof.
  intros Hl Hn. unfold next_char in Hn. destruct l as [rd0 q la n]; simpl in *. subst la.
  unfold noerr, pend, rem in *.
  destruct rd0 as [|[c'|] r0]; simplify_eq/=.
  - repeat split_and!; [lia|lia|done|]. left. repeat split_and!; try done.
  - repeat split_and!; [lia|lia|set_solver|]. left.
    repeat split_and!; try done. intros _; lia.
  - repeat split_and!; [lia|lia|set_solver|]. right. repeat split_and!; try done.
    set_solver.
Qed.

(** ** scan *)
Definition stops (p : ascii → bool) (s : list ascii) : Prop :=
  match s with [] => True | c :: _ => p c = false end.

Definition ends_at (q e : pos) (cs : list ascii) : pos :=
  match cs with [] => e | _ :: t => adv q t end.

Lemma scan_spec p e l r l' :
  scan p e l = (r, l') →
  (last l = None → rd l = []) →
  pend l' ≤ pend l ∧ length (rd l') ≤ length (rd l) ∧ (noerr l → noerr l') ∧
  (last l' = None → rd l' = []) ∧
  (∀ c, last l = Some c → p c = true → pend l' < pend l) ∧
  ((∃ cs, r = Rok (cs, ends_at (lpos l) e cs) ∧ moved l cs l' ∧ errs l' = errs l ∧
      Forall (λ c, p c = true) cs ∧ stops p (rem l')) ∨
   (∃ cs, r = Rerr true ∧ moved l cs l' ∧ errs l' = (errs l + 1)%N ∧ ¬ noerr l ∧
      last l' ≠ None ∧ ∃ c, last l = Some c ∧ p c = true)).
Proof.
  unfold scan. destruct l as [rd0 q la n]; simpl.
  revert q la e r l'. induction rd0 as [|ev rd0 IH]; intros q la e r l' Hs Hinv.
  - destruct la as [c|]; simpl in Hs.
    + destruct (p c) eqn:Hp; simplify_eq.
      * unfold pend; simpl. repeat split_and!; [lia|lia|done|done|intros; lia|].
        left. exists [c]. repeat split_and!; try done; by constructor.
      * unfold pend; simpl. repeat split_and!; [lia|lia|done|done|intros ? [= <-]; congruence|].
        left. exists []. repeat split_and!; try done; by constructor.
    + simplify_eq. unfold pend; simpl. repeat split_and!; [lia|lia|done|done|done|].
      left. exists []. repeat split_and!; try done; by constructor.
  - destruct la as [c|]; [|by specialize (Hinv eq_refl)].
    simpl in Hs. destruct (p c) eqn:Hp.
    + destruct ev as [c'|].
      * destruct (scan_ p rd0 (pos_update c' q) (Some c') n q) as [r0 l0] eqn:Hr.
        apply IH in Hr as (H1 & H2 & H3 & H4 & H5 & H6); [|done].
        unfold pend, noerr in *; simpl in *.
        assert (l' = l0) as -> by (destruct r0 as [[??]| | |]; congruence).
        repeat split_and!; [lia|lia|set_solver|done|intros; lia|].
        assert (Hmv : ∀ cs, moved (Lex rd0 (pos_update c' q) (Some c') n) cs l0 →
                       moved (Lex (RByte c' :: rd0) q (Some c) n) (c :: cs) l0).
        { intros cs Hm. change (c :: cs) with ([c] ++ cs). eapply moved_trans; [|exact Hm].
          by split. }
        destruct H6 as [(cs & -> & Hm & He & Hf & Hst)|(cs & -> & Hm & He & Hn & Hl & _)]; simplify_eq.
        -- left. exists (c :: cs). repeat split_and!; try done.
           ++ f_equal. f_equal. destruct cs as [|c0 cs]; [done|]. simpl.
              destruct Hm as [Hr _]. unfold rem in Hr; simpl in Hr. by simplify_eq.
           ++ by apply Hmv.
           ++ by constructor.
        -- right. exists (c :: cs). repeat split_and!; try done; [by apply Hmv|set_solver|eauto].
      * simplify_eq. unfold pend, noerr; simpl.
        repeat split_and!; [lia|lia|set_solver|done|intros; lia|].
        right. exists []. repeat split_and!; try done; [set_solver|eauto].
    + simplify_eq. unfold pend; simpl.
      repeat split_and!; [lia|lia|done|done|intros ? [= <-]; congruence|].
      left. exists []. repeat split_and!; try done; first [apply moved_refl|by constructor].
Qed.

(** Uniqueness of the longest prefix. *)
Lemma longest_unique p a b r s :
  a ++ r = b ++ s → Forall (λ c, p c = true) a → Forall (λ c, p c = true) b →
  stops p r → stops p s → a = b ∧ r = s.
Proof.
  revert b. induction a as [|x a IH]; intros [|y b] Heq Ha Hb Hr Hs; simplify_eq/=; try done.
  - inversion Hb; subst. simpl in Hr. congruence.
  - inversion Ha; subst. simpl in Hs. congruence.
  - inversion Ha; inversion Hb; subst. destruct (IH b ltac:(assumption)) as [-> ->]; done.
Qed.

(** ** Skipping to whitespace *)
Lemma skip_spec {A} l (r : res A) l' :
  log_err_and_skip l = (r, l') → (last l = None → rd l = []) →
  pend l' ≤ pend l ∧ length (rd l') ≤ length (rd l) ∧ (noerr l → noerr l') ∧
  (last l' = None → rd l' = []) ∧
  errs l' = (errs l + 1)%N ∧
  ∃ cs f, r = Rerr f ∧ moved l cs l' ∧ (f = true → ¬ noerr l).
Proof.
  unfold log_err_and_skip, mthen. intros H Hinv.
  destruct (scan _ _ l) as [r0 l0] eqn:Hs.
  apply scan_spec in Hs as (H1 & H2 & H3 & H4 & _ & H5); [|done].
  destruct H5 as [(cs & -> & Hm & He & _)|(cs & -> & Hm & He & Hn & _)]; simplify_eq.
  - destruct l0 as [r0 q0 la0 n0]; simpl in *. repeat split_and!; try done; [congruence|].
    exists cs, false. repeat split_and!; try done. by destruct Hm.
  - repeat split_and!; try done. exists cs, true. by repeat split_and!.
Qed.

(** ** Characters *)
Ltac all_chars c :=
  destruct c as [b0 b1 b2 b3 b4 b5 b6 b7];
  destruct b0, b1, b2, b3, b4, b5, b6, b7.

Lemma eqb_true a b : Ascii.eqb a b = true → a = b.
Proof. apply Ascii.eqb_eq. Qed.
Lemma eqb_false a b : Ascii.eqb a b = false → a ≠ b.
Proof. apply Ascii.eqb_neq. Qed.
Lemma eqb_neq a b : a ≠ b → Ascii.eqb a b = false.
Proof. apply Ascii.eqb_neq. Qed.

Lemma ascii_digit_numeric c : is_ascii_digit c = true → is_numeric c = true.
Proof. unfold is_numeric. by intros ->. Qed.
Lemma numeric_symbol_char c : is_numeric c = true → is_symbol_char c = true.
Proof. unfold is_symbol_char, is_alphanumeric. intros ->. by rewrite orb_true_r. Qed.

(** ** Integers *)
Lemma digits_val_acc ds acc z :
  digits_val ds acc = Some z →
  Forall (λ c, is_ascii_digit c = true) ds ∧
  z = (acc * 10 ^ Z.of_nat (length ds) + dec_val ds)%Z.
Proof.
  revert acc. induction ds as [|c ds IH]; intros acc H; simpl in H.
  - simplify_eq. split; [done|]. simpl. lia.
  - destruct (is_ascii_digit c) eqn:Hd; [|done]. apply IH in H as [H ->].
    split; [by constructor|]. simpl length. rewrite Nat2Z.inj_succ, Z.pow_succ_r by lia.
    simpl. ring.
Qed.
Lemma digits_val_ok ds acc :
  Forall (λ c, is_ascii_digit c = true) ds →
  digits_val ds acc = Some (acc * 10 ^ Z.of_nat (length ds) + dec_val ds)%Z.
Proof.
  revert acc. induction ds as [|c ds IH]; intros acc H.
  - simpl. f_equal. lia.
  - inversion H as [|?? Hc Hds]; subst. cbn [digits_val dec_val]. rewrite Hc, IH by done. f_equal.
    simpl length. rewrite Nat2Z.inj_succ, Z.pow_succ_r by lia. ring.
Qed.

Lemma parse_i64_ok cs z :
  parse_i64 cs = Some z ↔ token_text (TkInt z) cs.
Proof.
  split.
  - unfold parse_i64. destruct cs as [|c l]; [done|].
    destruct (Ascii.eqb c "-") eqn:Hc.
    + apply eqb_true in Hc as ->. destruct l as [|d l]; [done|].
      destruct (digits_val _ _) as [v|] eqn:Hv; [|done]. cbn [mbind option_bind].
      apply digits_val_acc in Hv as [Hd Hv].
      assert (v = dec_val (d :: l)) as -> by lia. clear Hv.
      case_match eqn:Hr; [|done]. intros Hz.
      apply (inj Some) in Hz as <-.
      constructor; [by split|unfold i64; lia].
    + destruct (digits_val _ _) as [v|] eqn:Hv; [|done]. cbn [mbind option_bind].
      apply digits_val_acc in Hv as [Hd Hv].
      assert (v = dec_val (c :: l)) as -> by lia. clear Hv.
      case_match eqn:Hr; [|done]. intros Hz.
      apply (inj Some) in Hz as <-.
      constructor; [by split|unfold i64; lia].
  - intros H. inversion H as [ds [Hne Hd] Hr Hz|ds [Hne Hd] Hr Hz| | | |]; subst.
    + destruct cs as [|c l]; [done|]. unfold parse_i64.
      destruct (Ascii.eqb c "-") eqn:Hc.
      { apply eqb_true in Hc as ->. inversion Hd; subst. done. }
      rewrite digits_val_ok by done. cbn [mbind option_bind].
      replace (0 * 10 ^ Z.of_nat (length (c :: l)) + dec_val (c :: l))%Z
        with (dec_val (c :: l)) in * by lia.
      unfold i64 in Hr. case_match; [done|lia].
    + destruct ds as [|d l]; [done|]. unfold parse_i64. change (Ascii.eqb "-" "-") with true. cbv iota.
      rewrite digits_val_ok by done. cbn [mbind option_bind].
      replace (0 * 10 ^ Z.of_nat (length (d :: l)) + dec_val (d :: l))%Z
        with (dec_val (d :: l)) in * by lia.
      unfold i64 in Hr. case_match; [done|lia].
Qed.

(** ** Keywords *)
Lemma utf8_ascii c : (N_of_ascii c < 128)%N → utf8 c = String c EmptyString.
Proof. unfold utf8. intros H. by replace (N_of_ascii c <? 128)%N with true by lia. Qed.

Lemma utf8s_ascii l :
  Forall (λ c, (N_of_ascii c < 128)%N) l → utf8s l = String.string_of_list_ascii l.
Proof.
  induction 1 as [|c l Hc Hl IH]; [done|]. simpl. by rewrite utf8_ascii, IH.
Qed.

Lemma utf8s_inv l s :
  utf8s l = s → ascii_only s → l = String.list_ascii_of_string s.
Proof.
  unfold ascii_only. intros <-. induction l as [|c l IH]; [done|]. simpl.
  unfold utf8. destruct (N_of_ascii c <? 128)%N eqn:Hc.
  - simpl. inversion 1; subst. f_equal. by apply IH.
  - simpl. inversion 1 as [|?? Hx]; subst. exfalso. clear -Hx.
    rewrite N_ascii_embedding in Hx; lia || idtac.
    pose proof (N_ascii_bounded c). lia.
Qed.

Lemma map_get_elem {A} k (l : list (string * A)) a : map_get k l = Some a → (k, a) ∈ l.
Proof.
  induction l as [|[k' a'] l IH]; simpl; [done|]. destruct (String.eqb k k') eqn:H.
  - apply String.eqb_eq in H as ->. intros [= ->]. by left.
  - intros. right. auto.
Qed.

Lemma KEYWORDS_get s k : map_get s KEYWORDS = Some k ↔ (s, k) ∈ KEYWORDS.
Proof.
  split; [apply map_get_elem|]. unfold KEYWORDS. rewrite !elem_of_cons, elem_of_nil.
  intros H. repeat (destruct H as [[= -> ->]|H]; [reflexivity|]). done.
Qed.
Lemma BINARY_OPS_get s k :
  map_get s KEYWORDS = None ∧ map_get s BINARY_OPS = Some k ↔ (s, k) ∈ BINARY_OPS.
Proof.
  split; [intros [_ H]; by apply map_get_elem|].
  unfold BINARY_OPS. rewrite !elem_of_cons, elem_of_nil.
  intros H. repeat (destruct H as [[= -> ->]|H]; [split; reflexivity|]). done.
Qed.

Definition kw_shape (s : string) : bool :=
  match String.list_ascii_of_string s with
  | [] => false
  | c :: _ =>
      is_alphabetic c &&
      forallb (λ c, is_alphanumeric c && (N_of_ascii c <? 128)%N) (String.list_ascii_of_string s)
  end.

Lemma kw_shapes : forallb (λ p, kw_shape p.1) KEYWORDS = true ∧
                  forallb (λ p, kw_shape p.1) BINARY_OPS = true.
Proof. split; vm_compute; reflexivity. Qed.

Lemma kw_shape_spec s :
  kw_shape s = true →
  ascii_only s ∧
  ∃ c t, String.list_ascii_of_string s = c :: t ∧ is_alphabetic c = true ∧
    Forall (λ c, is_alphanumeric c = true) (c :: t).
Proof.
  unfold kw_shape, ascii_only. destruct (String.list_ascii_of_string s) as [|c t]; [done|].
  intros [H1 H2]%andb_true_iff. rewrite forallb_forall in H2. split.
  - apply list.Forall_forall. intros x Hx. apply elem_of_list_In, H2, andb_true_iff in Hx. lia.
  - exists c, t. repeat split_and!; try done.
    apply list.Forall_forall. intros x Hx. apply elem_of_list_In, H2, andb_true_iff in Hx. tauto.
Qed.

Lemma kw_shape_kw s k : (s, k) ∈ KEYWORDS → kw_shape s = true.
Proof.
  intros H. destruct kw_shapes as [H1 _]. rewrite forallb_forall in H1.
  apply elem_of_list_In in H. by apply H1 in H.
Qed.
Lemma kw_shape_op s k : (s, k) ∈ BINARY_OPS → kw_shape s = true.
Proof.
  intros H. destruct kw_shapes as [_ H1]. rewrite forallb_forall in H1.
  apply elem_of_list_In in H. by apply H1 in H.
Qed.

(** ** Handlers, from results to texts *)

Definition inv (l : lex) : Prop := last l = None → rd l = [].

Definition read_tok (l : lex) (r : res token) (l' : lex) : Prop :=
  ∃ k c t, r = Rok (Token (Span (lpos l) (adv (lpos l) t)) k) ∧ moved l (c :: t) l' ∧
    errs l' = errs l ∧ token_text k (c :: t) ∧ not_extended k (c :: t) (rem l').

Definition failed (l : lex) (r : res token) (l' : lex) : Prop :=
  ∃ cs f, r = Rerr f ∧ moved l cs l' ∧ errs l' = (errs l + 1)%N ∧ (f = true → ¬ noerr l).

Record progress (l : lex) (l' : lex) : Prop := {
  pr_pend : pend l' < pend l;
  pr_len : length (rd l') ≤ length (rd l);
  pr_noerr : noerr l → noerr l';
  pr_inv : inv l';
}.

Record progress0 (l : lex) (l' : lex) : Prop := {
  pr0_pend : pend l' ≤ pend l;
  pr0_len : length (rd l') ≤ length (rd l);
  pr0_noerr : noerr l → noerr l';
  pr0_inv : inv l';
}.

Lemma progress_l l l1 l2 : progress l l1 → progress0 l1 l2 → progress l l2.
Proof. intros [????] [????]. split; auto; lia. Qed.
Lemma progress_r l l1 l2 : progress0 l l1 → progress l1 l2 → progress l l2.
Proof. intros [????] [????]. split; auto; lia. Qed.
Lemma progress_0 l l1 : progress l l1 → progress0 l l1.
Proof. intros [????]. split; auto; lia. Qed.
Lemma progress0_trans l l1 l2 : progress0 l l1 → progress0 l1 l2 → progress0 l l2.
Proof. intros [????] [????]. split; auto; lia. Qed.

Lemma next_char_spec' l r l' c :
  last l = Some c → next_char l = (r, l') →
  progress l l' ∧
  ((r = Rok tt ∧ moved l [c] l' ∧ errs l' = errs l ∧
    (last l' ≠ None → length (rd l') < length (rd l))) ∨
   (r = Rerr true ∧ moved l [] l' ∧ errs l' = (errs l + 1)%N ∧ ¬ noerr l)).
Proof.
  intros Hl Hn. destruct (next_char_spec _ _ _ _ Hl Hn) as (H1 & H2 & H3 & H4).
  destruct H4 as [(-> & H5 & H6 & H7 & H8)|(-> & H5 & H6 & H7 & H8)].
  - split; [by split|]. left. done.
  - split; [split; try done|]. { intros H. congruence. } right. done.
Qed.

Lemma scan_spec' p e l r l' :
  scan p e l = (r, l') → inv l →
  progress0 l l' ∧
  (∀ c, last l = Some c → p c = true → progress l l') ∧
  ((∃ cs, r = Rok (cs, ends_at (lpos l) e cs) ∧ moved l cs l' ∧ errs l' = errs l ∧
      Forall (λ c, p c = true) cs ∧ stops p (rem l')) ∨
   (∃ cs, r = Rerr true ∧ moved l cs l' ∧ errs l' = (errs l + 1)%N ∧ ¬ noerr l ∧ progress l l')).
Proof.
  intros Hs Hi. apply scan_spec in Hs as (H1 & H2 & H3 & H4 & H5 & H6); [|done].
  split; [by split|]. split; [intros c Hc Hp; split; eauto|].
  destruct H6 as [H6|(cs & ? & ? & ? & ? & ? & c & Hc & Hpc)]; [by left|right].
  exists cs. repeat split_and!; try done. split; eauto.
Qed.

Lemma skip_spec' {A} l (r : res A) l' :
  log_err_and_skip l = (r, l') → inv l →
  progress0 l l' ∧ errs l' = (errs l + 1)%N ∧
  ∃ cs f, r = Rerr f ∧ moved l cs l' ∧ (f = true → ¬ noerr l).
Proof.
  intros Hs Hi. apply skip_spec in Hs as (H1 & H2 & H3 & H4 & H5 & H6); [|done].
  split; [by split|]. by split.
Qed.

Lemma failed_after l l1 (r : res token) l' cs0 :
  moved l cs0 l1 → (noerr l → noerr l1) → errs l1 = errs l → inv l1 →
  log_err_and_skip l1 = (r, l') →
  progress0 l1 l' ∧ failed l r l'.
Proof.
  intros Hm Hn He Hi Hs. apply skip_spec' in Hs as (H1 & H2 & cs & f & -> & H3 & H4); [|done].
  split; [done|]. exists (cs0 ++ cs), f. repeat split_and!; try done.
  - by eapply moved_trans.
  - by rewrite H2, He.
  - intros Hf Hnl. apply H4; auto.
Qed.

Lemma last_rem l c : last l = Some c → rem l = c :: bytes_of (rd l).
Proof. unfold rem. by intros ->. Qed.
Lemma rem_last l c s : rem l = c :: s → last l = Some c.
Proof. unfold rem. destruct (last l); congruence. Qed.

Lemma moved_adv l c t l' : moved l (c :: t) l' → ∀ q, adv q t = adv q (take (length t) (tail (rem l))).
Proof. intros [H _] q. rewrite H. simpl. by rewrite take_app. Qed.

Lemma ends_at_adv l c l1 cs s :
  moved l [c] l1 → rem l1 = cs ++ s → ends_at (lpos l1) (lpos l) cs = adv (lpos l) cs.
Proof.
  intros [H1 H2] H3. destruct cs as [|d cs]; [done|]. simpl.
  rewrite H2, H1, H3. simpl. by destruct (cs ++ s).
Qed.

Lemma handle_integer_spec l c r l' :
  last l = Some c → inv l → is_numeric c = true ∨ c = "-"%char →
  handle_integer c l = (r, l') →
  progress l l' ∧ (read_tok l r l' ∨ failed l r l').
Proof.
  intros Hl Hi Hc. unfold handle_integer, mthen, mget, mok.
  destruct (next_char l) as [r1 l1] eqn:H1.
  apply next_char_spec' with (c := c) in H1 as [Hp1 H1]; [|done].
  destruct H1 as [(-> & Hm1 & He1 & _)|(-> & Hm1 & He1 & Hn1)].
   2: { intros [= <- <-]. split; [done|]. right. exists [], true. done. }
  destruct (scan _ _ l1) as [r2 l2] eqn:H2.
  apply scan_spec' in H2 as (Hp2 & _ & H2); [|apply Hp1].
  destruct H2 as [(cs & -> & Hm2 & He2 & Hcs & Hst)|(cs & -> & Hm2 & He2 & Hn2 & _)].
   2: { intros [= <- <-]. split; [by eapply progress_l|]. right. exists ([c] ++ cs), true.
    repeat split_and!; try done; [by eapply moved_trans|congruence|].
    intros _ Hn. apply Hn2. by apply Hp1. }
  assert (Hm : moved l (c :: cs) l2) by (change (c :: cs) with ([c] ++ cs); by eapply moved_trans).
  destruct (parse_i64 (c :: cs)) as [z|] eqn:Hz.
  - intros [= <- <-]. split; [by eapply progress_l|]. left.
    exists (TkInt z), c, cs. repeat split_and!; try done.
    + do 3 f_equal. eapply ends_at_adv; [done|apply Hm2].
    + congruence.
    + by apply parse_i64_ok.
  - intros Hs. eapply failed_after in Hs as [Hp3 Hf]; [|exact Hm|..].
    + split; [|by right]. eapply progress_l; [by eapply progress_l|done].
    + intros. apply Hp2, Hp1. done.
    + congruence.
    + apply Hp2.
Qed.

Lemma handle_keyword_spec l c r l' :
  last l = Some c → inv l → is_alphabetic c = true →
  handle_keyword l = (r, l') →
  progress l l' ∧ (read_tok l r l' ∨ failed l r l').
Proof.
  intros Hl Hi Hc. unfold handle_keyword, mthen, mget, mok.
  destruct (scan _ _ l) as [r2 l2] eqn:H2.
  apply scan_spec' in H2 as (_ & Hp2 & H2); [|done].
  assert (is_alphanumeric c = true) as Hac by (unfold is_alphanumeric; by rewrite Hc).
  specialize (Hp2 _ Hl Hac).
  destruct H2 as [(cs & -> & Hm2 & He2 & Hcs & Hst)|(cs & -> & Hm2 & He2 & Hn2 & _)].
   2: { intros [= <- <-]. split; [done|]. right. exists cs, true. done. }
  destruct cs as [|c' t].
  { destruct Hm2 as [Hr _]. simpl in Hr. rewrite (last_rem _ _ Hl) in Hr. rewrite <- Hr in Hst.
    simpl in Hst. congruence. }
  assert (Hsh : ∀ s, kw_shape s = true → utf8s (c' :: t) = s →
             c' :: t = String.list_ascii_of_string s).
  { intros s Hs Hu. apply utf8s_inv; [done|]. by apply kw_shape_spec. }
  destruct (map_get _ KEYWORDS) as [k|] eqn:Hk.
  { apply KEYWORDS_get in Hk. intros [= <- <-]. split; [done|]. left.
    exists (TkKeyword k), c', t. repeat split_and!; try done.
    rewrite (Hsh _ (kw_shape_kw _ _ Hk) eq_refl). by constructor. }
  destruct (map_get _ BINARY_OPS) as [k|] eqn:Hk2.
  { pose proof (conj Hk Hk2) as Hk3. apply BINARY_OPS_get in Hk3.
    intros [= <- <-]. split; [done|]. left.
    exists (TkBinaryOp k), c', t. repeat split_and!; try done.
    rewrite (Hsh _ (kw_shape_op _ _ Hk3) eq_refl). by constructor. }
  intros Hs. eapply failed_after in Hs as [Hp3 Hf]; [|exact Hm2|..]; try done.
  - split; [by eapply progress_l|by right].
  - apply Hp2.
  - apply Hp2.
Qed.

Lemma handle_symbol_spec l c r l' :
  last l = Some c → inv l → c = "@"%char ∨ c = "%"%char →
  handle_symbol c l = (r, l') →
  progress l l' ∧ (read_tok l r l' ∨ failed l r l').
Proof.
  intros Hl Hi Hc. unfold handle_symbol. unfold mthen at 1. simpl. unfold mthen at 1.
  destruct (next_char l) as [r1 l1] eqn:H1.
  apply next_char_spec' with (c := c) in H1 as [Hp1 H1]; [|done].
  destruct H1 as [(-> & Hm1 & He1 & _)|(-> & Hm1 & He1 & Hn1)].
   2: { intros [= <- <-]. split; [done|]. right. exists [], true. done. }
  unfold mthen at 1. simpl. unfold mthen at 1.
  set (m := match last l1 with Some _ => _ | None => _ end).
  destruct (m l1) as [r2 l2] eqn:H2. intros Hfin.
  (* what the middle part does *)
  assert (Hmid : progress0 l1 l2 ∧
     ((∃ cs, r2 = Rok (cs, adv (lpos l) cs) ∧ moved l1 cs l2 ∧ errs l2 = errs l1 ∧
          (cs = [] ∨ symbol_text (c :: cs) ∧
            not_extended (TkSymbol (utf8s (c :: cs))) (c :: cs) (rem l2))) ∨
      (∃ cs f, r2 = Rerr f ∧ moved l1 cs l2 ∧ errs l2 = (errs l1 + 1)%N ∧ (f = true → ¬ noerr l1)))).
  { assert (Hsc : scan is_symbol_char (lpos l) l1 = (r2, l2) →
       (∀ d, last l1 = Some d → is_numeric d = false) →
       progress0 l1 l2 ∧
     ((∃ cs, r2 = Rok (cs, adv (lpos l) cs) ∧ moved l1 cs l2 ∧ errs l2 = errs l1 ∧
          (cs = [] ∨ symbol_text (c :: cs) ∧
            not_extended (TkSymbol (utf8s (c :: cs))) (c :: cs) (rem l2))) ∨
      (∃ cs f, r2 = Rerr f ∧ moved l1 cs l2 ∧ errs l2 = (errs l1 + 1)%N ∧ (f = true → ¬ noerr l1)))).
    { intros Hs Hd. apply scan_spec' in Hs as (Hp & _ & Hs); [|apply Hp1]. split; [done|].
      destruct Hs as [(cs & -> & Hm2 & He2 & Hcs & Hst)|(cs & -> & Hm2 & He2 & Hn2 & _)].
      - left. exists cs. repeat split_and!; try done.
        { do 2 f_equal. eapply ends_at_adv; [done|apply Hm2]. }
        destruct cs as [|d cs]; [by left|right].
        assert (last l1 = Some d) as Hd1 by (eapply rem_last, Hm2). specialize (Hd _ Hd1).
        split; [by constructor|]. unfold not_extended, stops in *.
        destruct (rem l2); [done|]. simpl. by rewrite Hd.
      - right. exists cs, true. done. }
    unfold m in H2. destruct (last l1) as [d|] eqn:Hl1; [|by apply Hsc].
    destruct (is_numeric d) eqn:Hd; [|apply Hsc; [done|congruence]].
    clear Hsc. destruct (Ascii.eqb c "@") eqn:Hat.
    { apply skip_spec' in H2 as (Hp & He & cs & f & -> & Hm2 & Hn); [|apply Hp1].
      split; [done|]. right. eauto 10. }
    assert (c = "%"%char) as ->.
    { apply eqb_false in Hat. destruct Hc; congruence. }
    unfold mthen in H2. destruct (next_char l1) as [r3 l3] eqn:H3.
    apply next_char_spec' with (c := d) in H3 as [Hp3 H3]; [|done].
    destruct H3 as [(-> & Hm3 & He3 & _)|(-> & Hm3 & He3 & Hn3)].
     2: { simplify_eq. split; [by apply progress_0|]. right. exists [], true. done. }
    destruct (Ascii.eqb d "0") eqn:Hd0.
    { apply eqb_true in Hd0 as ->. unfold mok in H2. simplify_eq.
      split; [by apply progress_0|]. left. exists ["0"%char].
      repeat split_and!; try done.
      - do 2 f_equal. destruct Hm1 as [Hr1 Hq1]. rewrite Hq1, Hr1.
        rewrite (last_rem _ _ Hl1). done.
      - right. split; [constructor|]. unfold not_extended. by destruct (rem l2). }
    destruct (scan is_numeric (lpos l1) l3) as [r4 l4] eqn:H4.
    apply scan_spec' in H4 as (Hp4 & _ & H4); [|apply Hp3].
    destruct H4 as [(cs & -> & Hm4 & He4 & Hcs & Hst)|(cs & -> & Hm4 & He4 & Hn4 & _)].
    - unfold mok in H2. simplify_eq. split; [by eapply progress_0, progress_l|].
      left. exists (d :: cs). repeat split_and!; try done.
      + do 2 f_equal. rewrite (ends_at_adv l1 d _ _ _ Hm3 (mv_rem _ _ _ Hm4)).
        destruct Hm1 as [Hr1 Hq1]. rewrite Hq1, Hr1, (last_rem _ _ Hl1). done.
      + change (d :: cs) with ([d] ++ cs). by eapply moved_trans.
      + congruence.
      + right. split; [constructor; [done|by apply eqb_false|done]|].
        unfold not_extended, stops in *. destruct (rem l2); [done|]. simpl.
        by rewrite Hd, Hd0.
    - simplify_eq. split; [by eapply progress_0, progress_l|]. right.
      exists ([d] ++ cs), true. repeat split_and!; try done; [by eapply moved_trans|congruence|].
      intros _ Hn. apply Hn4. by apply Hp3. }
  destruct Hmid as [Hp2 [(cs & -> & Hm2 & He2 & Hcs)|(cs & f & -> & Hm2 & He2 & Hn2)]].
  - assert (Hm : moved l (c :: cs) l2) by (change (c :: cs) with ([c] ++ cs); by eapply moved_trans).
    destruct cs as [|d cs].
    + eapply failed_after in Hfin as [Hp3 Hf]; [|exact Hm|..].
      * split; [|by right]. eapply progress_l; [by eapply progress_l|done].
      * intros. apply Hp2, Hp1. done.
      * congruence.
      * apply Hp2.
    + unfold mok in Hfin. simplify_eq. split; [by eapply progress_l|]. left.
      destruct Hcs as [?|[Hcs Hne]]; [done|].
      exists (TkSymbol (utf8s (c :: d :: cs))), c, (d :: cs). repeat split_and!; try done.
      * congruence.
      * by constructor.
  - simplify_eq. split; [by eapply progress_l|]. right. exists ([c] ++ cs), f.
    repeat split_and!; try done; [by eapply moved_trans|congruence|].
    intros Hf Hn. apply Hn2; [done|]. by apply Hp1.
Qed.

(** ** Comments *)
Lemma no_close_nil : no_close [].
Proof. intros (x & y & H). by destruct x. Qed.
Lemma no_close_one c : no_close [c].
Proof. intros (x & y & H). destruct x as [|? [|]]; simplify_eq/=. Qed.
Lemma no_close_cons c s :
  no_close s → (c = "*"%char → head s ≠ Some "/"%char) → no_close (c :: s).
Proof.
  intros Hs Hc (x & y & H). destruct x as [|c' x]; simplify_eq/=.
  - by apply Hc.
  - apply Hs. by exists x, y.
Qed.
Lemma no_close_tail c s : no_close (c :: s) → no_close s.
Proof. intros H (x & y & ->). apply H. by exists (c :: x), y. Qed.

Lemma no_close_app_r a b : no_close (a ++ b) → no_close b.
Proof. induction a as [|x a IH]; [done|]. intros H. simpl in H. by apply no_close_tail, IH in H. Qed.

Definition star_pre (star : bool) : list ascii := if star then ["*"%char] else [].

Lemma block_loop_spec star l r l' :
  block_loop star (rd l) (lpos l) (last l) (errs l) = (r, l') → inv l →
  progress0 l l' ∧
  ((∃ cs, r = Rok tt ∧ moved l cs l' ∧ errs l' = errs l ∧
      (last l' = None ∨
       last l' = Some "/"%char ∧
       ∃ b, star_pre star ++ cs = b ++ ["*"%char] ∧ no_close (star_pre star ++ cs))) ∨
   (∃ cs, r = Rerr true ∧ moved l cs l' ∧ errs l' = (errs l + 1)%N ∧ ¬ noerr l)).
Proof.
  destruct l as [rd0 q la n]; simpl.
  revert star q la r l'. induction rd0 as [|ev rd0 IH]; intros star q la r l' Hs Hinv.
  - destruct la as [c|]; simpl in Hs.
    + destruct (star && Ascii.eqb c "/") eqn:Hp; simplify_eq.
      * split; [by split|]. apply andb_true_iff in Hp as [-> ->%eqb_true].
        left. exists []. repeat split_and!; try done. right. split; [done|].
        exists []. split; [done|apply no_close_one].
      * split. { split; unfold pend, noerr, inv; simpl; done || lia. }
        left. exists [c]. repeat split_and!; try done. by left.
    + simplify_eq. split; [by split|]. left. exists []. repeat split_and!; try done. by left.
  - destruct la as [c|]; [|by specialize (Hinv eq_refl)].
    simpl in Hs. destruct (star && Ascii.eqb c "/") eqn:Hp; simplify_eq.
    { split; [by split|]. apply andb_true_iff in Hp as [-> ->%eqb_true].
      left. exists []. repeat split_and!; try done.
      right. split; [done|]. exists []. split; [done|apply no_close_one]. }
    destruct ev as [c'|].
    + apply IH in Hs as [[H1 H2 H3 H4] H5]; [|done].
      split. { split; unfold pend, noerr, inv in *; simpl in *; first [lia|done|set_solver]. }
      assert (Hmv : ∀ cs, moved (Lex rd0 (pos_update c' q) (Some c') n) cs l' →
                     moved (Lex (RByte c' :: rd0) q (Some c) n) (c :: cs) l').
      { intros cs Hm. change (c :: cs) with ([c] ++ cs). eapply moved_trans; [|exact Hm].
        by split. }
      destruct H5 as [(cs & -> & Hm & He & Hcs)|(cs & -> & Hm & He & Hn)].
      * left. exists (c :: cs). repeat split_and!; try done; [by apply Hmv|].
        destruct Hcs as [?|(Hl & b & Hb & Hnc)]; [by left|right]. split; [done|].
        destruct (Ascii.eqb c "*") eqn:Hst; simpl in *.
        -- apply eqb_true in Hst as ->. exists (star_pre star ++ b).
           rewrite <- app_assoc, <- Hb. split; [done|].
           destruct star; [|done]. simpl. apply no_close_cons; [done|]. by intros _.
        -- exists (star_pre star ++ c :: b). rewrite <- app_assoc, Hb. split; [done|].
           rewrite <- Hb. apply eqb_false in Hst.
           assert (no_close (c :: cs)) as Hcc by (apply no_close_cons; [done|congruence]).
           destruct star; [|done]. simpl. apply no_close_cons; [done|]. intros _.
           simpl in Hp. apply eqb_false in Hp. simpl. congruence.
      * right. exists (c :: cs). repeat split_and!; try done; [by apply Hmv|].
        unfold noerr in *; set_solver.
    + simplify_eq. split. { split; unfold pend, noerr, inv in *; simpl in *; first [lia|done|set_solver]. }
      right. exists []. repeat split_and!; try done. unfold noerr; set_solver.
Qed.

Inductive comment (l1 : lex) : list ascii → Prop :=
  | comment_block b : no_close (b ++ ["*"%char]) →
      comment l1 ("/"%char :: "*"%char :: b ++ ["*"; "/"]%char)
  | comment_line b : no_line_end b →
      (rem l1 = [] ∨ ∃ c s, rem l1 = c :: s ∧ (c = "013"%char ∨ c = "010"%char)) →
      comment l1 ("/"%char :: "/"%char :: b).

Lemma failed_moved l a l1 r l' :
  moved l a l1 → (noerr l → noerr l1) → errs l1 = errs l → failed l1 r l' → failed l r l'.
Proof.
  intros Hm Hn He (cs & f & -> & Hm' & He' & Hf). exists (a ++ cs), f.
  repeat split_and!; try done; [by eapply moved_trans|congruence|]. intros H Hn0. by apply (Hf H), Hn.
Qed.

Lemma handle_comment_spec next l r l' :
  last l = Some "/"%char → inv l → handle_comment next l = (r, l') →
  (progress l l' ∧ failed l r l') ∨
  (∃ l1 cs, next l1 = (r, l') ∧ progress l l1 ∧ length (rd l1) < length (rd l) ∧
     errs l1 = errs l ∧ moved l cs l1 ∧ comment l1 cs).
Proof.
  intros Hl Hi. unfold handle_comment. unfold mthen at 1.
  destruct (next_char l) as [r1 l1] eqn:H1.
  apply next_char_spec' with (c := "/"%char) in H1 as [Hp1 H1]; [|done].
  destruct H1 as [(-> & Hm1 & He1 & Hlt)|(-> & Hm1 & He1 & Hn1)].
  2: { intros [= <- <-]. left. split; [done|]. exists [], true. done. }
  unfold mthen at 1. simpl.
  assert (Hskip : log_err_and_skip l1 = (r, l') →
    progress l l' ∧ failed l r l').
  { intros Hs. eapply failed_after in Hs as [Hp3 Hf]; [|exact Hm1|apply Hp1|done|apply Hp1].
    split; [by eapply progress_l|done]. }
  destruct (last l1) as [c|] eqn:Hl1; [|intros Hs; left; by apply Hskip].
  specialize (Hlt ltac:(done)).
  destruct (Ascii.eqb c "*") eqn:Hc.
  { apply eqb_true in Hc as ->. clear Hskip. unfold handle_block_comment. unfold mthen at 1.
    destruct (next_char l1) as [r2 l2] eqn:H2.
    apply next_char_spec' with (c := "*"%char) in H2 as [Hp2 H2]; [|done].
    pose proof (progress_l _ _ _ Hp1 (progress_0 _ _ Hp2)) as Hp12.
    destruct H2 as [(-> & Hm2 & He2 & _)|(-> & Hm2 & He2 & Hn2)].
    2: { intros [= <- <-]. left. split; [done|].
         eapply failed_moved; [exact Hm1|apply Hp1|done|]. exists [], true. done. }
    unfold mthen at 1.
    destruct (block_loop false (rd l2) (lpos l2) (last l2) (errs l2)) as [r3 l3] eqn:H3.
    apply block_loop_spec in H3 as [Hp3 H3]; [|apply Hp2].
    pose proof (progress_l _ _ _ Hp12 Hp3) as Hp123.
    assert (Hm12 : moved l (["/"; "*"]%char) l2)
      by (change (["/"; "*"]%char) with (["/"%char] ++ ["*"%char]); by eapply moved_trans).
    destruct H3 as [(cs & -> & Hm3 & He3 & Hcs)|(cs & -> & Hm3 & He3 & Hn3)].
    2: { intros [= <- <-]. left. split; [done|].
         eapply failed_moved; [exact Hm12|intros; by apply Hp2, Hp1|congruence|].
         exists cs, true. done. }
    assert (Hm123 : moved l (["/"; "*"]%char ++ cs) l3) by by eapply moved_trans.
    unfold mthen at 1. simpl. destruct Hcs as [Hn|(Hsl & b & Hb & Hnc)].
    { rewrite Hn. intros Hs. left.
      eapply failed_after in Hs as [Hp4 Hf]; [|exact Hm123|apply Hp123|congruence|apply Hp123].
      split; [by eapply progress_l|done]. }
    rewrite Hsl. unfold mthen. destruct (next_char l3) as [r4 l4] eqn:H4.
    apply next_char_spec' with (c := "/"%char) in H4 as [Hp4 H4]; [|done].
    pose proof (progress_l _ _ _ Hp123 (progress_0 _ _ Hp4)) as Hp1234.
    destruct H4 as [(-> & Hm4 & He4 & _)|(-> & Hm4 & He4 & Hn4)].
    2: { intros [= <- <-]. left. split; [done|].
         eapply failed_moved; [exact Hm123|apply Hp123|congruence|]. exists [], true. done. }
    intros Hn. right. exists l4, ((["/"; "*"]%char ++ cs) ++ ["/"%char]).
    repeat split_and!; try done.
    - destruct Hp2, Hp3, Hp4. lia.
    - congruence.
    - by eapply moved_trans.
    - simpl in Hb. subst cs. simpl. rewrite <- app_assoc. by apply comment_block. }
  destruct (Ascii.eqb c "/") eqn:Hc2.
  { apply eqb_true in Hc2 as ->. unfold mthen.
    destruct (scan _ _ l1) as [r2 l2] eqn:H2.
    apply scan_spec' in H2 as (Hp2 & _ & H2); [|apply Hp1].
    pose proof (progress_l _ _ _ Hp1 Hp2) as Hp12.
    destruct H2 as [(cs & -> & Hm2 & He2 & Hcs & Hst)|(cs & -> & Hm2 & He2 & Hn2 & _)].
    2: { intros [= <- <-]. left. split; [done|].
         eapply failed_moved; [exact Hm1|apply Hp1|done|]. exists cs, true. done. }
    intros Hn. right. exists l2, (["/"%char] ++ cs). repeat split_and!; try done.
    - destruct Hp2. lia.
    - congruence.
    - by eapply moved_trans.
    - destruct cs as [|d cs].
      { exfalso. destruct Hm2 as [Hr _]. simpl in Hr. rewrite <- Hr, (last_rem _ _ Hl1) in Hst.
        done. }
      assert (d = "/"%char) as ->.
      { destruct Hm2 as [Hr _]. rewrite (last_rem _ _ Hl1) in Hr. simpl in Hr; congruence. }
      simpl. apply comment_line.
      + inversion Hcs as [|?? _ Hcs']; subst. revert Hcs'. apply Forall_impl.
        simpl. intros x [Hx Hy]%andb_true_iff.
        apply negb_true_iff, eqb_false in Hx. apply negb_true_iff, eqb_false in Hy. done.
      + unfold stops in Hst. destruct (rem l2) as [|x s] eqn:Hr; [by left|right].
        exists x, s. split; [done|].
        apply andb_false_iff in Hst as [H|H]; apply negb_false_iff, eqb_true in H; auto. }
  intros Hs. left. by apply Hskip.
Qed.

(** ** next_token *)
Lemma token_text_first k c t : token_text k (c :: t) → is_whitespace c = false.
Proof.
  inversion 1 as [ds [_ Hd]| | ? Hs | s ? Hk | s ? Hk | ? Ho]; subst.
  - inversion Hd as [|?? Hc]; subst. clear -Hc. all_chars c; vm_compute in Hc |- *; congruence.
  - done.
  - inversion Hs as [| |tag ? ? [-> | ->]]; subst; done.
  - apply kw_shape_kw, kw_shape_spec in Hk as [_ (c' & t' & He & Hc & _)].
    rewrite He in *. simplify_eq. clear -Hc. all_chars c; vm_compute in Hc |- *; congruence.
  - apply kw_shape_op, kw_shape_spec in Hk as [_ (c' & t' & He & Hc & _)].
    rewrite He in *. simplify_eq. clear -Hc. all_chars c; vm_compute in Hc |- *; congruence.
  - by destruct Ho.
Qed.

Lemma token_text_slash k c t : token_text k (c :: t) → c ≠ "/"%char.
Proof.
  intros H ->. inversion H as [ds [_ Hd]| | ? Hs | s ? Hk | s ? Hk | ? Ho]; subst.
  - inversion Hd as [|?? Hc]; subst. done.
  - inversion Hs as [| |tag ? ? [-> | ->]]; subst; done.
  - apply kw_shape_kw, kw_shape_spec in Hk as [_ (c' & t' & He & Hc & _)].
    rewrite He in *. simplify_eq.
  - apply kw_shape_op, kw_shape_spec in Hk as [_ (c' & t' & He & Hc & _)].
    rewrite He in *. simplify_eq.
  - destruct Ho as (_ & _ & _ & Ho). apply Ho. set_solver.
Qed.

Lemma sep_app a b : sep a → sep b → sep (a ++ b).
Proof.
  induction 1; intros Hb; simpl; [done|constructor; auto|..].
  - rewrite <- app_assoc. simpl. apply sep_line; auto.
  - rewrite <- app_assoc. simpl. apply sep_block; auto.
Qed.

Lemma sep_app_trailer a b : sep a → trailer b → trailer (a ++ b).
Proof.
  intros Ha [s Hs|s x Hs Hx].
  - apply tr_sep. by apply sep_app.
  - rewrite app_assoc. apply tr_line; [by apply sep_app|done].
Qed.

Lemma sep_ws_list a : Forall (λ c, is_whitespace c = true) a → sep a.
Proof. induction 1; by constructor. Qed.

Definition tok_result (l : lex) (r : res token) (l' : lex) : Prop :=
  (∃ gap l1, sep gap ∧ moved l gap l1 ∧ errs l1 = errs l ∧ read_tok l1 r l') ∨
  (trailer (rem l) ∧ r = Rok (Token (span_new (lpos l')) TkEnd) ∧ moved l (rem l) l' ∧
     last l' = None ∧ errs l' = errs l) ∨
  failed l r l'.

Lemma is_ws_line c : c = "013"%char ∨ c = "010"%char → is_whitespace c = true.
Proof. by intros [->| ->]. Qed.

(** Prefixing a separator (whitespace or a comment) to a call. *)
Lemma tok_result_comment l l1 cs r l' :
  moved l cs l1 → comment l1 cs → errs l1 = errs l → (noerr l → noerr l1) →
  tok_result l1 r l' → tok_result l r l'.
Proof.
  intros Hm Hc He Hn [(gap & l2 & Hg & Hm2 & He2 & Ht)|[(Htr & -> & Hm2 & Hl & He2)|Hf]].
  - left. exists (cs ++ gap), l2. split; [|split; [by eapply moved_trans|split; [congruence|done]]].
    destruct Hc as [b Hb|b Hb Hr].
    + simpl. rewrite <- app_assoc. simpl. by apply sep_block.
    + destruct Ht as (k & c & t & _ & Hm3 & _ & Htt & _).
      destruct Hr as [Hr|(x & s & Hr & Hx)].
      { destruct Hm2 as [Hq _]. destruct Hm3 as [Hq' _]. rewrite Hr, Hq' in Hq.
        by destruct gap. }
      destruct gap as [|g gap].
      { exfalso. destruct Hm2 as [Hq _]. destruct Hm3 as [Hq' _]. rewrite Hr, Hq' in Hq.
        simplify_eq/=. apply token_text_first in Htt. rewrite is_ws_line in Htt; done. }
      assert (g = x) as ->.
      { destruct Hm2 as [Hq _]. rewrite Hr in Hq. simpl in Hq. congruence. }
      simpl. by apply sep_line.
  - right; left. split; [|split; [done|split; [|split; [done|congruence]]]].
    + rewrite (mv_rem _ _ _ Hm). destruct Hc as [b Hb|b Hb Hr].
      * simpl. rewrite <- app_assoc.
        change ("/"%char :: "*"%char :: b ++ ["*"; "/"]%char ++ rem l1) with
          (["/"; "*"]%char ++ b ++ ["*"; "/"]%char ++ rem l1).
        rewrite 2!(assoc_L (++)). apply sep_app_trailer; [|done].
        simpl. by apply (sep_block b []); [done|constructor].
      * destruct Hr as [Hr|(x & s & Hr & Hx)].
        { rewrite Hr, app_nil_r. by apply (tr_line [] b); [constructor|]. }
        rewrite Hr in Htr |- *. simpl.
        inversion Htr as [? Hs|s' b' Hs Hb' Heq]; subst.
        -- apply tr_sep. by apply sep_line.
        -- destruct s' as [|y s'].
           { simpl in Heq. simplify_eq. by destruct Hx. }
           simpl in Heq. simplify_eq.
           change ("/"%char :: "/"%char :: b ++ x :: s' ++ "/"%char :: "/"%char :: b') with
             (("/"%char :: "/"%char :: b) ++ (x :: s') ++ "/"%char :: "/"%char :: b').
           rewrite (assoc_L (++)).
           apply (tr_line (("/"%char :: "/"%char :: b) ++ x :: s')); [|done].
           simpl. by apply sep_line.
    + rewrite (mv_rem _ _ _ Hm). by eapply moved_trans.
  - right; right. by eapply failed_moved.
Qed.

Lemma tok_result_ws l l1 cs r l' :
  moved l cs l1 → sep cs → errs l1 = errs l → (noerr l → noerr l1) →
  tok_result l1 r l' → tok_result l r l'.
Proof.
  intros Hm Hc He Hn [(gap & l2 & Hg & Hm2 & He2 & Ht)|[(Htr & -> & Hm2 & Hl & He2)|Hf]].
  - left. exists (cs ++ gap), l2. split; [by apply sep_app|].
    split; [by eapply moved_trans|split; [congruence|done]].
  - right; left. split; [|split; [done|split; [|split; [done|congruence]]]].
    + rewrite (mv_rem _ _ _ Hm). by apply sep_app_trailer.
    + rewrite (mv_rem _ _ _ Hm). by eapply moved_trans.
  - right; right. by eapply failed_moved.
Qed.

Lemma tok_result_now l r l' : read_tok l r l' ∨ failed l r l' → tok_result l r l'.
Proof.
  intros [H|H]; [left|by right; right]. exists [], l.
  split; [constructor|]. split; [apply moved_refl|done].
Qed.

Lemma next_token_f_spec fuel l r l' :
  next_token_f fuel l = (r, l') → inv l → length (rd l) < fuel →
  progress0 l l' ∧ (last l ≠ None → progress l l') ∧ (last l = None → l' = l) ∧
  tok_result l r l'.
Proof.
  revert l r l'. induction fuel as [|fuel IH]; intros l r l' H Hi Hf; [lia|].
  cbn [next_token_f] in H. unfold mthen at 1 in H.
  destruct (scan is_whitespace pos0 l) as [r0 l0] eqn:Hs.
  assert (Hnone : last l = None → l0 = l).
  { intros Hn. destruct l as [? ? ? ?]; unfold scan in Hs; simpl in *. subst.
    specialize (Hi eq_refl). simpl in Hi. subst. by simplify_eq/=. }
  apply scan_spec' in Hs as (Hp0 & Hp0' & Hs); [|done].
  destruct Hs as [(cs & -> & Hm0 & He0 & Hcs & Hst)|(cs & -> & Hm0 & He0 & Hn0 & Hpr)].
  2: { simplify_eq. split; [done|]. split; [done|]. split; [done|]. right; right.
       exists cs, true. done. }
  assert (Hws : ∀ r l', tok_result l0 r l' → tok_result l r l').
  { intros ??. eapply tok_result_ws; [done|by apply sep_ws_list|done|apply Hp0]. }
  unfold mthen at 1 in H. simpl in H.
  destruct (last l0) as [c|] eqn:Hl0.
  2: { unfold mok in H. simplify_eq. split; [done|]. split.
       - intros Hl. destruct (last l) as [c|] eqn:Hc; [|done].
         destruct (is_whitespace c) eqn:Hw; [by eapply Hp0'|]. exfalso.
         destruct cs as [|d cs].
         + destruct Hm0 as [Hr _]. simpl in Hr. unfold rem in Hr. by rewrite Hc, Hl0 in Hr.
         + inversion Hcs; subst. destruct Hm0 as [Hr _]. rewrite (last_rem _ _ Hc) in Hr.
           simplify_eq/=. congruence.
       - split; [done|]. apply Hws. right; left. unfold rem. rewrite Hl0.
         repeat split_and!; try done. apply tr_sep; constructor. }
  assert (Hsome : last l ≠ None) by (intros Hn; rewrite Hnone in Hl0 by done; congruence).
  assert (Hfin : progress l0 l' ∧ tok_result l0 r l').
  2: { destruct Hfin as [Hp1 Ht]. pose proof (progress_r _ _ _ Hp0 Hp1) as Hp.
       split; [by apply progress_0|]. split; [done|]. split; [done|]. by apply Hws. }
  assert (Hi0 : inv l0) by apply Hp0.
  destruct (Ascii.eqb c "/") eqn:Hc1.
  { apply eqb_true in Hc1 as ->.
    apply handle_comment_spec in H as [[Hp Hfl]|(l1 & cs1 & Hn & Hp & Hlt & He1 & Hm1 & Hcm)]; try done.
    - split; [done|]. by right; right.
    - apply IH in Hn as (Hp1 & _ & _ & Ht); [|apply Hp|destruct Hp0; lia].
      split; [by eapply progress_l|]. eapply tok_result_comment; eauto. apply Hp. }
  destruct (Ascii.eqb c "@" || Ascii.eqb c "%") eqn:Hc2.
  { apply handle_symbol_spec in H as [Hp Hr]; try done.
    - split; [done|]. by apply tok_result_now.
    - apply orb_true_iff in Hc2 as [Hc2|Hc2]; apply eqb_true in Hc2; auto. }
  destruct (is_alphabetic c) eqn:Hc3.
  { apply handle_keyword_spec with (c := c) in H as [Hp Hr]; try done.
    split; [done|]. by apply tok_result_now. }
  destruct (is_numeric c || Ascii.eqb c "-") eqn:Hc4.
  { apply handle_integer_spec in H as [Hp Hr]; try done.
    - split; [done|]. by apply tok_result_now.
    - apply orb_true_iff in Hc4 as [Hc4|Hc4]; [auto|]. apply eqb_true in Hc4; auto. }
  unfold mthen, mok in H. destruct (next_char l0) as [r1 l1] eqn:H1.
  apply next_char_spec' with (c := c) in H1 as [Hp1 H1]; [|done].
  destruct H1 as [(-> & Hm1 & He1 & _)|(-> & Hm1 & He1 & Hn1)]; simplify_eq.
  - split; [done|]. apply tok_result_now. left. exists (TkOther c), c, [].
    repeat split_and!; try done.
    + constructor. apply orb_false_iff in Hc2 as [?%eqb_false ?%eqb_false].
      apply orb_false_iff in Hc4 as [? ?%eqb_false]. apply eqb_false in Hc1.
      unfold stops in Hst. rewrite (last_rem _ _ Hl0) in Hst.
      repeat split_and!; try done. rewrite !not_elem_of_cons. repeat split_and!; try done.
      apply not_elem_of_nil.
    + unfold not_extended. by destruct (rem l').
  - split; [done|]. apply tok_result_now. right. exists [], true. done.
Qed.
