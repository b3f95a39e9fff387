(** Positions of characters in lines, and the rows that are printed. *)
From Coq Require Import Lia ZifyBool ZifyNat ZifyN Ascii.
From Verif Require Import Base TypeModel LexerModel LexerSpec CapiModel CapiSpec CapiProofs SpanModel SpanSpec SpanProofs.

Lemma count_nl_cat a b : count_nl (a ++ b) = (count_nl a + count_nl b)%N.
Proof. induction a as [|c a IH]; [reflexivity|]. simpl. rewrite IH. lia. Qed.
Lemma after_nl_cat a : ∀ b k, after_nl (a ++ b) k = after_nl b (after_nl a k).
Proof. induction a as [|c a IH]; intros b k; [reflexivity|]. simpl. apply IH. Qed.
Lemma count_none l : newline ∉ l → count_nl l = 0%N.
Proof.
  induction l as [|c l IH]; [reflexivity|]. intros [H1 H2]%not_elem_of_cons. simpl. destruct (Ascii.eqb_spec c "010") as [->|_]; [destruct H1; reflexivity|].
  rewrite IH by exact H2. reflexivity.
Qed.
Lemma after_none l : newline ∉ l → ∀ k, after_nl l k = (k + N.of_nat (length l))%N.
Proof.
  induction l as [|c l IH]; intros H k; [simpl; lia|]. apply not_elem_of_cons in H as [H1 H2]. simpl. destruct (Ascii.eqb_spec c "010") as [->|_]; [destruct H1; reflexivity|].
  rewrite IH by exact H2. lia.
Qed.
Lemma count_le l : (count_nl l ≤ N.of_nat (length l))%N.
Proof. induction l as [|c l IH]; [simpl; lia|]. simpl. destruct (Ascii.eqb c "010"); lia. Qed.
Lemma count_zero l : count_nl l = 0%N → newline ∉ l.
Proof.
  induction l as [|c l IH]; [intros _; apply not_elem_of_nil|]. simpl. destruct (Ascii.eqb_spec c "010") as [->|Hn]; [lia|]. intros H.
  apply not_elem_of_cons. split; [intros E; apply Hn; symmetry; exact E|apply IH; lia].
Qed.
Lemma after_le l : ∀ k, (after_nl l k ≤ k + N.of_nat (length l))%N.
Proof. induction l as [|c l IH]; intros k; [simpl; lia|]. simpl. specialize (IH (if Ascii.eqb c "010" then 0 else k + 1)%N). destruct (Ascii.eqb c "010"); lia. Qed.

Lemma line_of text ls : in_lines text ls → ∀ q c r, text = q ++ c :: r → inside_line c r →
  ∃ n x z, ls !! n = Some (x ++ c :: z) ∧ count_nl (q ++ [c]) = N.of_nat n ∧ after_nl (q ++ [c]) 0 = (N.of_nat (length x) + 1)%N.
Proof.
  induction 1 as [|l Hl Hn|l e text ls Hn He H IH]; intros q c r E Hc.
  - destruct q; discriminate E.
  - exists 0, q, r. rewrite E in Hn. apply not_elem_of_app in Hn as [Hn _]. rewrite count_nl_cat, after_nl_cat, (count_none q), (after_none q) by exact Hn.
    destruct Hc as [Hc _]. simpl. destruct (Ascii.eqb_spec c "010") as [->|_]; [destruct Hc; reflexivity|]. rewrite E. split; [reflexivity|]. lia.
  - destruct (decide (length q < length l)) as [Hlt|Hge].
    + assert (El : take (length q) l = q). { transitivity (take (length q) (l ++ e ++ text)); [rewrite take_app_le by lia; reflexivity|]. rewrite E. apply take_app. }
      assert (Ed : ∃ z, drop (length q) l = c :: z).
      { assert (Ed : drop (length q) (l ++ e ++ text) = c :: r) by (rewrite E; apply drop_app). rewrite drop_app_le in Ed by lia.
        destruct (drop (length q) l) as [|d z] eqn:Eq; [|injection Ed as -> _; exists z; reflexivity].
        apply (f_equal length) in Eq. rewrite drop_length in Eq. simpl in Eq. lia. }
      destruct Ed as [z Ed]. assert (E2 : l = q ++ c :: z) by (rewrite <- El, <- Ed at 1; symmetry; apply take_drop).
      exists 0, q, z. rewrite E2 in Hn. apply not_elem_of_app in Hn as [Hq _]. rewrite count_nl_cat, after_nl_cat, (count_none q), (after_none q) by exact Hq.
      destruct Hc as [Hc _]. simpl. destruct (Ascii.eqb_spec c "010") as [->|_]; [destruct Hc; reflexivity|]. rewrite E2. split; [reflexivity|]. lia.
    + assert (Eq : q = l ++ drop (length l) q).
      { rewrite <- (take_drop (length l) q) at 1. f_equal. transitivity (take (length l) (q ++ c :: r)); [rewrite take_app_le by lia; reflexivity|]. rewrite <- E. apply take_app. }
      remember (drop (length l) q) as m eqn:Em. clear Em. subst q. rewrite <- app_assoc in E. apply app_inv_head in E.
      assert (Hm : ∃ m', m = e ++ m' ∧ text = m' ++ c :: r).
      { destruct Hc as [Hc1 Hc2]. destruct He as [[-> _]| ->].
        - destruct m as [|d m]; [injection E as <- _; destruct Hc1; reflexivity|]. injection E as <- E. exists m. split; [reflexivity|exact E].
        - destruct m as [|d m]; [injection E as <- <-; destruct Hc2; split; reflexivity|]. injection E as <- E.
          destruct m as [|d m]; [injection E as <- _; destruct Hc1; reflexivity|]. injection E as <- E. exists m. split; [reflexivity|exact E]. }
      destruct Hm as (m' & -> & Et). destruct (IH _ _ _ Et Hc) as (n & x & z & E1 & E2 & E3). exists (S n), x, z. split; [exact E1|].
      rewrite <- !app_assoc. rewrite !count_nl_cat, !after_nl_cat in *. rewrite (count_none _ Hn), (after_none _ Hn).
      assert (K : count_nl e = 1%N ∧ ∀ k, after_nl e k = 0%N) by (destruct He as [[-> _]| ->]; split; reflexivity).
      destruct K as [K1 K2]. rewrite K1, K2. split; [lia|exact E3].
Qed.
(** The position of a character that belongs to a line. *)
Lemma position_of text ls q c r : in_lines text ls → text = q ++ c :: r → inside_line c r → (N.of_nat (length text) + 1 < two32)%N →
  ∃ n x z, ls !! n = Some (x ++ c :: z) ∧ pos_after (q ++ [c]) = Pos (N.of_nat n + 1) (N.of_nat (length x) + 1).
Proof.
  intros H E Hc Hs. destruct (line_of _ _ H _ _ _ E Hc) as (n & x & z & E1 & E2 & E3). exists n, x, z. split; [exact E1|].
  pose proof (count_le (q ++ [c])) as B1. pose proof (after_le (q ++ [c]) 0) as B2.
  assert (B3 : (N.of_nat (length (q ++ [c])) ≤ N.of_nat (length text))%N) by (rewrite E, !app_length; simpl; lia).
  unfold pos_after. rewrite E2, E3 in *. rewrite !N.mod_small by lia. f_equal. lia.
Qed.
(** Two such characters, one after the other. *)
Lemma positions_of text ls q c r q' c' r' : in_lines text ls → text = q ++ c :: r → text = q' ++ c' :: r' → length q ≤ length q' →
  inside_line c r → inside_line c' r' → (N.of_nat (length text) + 1 < two32)%N →
  ∃ n x z n' x' z', ls !! n = Some (x ++ c :: z) ∧ pos_after (q ++ [c]) = Pos (N.of_nat n + 1) (N.of_nat (length x) + 1) ∧
    ls !! n' = Some (x' ++ c' :: z') ∧ pos_after (q' ++ [c']) = Pos (N.of_nat n' + 1) (N.of_nat (length x') + 1) ∧
    n ≤ n' ∧ (n = n' → length x ≤ length x').
Proof.
  intros H E E' Hq Hc Hc' Hs.
  destruct (line_of _ _ H _ _ _ E Hc) as (n & x & z & E1 & E2 & E3). destruct (line_of _ _ H _ _ _ E' Hc') as (n' & x' & z' & E1' & E2' & E3').
  exists n, x, z, n', x', z'.
  assert (B : ∀ q c r n (x : list ascii), text = q ++ c :: r → count_nl (q ++ [c]) = N.of_nat n → after_nl (q ++ [c]) 0 = (N.of_nat (length x) + 1)%N →
    pos_after (q ++ [c]) = Pos (N.of_nat n + 1) (N.of_nat (length x) + 1)).
  { clear -Hs. intros q c r n x E E2 E3. pose proof (count_le (q ++ [c])) as B1. pose proof (after_le (q ++ [c]) 0) as B2.
    assert (B3 : (N.of_nat (length (q ++ [c])) ≤ N.of_nat (length text))%N) by (rewrite E, !app_length; simpl; lia).
    unfold pos_after. rewrite E2, E3 in *. rewrite !N.mod_small by lia. f_equal. lia. }
  split; [exact E1|]. split; [eapply B; eassumption|]. split; [exact E1'|]. split; [eapply B; eassumption|].
  assert (P : ∃ s, q' ++ [c'] = (q ++ [c]) ++ s).
  { exists (drop (length (q ++ [c])) (q' ++ [c'])). rewrite <- (take_drop (length (q ++ [c])) (q' ++ [c'])) at 1. f_equal.
    transitivity (take (length (q ++ [c])) text).
    - rewrite E'. replace (q' ++ c' :: r') with ((q' ++ [c']) ++ r') by (rewrite <- app_assoc; reflexivity). rewrite (take_app_le (q' ++ [c']) r'); [reflexivity|]. rewrite !app_length. simpl. lia.
    - rewrite E. replace (q ++ c :: r) with ((q ++ [c]) ++ r) by (rewrite <- app_assoc; reflexivity). apply take_app. }
  destruct P as [s P]. rewrite P, count_nl_cat, E2 in E2'. rewrite P, after_nl_cat, E3 in E3'. split; [lia|]. intros <-.
  assert (Hn : newline ∉ s) by (apply count_zero; lia). rewrite (after_none _ Hn) in E3'. lia.
Qed.

(** ** Rows *)
Lemma head_drop {A} (l : list A) n : head (drop n l) = l !! n.
Proof. rewrite <- (Nat.add_0_r n) at 2. rewrite <- lookup_drop. destruct (drop n l); reflexivity. Qed.
Lemma tail_drop {A} (l : list A) n : tail (drop n l) = drop (S n) l.
Proof. replace (S n) with (n + 1) by lia. rewrite <- drop_drop. destruct (drop n l); reflexivity. Qed.
Lemma mid_rows_ok w text ls : in_lines text ls → valid text = true → ∀ k i n, i + k ≤ length ls →
  mid_rows w n (drop i (file_lines text)) k =
  Some (imap (λ j l, padded w (n + N.of_nat j) ++ [" "; "|"; " "; "|"; " "]%char ++ expand l) (take k (drop i ls))).
Proof.
  intros H Hv. induction k as [|k IH]; intros i n Hk; [reflexivity|].
  cbn [mid_rows]. rewrite head_drop, tail_drop. destruct (lookup_lt_is_Some_2 ls i) as [l Hl]; [lia|].
  rewrite (file_lines_at _ _ _ _ H Hv Hl). unfold line_str0. cbn [get_line mbind option_bind]. rewrite IH by lia. cbn [mbind option_bind].
  f_equal. rewrite (drop_S _ _ _ Hl). cbn [take imap]. f_equal.
  - unfold mid_row. replace (n + N.of_nat 0)%N with n by lia. reflexivity.
  - apply imap_ext. intros j l' _. unfold compose. replace (n + 1 + N.of_nat j)%N with (n + N.of_nat (S j))%N by lia. reflexivity.
Qed.
