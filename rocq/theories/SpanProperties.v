(** C62: excerpts of the source in error messages. *)
From Coq Require Import Lia ZifyBool ZifyNat ZifyN Ascii.
From Verif Require Import Base TypeModel LexerModel LexerSpec LexerProperties CapiModel CapiSpec CapiProofs SpanModel SpanSpec SpanProofs SpanPosProofs.

(** Lines and columns: every text has lines, and a character that belongs to a line is at the
    number of that line and its place there. *)
Theorem C62_positions : ∀ text, ∃ ls, in_lines text ls ∧
  ∀ q c r, text = q ++ c :: r → inside_line c r → (N.of_nat (length text) + 1 < two32)%N →
    ∃ n x z, ls !! n = Some (x ++ c :: z) ∧ pos_after (q ++ [c]) = Pos (N.of_nat n + 1) (N.of_nat (length x) + 1).
Proof.
  intros text. destruct (in_lines_total text) as [ls H]. exists ls. split; [exact H|]. intros q c r E Hc Hs. exact (position_of _ _ _ _ _ H E Hc Hs).
Qed.
Print Assumptions C62_positions.

(** A part [c :: y] of one line: the line is shown, and below exactly that part there are
    carets, with tabs as wide as two characters. *)
Theorem C62_one_line : ∀ width path text ls n x c y z,
  in_lines text ls → is_utf8 text → ls !! n = Some (x ++ c :: y ++ z) → is_utf8 (x ++ c :: y) → one_byte c → c ≠ tab_char →
  let w := width (N.of_nat n + 2)%N in
  print_file_info width (FFile path text) (Span (Pos (N.of_nat n + 1) (N.of_nat (length x) + 1)) (Pos (N.of_nat n + 1) (N.of_nat (length x) + N.of_nat (length (c :: y))))) =
  Some [ String.list_ascii_of_string "  at " ++ path ++ [":"%char] ++ show_num (N.of_nat n + 1) ++ [":"%char] ++ show_num (N.of_nat (length x) + 1);
         spaces w ++ String.list_ascii_of_string " |";
         padded w (N.of_nat n + 1) ++ String.list_ascii_of_string " | " ++ expand x ++ expand (c :: y) ++ expand z;
         spaces w ++ String.list_ascii_of_string " | " ++ spaces (length (expand x)) ++ replicate (length (expand (c :: y))) "^"%char;
         [] ].
Proof.
  intros width path text ls n x c y z H Hu Hn Hy Hc Ht w. apply valid_utf8_exact in Hu, Hy.
  pose proof (valid_lines _ _ H Hu) as HF. rewrite Forall_lookup in HF. pose proof (HF _ _ Hn) as Hv. clear HF.
  unfold print_file_info. cbn [sp_start sp_end line col show_file show_pos].
  rewrite (proj2 (N.ltb_lt _ _)) by lia. rewrite (proj2 (N.ltb_lt _ _)) by (simpl length; lia). rewrite N.eqb_refl. cbn [andb].
  unfold print_single. cbn [sp_start sp_end line col].
  replace (N.to_nat (N.of_nat n + 1 - 1)) with n by lia. rewrite (file_lines_at _ _ _ _ H Hu Hn), (line_str2_ok _ _ _ _ Ht Hc Hy Hv).
  cbn [mbind option_bind]. replace (N.of_nat n + 1 + 1)%N with (N.of_nat n + 2)%N by lia. fold w.
  assert (E : length (expand (c :: y)) = S (length (expand y))) by (change (c :: y) with ([c] ++ y); rewrite expand_app, (expand_one _ Ht); reflexivity).
  replace (length (expand x) + 1 - 1) with (length (expand x)) by lia.
  replace (length (expand x) + length (expand (c :: y)) - (length (expand x) + 1) + 1) with (length (expand (c :: y))) by lia.
  replace (expand (x ++ c :: y ++ z)) with (expand x ++ expand (c :: y) ++ expand z) by (rewrite <- !expand_app; reflexivity).
  reflexivity.
Qed.
Print Assumptions C62_one_line.

(** A part of several lines: the first and the last line are shown, with a caret below its
    first and its last character, and in between the lines in the middle, or the first two and
    the last one of them if there are more than four. *)
Theorem C62_several_lines : ∀ width path text ls n x c z n' x' c' z',
  in_lines text ls → is_utf8 text → n < n' →
  ls !! n = Some (x ++ c :: z) → one_byte c → c ≠ tab_char →
  ls !! n' = Some (x' ++ c' :: z') → one_byte c' → c' ≠ tab_char →
  let w := width (N.of_nat n' + 2)%N in
  let middle k := String.list_ascii_of_string " | | " ++ expand k in
  ∃ rows,
  print_file_info width (FFile path text) (Span (Pos (N.of_nat n + 1) (N.of_nat (length x) + 1)) (Pos (N.of_nat n' + 1) (N.of_nat (length x') + 1))) =
  Some ([ String.list_ascii_of_string "  at " ++ path ++ [":"%char] ++ show_num (N.of_nat n + 1) ++ [":"%char] ++ show_num (N.of_nat (length x) + 1);
          spaces w ++ String.list_ascii_of_string " |";
          padded w (N.of_nat n + 1) ++ String.list_ascii_of_string " |   " ++ expand x ++ c :: expand z;
          spaces w ++ String.list_ascii_of_string " |  " ++ replicate (length (expand x) + 1) "_"%char ++ ["^"%char] ] ++ rows ++
        [ padded w (N.of_nat n' + 1) ++ String.list_ascii_of_string " | | " ++ expand x' ++ c' :: expand z';
          spaces w ++ String.list_ascii_of_string " | |" ++ replicate (length (expand x') + 1) "_"%char ++ ["^"%char];
          [] ]) ∧
  (n' - n ≤ 5 → rows = imap (λ j l, padded w (N.of_nat n + 2 + N.of_nat j) ++ middle l) (take (n' - n - 1) (drop (S n) ls))) ∧
  (5 < n' - n → ∃ k1 k2 k3, ls !! S n = Some k1 ∧ ls !! S (S n) = Some k2 ∧ ls !! (n' - 1) = Some k3 ∧
     rows = [ padded w (N.of_nat n + 2) ++ middle k1; padded w (N.of_nat n + 3) ++ middle k2;
              replicate w "."%char ++ String.list_ascii_of_string " | |" ++ padded w (N.of_nat n') ++ middle k3 ]).
Proof.
  intros width path text ls n x c z n' x' c' z' H Hu Hlt Hn Hc Ht Hn' Hc' Ht' w middle. apply valid_utf8_exact in Hu.
  pose proof (valid_lines _ _ H Hu) as HF. rewrite Forall_lookup in HF. pose proof (HF _ _ Hn) as Hv. pose proof (HF _ _ Hn') as Hv'. clear HF.
  pose proof (lookup_lt_Some _ _ _ Hn') as Hlen.
  unfold print_file_info. cbn [sp_start sp_end line col show_file show_pos].
  rewrite (proj2 (N.ltb_lt 0 (N.of_nat (length x) + 1))) by lia. rewrite (proj2 (N.ltb_lt 0 (N.of_nat (length x') + 1))) by lia.
  rewrite (proj2 (N.eqb_neq _ _)) by lia. cbn [andb].
  unfold print_multi. cbn [sp_start sp_end line col]. rewrite (proj2 (N.ltb_ge _ _)) by lia.
  replace (N.to_nat (N.of_nat n + 1 - 1)) with n by lia. rewrite head_drop, (file_lines_at _ _ _ _ H Hu Hn), (line_str1_ok _ _ _ Ht Hc Hv).
  rewrite tail_drop. cbn [mbind option_bind fst snd].
  replace (N.to_nat (N.of_nat n' + 1 - (N.of_nat n + 1)) - 1) with (n' - n - 1) by lia.
  replace (N.of_nat n' + 1 + 1)%N with (N.of_nat n' + 2)%N by lia. fold w. replace (N.of_nat n' + 1 - 1)%N with (N.of_nat n') by lia.
  destruct (Nat.leb_spec (n' - n - 1) 4) as [H4|H4].
  - rewrite (mid_rows_ok w _ _ H Hu) by lia. cbn [mbind option_bind fst snd]. rewrite drop_drop, head_drop. replace (S n + (n' - n - 1)) with n' by lia.
    rewrite (file_lines_at _ _ _ _ H Hu Hn'), (line_str1_ok _ _ _ Ht' Hc' Hv'). cbn [mbind option_bind fst snd].
    eexists. split; [|split; [intros _; reflexivity|intros; lia]]. rewrite <- !app_assoc.
    replace (N.of_nat n + 1 + 1)%N with (N.of_nat n + 2)%N by lia. reflexivity.
  - rewrite (mid_rows_ok w _ _ H Hu) by lia. cbn [mbind option_bind fst snd]. rewrite !drop_drop, lookup_drop.
    destruct (lookup_lt_is_Some_2 ls (S n)) as [k1 K1]; [lia|]. destruct (lookup_lt_is_Some_2 ls (S (S n))) as [k2 K2]; [lia|].
    destruct (lookup_lt_is_Some_2 ls (n' - 1)) as [k3 K3]; [lia|].
    replace (S n + 2 + (n' - n - 1 - 3)) with (n' - 1) by lia. rewrite (file_lines_at _ _ _ _ H Hu K3). unfold line_str0 at 1. cbn [get_line mbind option_bind fst snd].
    rewrite head_drop. replace (S n + (2 + (n' - n - 1 - 2))) with n' by lia. rewrite (file_lines_at _ _ _ _ H Hu Hn'), (line_str1_ok _ _ _ Ht' Hc' Hv'). cbn [mbind option_bind fst snd].
    rewrite (drop_S _ _ _ K1), (drop_S _ _ _ K2). cbn [take imap]. eexists. split; [|split; [intros; lia|intros _; exists k1, k2, k3; split; [exact K1|]; split; [exact K2|]; split; [exact K3|reflexivity]]].
    replace (N.of_nat n + 1 + 1 + N.of_nat 0)%N with (N.of_nat n + 2)%N by lia. unfold compose. replace (N.of_nat n + 1 + 1 + N.of_nat 1)%N with (N.of_nat n + 3)%N by lia. reflexivity.
Qed.
Print Assumptions C62_several_lines.

(** No panic: in a file that is UTF-8, with lines that end with LF or CRLF, for spans between
    characters of one byte, of which none is the CR of a line end. *)
Theorem C62_no_panic : ∀ width path text q c r q' c' r',
  is_utf8 text → (N.of_nat (length text) + 1 < two32)%N →
  text = q ++ c :: r → text = q' ++ c' :: r' → length q ≤ length q' → one_byte c → one_byte c' →
  ¬ (c = return_char ∧ head r = Some newline) → ¬ (c' = return_char ∧ head r' = Some newline) →
  is_Some (print_file_info width (FFile path text) (Span (pos_after (q ++ [c])) (pos_after (q' ++ [c'])))).
Proof.
  intros width path text q c r q' c' r' Hu Hs E E' Hq Hc Hc' Hr Hr'.
  assert (Z : ∀ q, col (pos_after (q ++ [newline])) = 0%N) by (intros q0; unfold pos_after; rewrite after_nl_cat; reflexivity).
  destruct (decide (c = newline)) as [->|Hn]; [unfold print_file_info; cbn [sp_start sp_end]; rewrite Z; eexists; reflexivity|].
  destruct (decide (c' = newline)) as [->|Hn']; [unfold print_file_info; cbn [sp_start sp_end]; rewrite Z, andb_false_r; eexists; reflexivity|].
  destruct (in_lines_total text) as [ls H].
  destruct (positions_of _ _ _ _ _ _ _ _ H E E' Hq (conj Hn Hr) (conj Hn' Hr') Hs) as (n & x & z & n' & x' & z' & E1 & P & E1' & P' & Hle & Hx).
  clear Hs. rewrite P, P'. apply valid_utf8_exact in Hu.
  pose proof (valid_lines _ _ H Hu) as HF. rewrite Forall_lookup in HF. pose proof (HF _ _ E1) as Hv. pose proof (HF _ _ E1') as Hv'. clear HF.
  assert (S1 : ∀ x c z, valid (x ++ c :: z) = true → one_byte c → is_Some (line_str1 (Some (Some (x ++ c :: z))) (N.of_nat (length x) + 1))).
  { clear. intros x c z Hv Hc. unfold line_str1. cbn [get_line mbind option_bind]. pose proof (valid_upto _ _ _ Hv Hc) as H1.
    replace (x ++ c :: z) with ((x ++ [c]) ++ z) in * by (rewrite <- app_assoc; reflexivity).
    replace (N.to_nat (N.of_nat (length x) + 1)) with (length (x ++ [c])) by (rewrite app_length; simpl; lia).
    rewrite (slice_start _ _ H1 Hv). eexists; reflexivity. }
  unfold print_file_info. cbn [sp_start sp_end line col].
  rewrite (proj2 (N.ltb_lt 0 (N.of_nat (length x) + 1))) by lia. rewrite (proj2 (N.ltb_lt 0 (N.of_nat (length x') + 1))) by lia. cbn [andb].
  destruct (N.eqb_spec (N.of_nat n + 1) (N.of_nat n' + 1)) as [En|En].
  - assert (n = n') as <- by lia. specialize (Hx eq_refl). rewrite E1 in E1'. injection E1' as EL.
    unfold print_single. cbn [sp_start sp_end line col]. replace (N.to_nat (N.of_nat n + 1 - 1)) with n by lia. rewrite (file_lines_at _ _ _ _ H Hu E1).
    unfold line_str2. cbn [get_line mbind option_bind]. pose proof (valid_upto _ _ _ Hv Hc) as H1. pose proof (valid_upto _ _ _ Hv' Hc') as H2.
    assert (P1 : ∃ s, x' ++ [c'] = (x ++ [c]) ++ s).
    { exists (drop (length (x ++ [c])) (x' ++ [c'])). rewrite <- (take_drop (length (x ++ [c])) (x' ++ [c'])) at 1. f_equal.
      transitivity (take (length (x ++ [c])) (x ++ c :: z)).
      - rewrite EL. replace (x' ++ c' :: z') with ((x' ++ [c']) ++ z') by (rewrite <- app_assoc; reflexivity). rewrite (take_app_le (x' ++ [c']) z'); [reflexivity|]. rewrite !app_length. simpl. lia.
      - replace (x ++ c :: z) with ((x ++ [c]) ++ z) by (rewrite <- app_assoc; reflexivity). apply take_app. }
    destruct P1 as [s P1]. rewrite EL in *. replace (x' ++ c' :: z') with ((x ++ [c]) ++ s ++ z') in * by (rewrite (app_assoc _ s z'), <- P1, <- app_assoc; reflexivity).
    replace (N.to_nat (N.of_nat (length x) + 1)) with (length (x ++ [c])) by (rewrite app_length; simpl; lia).
    replace (N.to_nat (N.of_nat (length x') + 1)) with (length (x ++ [c]) + length s).
    2:{ apply (f_equal length) in P1. rewrite !app_length in *. simpl in *. lia. }
    rewrite (slice_start _ _ H1 Hv). rewrite P1 in H2. rewrite (slice_mid _ _ _ H1 H2 Hv). eexists. reflexivity.
  - assert (Hlt : n < n') by lia. unfold print_multi. cbn [sp_start sp_end line col]. rewrite (proj2 (N.ltb_ge _ _)) by lia.
    pose proof (lookup_lt_Some _ _ _ E1') as Hlen.
    replace (N.to_nat (N.of_nat n + 1 - 1)) with n by lia. rewrite head_drop, (file_lines_at _ _ _ _ H Hu E1). destruct (S1 _ _ _ Hv Hc) as [r1 ->].
    rewrite tail_drop. cbn [mbind option_bind fst snd].
    replace (N.to_nat (N.of_nat n' + 1 - (N.of_nat n + 1)) - 1) with (n' - n - 1) by lia.
    destruct (Nat.leb_spec (n' - n - 1) 4) as [H4|H4].
    + rewrite (mid_rows_ok _ _ _ H Hu) by lia. cbn [mbind option_bind fst snd]. rewrite drop_drop, head_drop. replace (S n + (n' - n - 1)) with n' by lia.
      rewrite (file_lines_at _ _ _ _ H Hu E1'). destruct (S1 _ _ _ Hv' Hc') as [r2 ->]. eexists. reflexivity.
    + rewrite (mid_rows_ok _ _ _ H Hu) by lia. cbn [mbind option_bind fst snd]. rewrite !drop_drop, lookup_drop.
      destruct (lookup_lt_is_Some_2 ls (n' - 1)) as [k3 K3]; [lia|].
      replace (S n + 2 + (n' - n - 1 - 3)) with (n' - 1) by lia. rewrite (file_lines_at _ _ _ _ H Hu K3). unfold line_str0 at 1. cbn [get_line mbind option_bind fst snd].
      rewrite head_drop. replace (S n + (2 + (n' - n - 1 - 2))) with n' by lia. rewrite (file_lines_at _ _ _ _ H Hu E1'). destruct (S1 _ _ _ Hv' Hc') as [r2 ->]. eexists. reflexivity.
Qed.
Print Assumptions C62_no_panic.

(** *** Tokens *)
Lemma no_return (p : ascii → bool) l : p return_char = false → Forall (λ c, p c = true) l → return_char ∉ l.
Proof. intros Hp HF Hin. rewrite list.Forall_forall in HF. specialize (HF _ Hin). rewrite Hp in HF. discriminate HF. Qed.
Lemma token_no_return k t : token_text k t → return_char ∉ t.
Proof.
  intros H. destruct H as [ds Hd _|ds Hd _|t Hs|s k Hk|s o Ho|c Hc].
  - apply (no_return is_ascii_digit); [reflexivity|apply Hd].
  - apply not_elem_of_cons. split; [discriminate|]. apply (no_return is_ascii_digit); [reflexivity|apply Hd].
  - destruct Hs as [|d ds H1 H2 H3|tag c cs H1 H2 H3].
    + repeat (apply not_elem_of_cons; split; [discriminate|]). apply not_elem_of_nil.
    + apply not_elem_of_cons. split; [discriminate|]. apply (no_return is_numeric); [reflexivity|]. constructor; assumption.
    + apply not_elem_of_cons. split; [destruct H1 as [-> | ->]; discriminate|]. apply (no_return is_symbol_char); [reflexivity|exact H3].
  - assert (HF : forallb (λ x : string * keyword, negb (bool_decide (return_char ∈ String.list_ascii_of_string x.1))) KEYWORDS = true) by (vm_compute; reflexivity).
    rewrite forallb_forall in HF. apply elem_of_list_In, HF, negb_true_iff, bool_decide_eq_false_1 in Hk. exact Hk.
  - assert (HF : forallb (λ x : string * IrModel.binop, negb (bool_decide (return_char ∈ String.list_ascii_of_string x.1))) BINARY_OPS = true) by (vm_compute; reflexivity).
    rewrite forallb_forall in HF. apply elem_of_list_In, HF, negb_true_iff, bool_decide_eq_false_1 in Ho. exact Ho.
  - intros [E|Hin]%elem_of_cons; [rewrite <- E in Hc; destruct Hc as [Hc _]; discriminate Hc|]. apply not_elem_of_nil in Hin. exact Hin.
Qed.
(** [p] is the position of the character number [s], and that is not the CR of a line end. *)
Definition marks (b : list ascii) (s : nat) (p : pos) : Prop :=
  ∃ q c r, b = q ++ c :: r ∧ length q = s ∧ p = pos_after (q ++ [c]) ∧ ¬ (c = return_char ∧ head r = Some newline).
Lemma token_marks b k gap kd c t rest : drop k b = gap ++ (c :: t) ++ rest → token_text kd (c :: t) →
  marks b (k + length gap) (pos_after (take (k + length gap) b ++ [c])) ∧
  marks b (k + length gap + length t) (pos_after (take (k + length gap) b ++ c :: t)).
Proof.
  intros Hd Ht.
  assert (E : b = take (k + length gap) b ++ (c :: t) ++ rest).
  { rewrite <- (take_drop (k + length gap) b) at 1. f_equal. rewrite <- drop_drop, Hd. apply drop_app. }
  assert (L : length (take (k + length gap) b) = k + length gap).
  { rewrite take_length. apply (f_equal length) in Hd. rewrite drop_length, !app_length in Hd. simpl in Hd. lia. }
  set (q := take (k + length gap) b) in *. clearbody q. pose proof (token_no_return _ _ Ht) as Hnr. split.
  - exists q, c, (t ++ rest). split; [exact E|]. split; [exact L|]. split; [reflexivity|]. intros [-> _]. apply Hnr. left.
  - destruct (exists_last (l := c :: t)) as (t0 & d & Ed); [discriminate|].
    exists (q ++ t0), d, rest. assert (Lt : length t = length t0) by (apply (f_equal length) in Ed; rewrite app_length in Ed; simpl in Ed; lia).
    split; [rewrite E, Ed, <- !app_assoc; reflexivity|]. split; [rewrite app_length; lia|]. split; [rewrite Ed, <- app_assoc; reflexivity|].
    intros [-> _]. apply Hnr. rewrite Ed. apply elem_of_app. right. left.
Qed.
Lemma end_marks b : b ≠ [] → marks b (length b - 1) (pos_after b).
Proof.
  intros Hb. destruct (exists_last Hb) as (q & c & ->). exists q, c, []. split; [reflexivity|]. split; [rewrite app_length; simpl; lia|].
  split; [reflexivity|]. intros [_ Hh]. discriminate Hh.
Qed.
Lemma marks_lt b s p : marks b s p → s < length b.
Proof. intros (q & c & r & -> & <- & _). rewrite app_length. simpl. lia. Qed.
Lemma covers_marks b k rs : b ≠ [] → covers b k rs → ∀ i t, rs !! i = Some (Rok t) →
  ∃ s e, marks b s (sp_start (tok_span t)) ∧ marks b e (sp_end (tok_span t)) ∧ s ≤ e ∧ (k ≤ s + 1 ∨ s + 1 = length b).
Proof.
  intros Hb. induction 1 as [k|k k' f rs Hk H IH|k gap kd t c rest rs sp Hd Hg Ht Hx Hsp H IH|k rs Htr H IH]; intros i t' Hi.
  - discriminate Hi.
  - destruct i as [|i]; [discriminate Hi|]. destruct (IH i t' Hi) as (s & e & H1 & H2 & H3 & H4). exists s, e. split; [exact H1|]. split; [exact H2|]. split; [exact H3|lia].
  - destruct i as [|i].
    + injection Hi as <-. cbn [tok_span]. rewrite Hsp. cbn [sp_start sp_end]. destruct (token_marks _ _ _ _ _ _ _ Hd Ht) as [M1 M2].
      eexists _, _. split; [exact M1|]. split; [exact M2|]. split; [lia|left; lia].
    + destruct (IH i t' Hi) as (s & e & H1 & H2 & H3 & H4). exists s, e. split; [exact H1|]. split; [exact H2|]. split; [exact H3|]. simpl in H4. lia.
  - destruct i as [|i].
    + injection Hi as <-. cbn [tok_span sp_start sp_end]. pose proof (end_marks _ Hb) as M. pose proof (marks_lt _ _ _ M) as L.
      eexists _, _. split; [exact M|]. split; [exact M|]. split; [lia|right; lia].
    + destruct (IH i t' Hi) as (s & e & H1 & H2 & H3 & H4). exists s, e. split; [exact H1|]. split; [exact H2|]. split; [exact H3|].
      apply marks_lt in H1. lia.
Qed.
Lemma covers_pair b k rs : b ≠ [] → covers b k rs → ∀ i j t t', rs !! i = Some (Rok t) → rs !! j = Some (Rok t') → i ≤ j →
  ∃ s e, marks b s (sp_start (tok_span t)) ∧ marks b e (sp_end (tok_span t')) ∧ s ≤ e.
Proof.
  intros Hb H i j t t' Hi Hj Hij. destruct (decide (i = j)) as [<-|Hne].
  { rewrite Hi in Hj. injection Hj as <-. destruct (covers_marks _ _ _ Hb H _ _ Hi) as (s & e & H1 & H2 & H3 & _). exists s, e. split; [exact H1|]. split; [exact H2|exact H3]. }
  revert i j Hi Hj Hij Hne. induction H as [k|k k' f rs Hk H IH|k gap kd x c rest rs sp Hd Hg Ht Hx Hsp H IH|k rs Htr H IH]; intros i j Hi Hj Hij Hne.
  - discriminate Hi.
  - destruct i as [|i]; [discriminate Hi|]. destruct j as [|j]; [lia|]. apply (IH i j); [exact Hi|exact Hj|lia|lia].
  - destruct j as [|j]; [lia|]. destruct i as [|i]; [|apply (IH i j); [exact Hi|exact Hj|lia|lia]].
    injection Hi as <-. cbn [tok_span]. rewrite Hsp. cbn [sp_start]. destruct (token_marks _ _ _ _ _ _ _ Hd Ht) as [M1 _].
    destruct (covers_marks _ _ _ Hb H j t' Hj) as (s' & e' & _ & H2' & H3' & H4'). eexists _, e'. split; [exact M1|]. split; [exact H2'|].
    apply marks_lt in M1. simpl in H4'. lia.
  - destruct j as [|j]; [lia|]. destruct i as [|i]; [|apply (IH i j); [exact Hi|exact Hj|lia|lia]].
    injection Hi as <-. cbn [tok_span sp_start]. pose proof (end_marks _ Hb) as M.
    destruct (covers_marks _ _ _ Hb H j t' Hj) as (s' & e' & _ & H2' & H3' & H4'). eexists _, e'. split; [exact M|]. split; [exact H2'|]. lia.
Qed.
Lemma bytes_of_bytes l : bytes_of (RByte <$> l) = l.
Proof. induction l as [|c l IH]; [reflexivity|]. cbn. f_equal. exact IH. Qed.
(** In a file of ASCII characters, with any line ends, errors can be reported at every token
    and from every token to every later one. *)
Theorem C62_tokens : ∀ width path text e n rs l i j t t',
  lex_run n (lex_new (RByte <$> text) e) = (rs, l) → Forall one_byte text → (N.of_nat (length text) + 1 < two32)%N →
  rs !! i = Some (Rok t) → rs !! j = Some (Rok t') → i ≤ j →
  is_Some (print_file_info width (FFile path text) (span_upd_span (tok_span t) (tok_span t'))).
Proof.
  intros width path text e n rs l i j t t' Hr Ha Hs Hi Hj Hij. apply C20_token_spans in Hr. rewrite bytes_of_bytes in Hr. unfold span_upd_span.
  destruct (decide (text = [])) as [->|Hb].
  - assert (E : ∀ k rs, covers [] k rs → ∀ i t, rs !! i = Some (Rok t) → sp_start (tok_span t) = pos_after []).
    { clear. intros k rs. induction 1 as [k|k k' f rs Hk H IH|k gap kd x c rest rs sp Hd Hg Ht Hx Hsp H IH|k rs Htr H IH]; intros i t Hi.
      - discriminate Hi.
      - destruct i as [|i]; [discriminate Hi|]. exact (IH i t Hi).
      - rewrite drop_nil in Hd. destruct gap; discriminate Hd.
      - destruct i as [|i]; [injection Hi as <-; reflexivity|]. exact (IH i t Hi). }
    rewrite (E _ _ Hr _ _ Hi). eexists. reflexivity.
  - destruct (covers_pair _ _ _ Hb Hr _ _ _ _ Hi Hj Hij) as (s & e' & (q & c & r & E1 & L1 & -> & N1) & (q' & c' & r' & E2 & L2 & -> & N2) & Hse).
    rewrite list.Forall_forall in Ha. apply (C62_no_panic width path text q c r q' c' r'); try assumption.
    + apply ascii_utf8, list.Forall_forall. exact Ha.
    + lia.
    + apply Ha. rewrite E1. apply elem_of_app. right. left.
    + apply Ha. rewrite E2. apply elem_of_app. right. left.
Qed.
Print Assumptions C62_tokens.

(** Other files can make the logger panic.  A file with a letter of two bytes that starts no
    token: the token is the first byte, and reporting it panics. *)
Theorem C62_any_file_refuted : ∃ text rs l t,
  is_utf8 text ∧ lex_run 1 (lex_new (RByte <$> text) 0) = (rs, l) ∧ rs = [Rok t] ∧
  ∀ width path, print_file_info width (FFile path text) (tok_span t) = None.
Proof.
  exists (ascii_of_N <$> [215; 144]%N). eexists _, _, _. split; [apply valid_utf8_exact; vm_compute; reflexivity|].
  split; [vm_compute; reflexivity|]. split; [reflexivity|]. intros width path. vm_compute. reflexivity.
Qed.
Print Assumptions C62_any_file_refuted.
(** A file with line ends CRLF and a line that ends with a slash: the error about the comment
    goes from the slash to the character after it (koopa/src/front/lexer.rs:185), the CR, which
    is not part of the line, and reporting it panics. *)
Theorem C62_line_end_refuted : ∃ text : list ascii, ∃ q c c' r,
  Forall one_byte text ∧ text = q ++ c :: c' :: r ∧ c = "/"%char ∧ c' = return_char ∧
  ∀ width path, print_file_info width (FFile path text) (Span (pos_after (q ++ [c])) (pos_after (q ++ [c; c']))) = None.
Proof.
  exists ["/"%char; return_char; newline], [], "/"%char, return_char, [newline].
  split; [repeat constructor|]. split; [reflexivity|]. split; [reflexivity|]. split; [reflexivity|]. intros width path. vm_compute. reflexivity.
Qed.
Print Assumptions C62_line_end_refuted.

(** ** Cases *)
Definition digits_of (n : N) : nat := length (show_num n).
Definition sample_file : list ascii := String.list_ascii_of_string "fun @f() {
	%a:	ret 1
  // x

  }
  //
  jmp".
Definition sample_lines : list (list ascii) := raw_lines [] sample_file.
(** The hypotheses hold for a part with a tab in it, and after one. *)
Example C62_one_line_example :
  in_lines sample_file sample_lines ∧ is_utf8 sample_file ∧
  sample_lines !! 1 = Some ([tab_char] ++ "%"%char :: String.list_ascii_of_string "a:	ret" ++ String.list_ascii_of_string " 1") ∧
  is_utf8 ([tab_char] ++ "%"%char :: String.list_ascii_of_string "a:	ret") ∧ one_byte "%" ∧ "%"%char ≠ tab_char ∧
  print_file_info digits_of (FFile ["x"%char] sample_file) (Span (Pos 2 2) (Pos 2 8)) =
    Some (String.list_ascii_of_string <$> ["  at x:2:2"; "  |"; "2 |   %a:  ret 1"; "  |   ^^^^^^^^"; ""]%string).
Proof.
  split; [apply (raw_in_lines sample_file []), not_elem_of_nil|]. split; [apply valid_utf8_exact; vm_compute; reflexivity|].
  split; [vm_compute; reflexivity|]. split; [apply valid_utf8_exact; vm_compute; reflexivity|]. split; [vm_compute; reflexivity|]. split; [discriminate|].
  vm_compute. reflexivity.
Qed.
Example C62_several_lines_example :
  sample_lines !! 0 = Some (String.list_ascii_of_string "fun " ++ "@"%char :: String.list_ascii_of_string "f() {") ∧
  sample_lines !! 6 = Some (String.list_ascii_of_string "  jm" ++ "p"%char :: []) ∧ one_byte "@" ∧ one_byte "p" ∧
  print_file_info digits_of (FFile ["x"%char] sample_file) (Span (Pos 1 5) (Pos 7 5)) =
    Some (String.list_ascii_of_string <$> ["  at x:1:5"; "  |"; "1 |   fun @f() {"; "  |  _____^"; "2 | |   %a:  ret 1"; "3 | |   // x"; ". | |6 | |   //"; "7 | |   jmp"; "  | |_____^"; ""]%string).
Proof. split; [vm_compute; reflexivity|]. split; [vm_compute; reflexivity|]. split; [vm_compute; reflexivity|]. split; [vm_compute; reflexivity|]. vm_compute. reflexivity. Qed.
Example C62_tokens_example : ∃ rs l t t', lex_run 14 (lex_new (RByte <$> sample_file) 0) = (rs, l) ∧ Forall one_byte sample_file ∧
  (N.of_nat (length sample_file) + 1 < two32)%N ∧ rs !! 1 = Some (Rok t) ∧ rs !! 8 = Some (Rok t') ∧
  tok_kind t = TkSymbol "@f" ∧ tok_kind t' = TkInt 1.
Proof.
  eexists _, _, _, _. split; [vm_compute; reflexivity|]. split.
  { apply list.Forall_forall. intros c Hc. assert (H : forallb (λ c, (N_of_ascii c <? 128)%N) sample_file = true) by (vm_compute; reflexivity).
    rewrite forallb_forall in H. apply elem_of_list_In, H, N.ltb_lt in Hc. exact Hc. }
  split; [vm_compute; reflexivity|]. split; [vm_compute; reflexivity|]. split; [vm_compute; reflexivity|]. split; vm_compute; reflexivity.
Qed.
