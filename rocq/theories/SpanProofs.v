(** Proofs about excerpts of the source. *)
From Coq Require Import Lia ZifyBool ZifyNat ZifyN Ascii.
From Verif Require Import Base TypeModel LexerModel LexerSpec CapiModel CapiSpec CapiProofs SpanModel SpanSpec.

(** ** UTF-8 *)
Notation valid l := (valid_utf8 (N_of_ascii <$> l)).
Lemma valid_app a b : valid a = true → valid (a ++ b) = valid b.
Proof.
  intros H. apply valid_utf8_exact in H as (ns & Hs & E). rewrite fmap_app, E. clear E. induction Hs as [|n ns Hn Hs IH]; [reflexivity|].
  cbn [mbind list_bind]. rewrite <- app_assoc, valid_encoding by exact Hn. exact IH.
Qed.
Lemma encoding_big n i b : (128 ≤ n)%N → encoding n !! i = Some b → (128 ≤ b)%N.
Proof.
  intros Hn H. unfold encoding in H. rewrite decide_False in H by lia.
  destruct (decide (n < 2048)%N); [|destruct (decide (n < 65536)%N)]; repeat (destruct i as [|i]; [injection H as <-; lia|]); discriminate H.
Qed.
Lemma valid_before x c z : valid (x ++ c :: z) = true → one_byte c → valid x = true.
Proof.
  intros H Hc. apply valid_utf8_exact in H as (ns & Hs & E). revert x E. induction Hs as [|n ns Hn Hs IH]; intros x E.
  { rewrite fmap_app in E. destruct x; discriminate E. }
  cbn [mbind list_bind] in E. rewrite fmap_app, fmap_cons in E. destruct (decide (length x < length (encoding n))) as [Hl|Hl].
  - destruct (decide (n < 128)%N) as [Hlt|Hge].
    + unfold encoding in Hl. rewrite decide_True in Hl by exact Hlt. simpl in Hl. destruct x; [reflexivity|simpl in Hl; lia].
    + exfalso. assert (L : (N_of_ascii <$> x) !! length x = None) by (apply lookup_ge_None_2; rewrite fmap_length; lia).
      assert (K : ((N_of_ascii <$> x) ++ N_of_ascii c :: (N_of_ascii <$> z)) !! length x = Some (N_of_ascii c)).
      { rewrite lookup_app_r by (rewrite fmap_length; lia). rewrite fmap_length, Nat.sub_diag. reflexivity. }
      rewrite E, lookup_app_l in K by exact Hl. apply encoding_big in K; [|lia]. unfold one_byte in Hc. lia.
  - assert (L : take (length (encoding n)) (N_of_ascii <$> x) = encoding n).
    { transitivity (take (length (encoding n)) ((N_of_ascii <$> x) ++ N_of_ascii c :: (N_of_ascii <$> z))).
      - rewrite take_app_le by (rewrite fmap_length; lia). reflexivity.
      - rewrite E. rewrite take_app. reflexivity. }
    rewrite <- (take_drop (length (encoding n)) x). rewrite fmap_app, fmap_take, L, valid_encoding by exact Hn.
    apply IH. rewrite fmap_app, fmap_cons, fmap_drop. apply (app_inv_head (encoding n)). rewrite <- E, <- L at 1.
    rewrite app_assoc. rewrite take_drop. reflexivity.
Qed.
Lemma valid_upto x c z : valid (x ++ c :: z) = true → one_byte c → valid (x ++ [c]) = true.
Proof.
  intros H Hc. rewrite valid_app by (eapply valid_before; eassumption). simpl. rewrite (proj2 (N.ltb_lt _ _)) by exact Hc. reflexivity.
Qed.
Lemma boundary_ok a b : valid a = true → valid (a ++ b) = true → char_boundary (a ++ b) (length a) = true.
Proof.
  intros Ha Hab. rewrite valid_app in Hab by exact Ha. unfold char_boundary. destruct (length a) as [|k] eqn:Ek; [reflexivity|].
  rewrite <- Ek. rewrite lookup_app_r by lia. rewrite Nat.sub_diag. destruct b as [|d b].
  - simpl. apply Nat.eqb_eq. rewrite app_length. simpl. lia.
  - simpl. apply negb_true_iff, within_not. intros Hd. simpl in Hab.
    rewrite (proj2 (N.ltb_ge _ _)) in Hab by lia. revert Hab.
    change (list_fmap ascii N N_of_ascii b) with (N_of_ascii <$> b); destruct (N_of_ascii <$> b) as [|? [|? [|? ?]]]; rewrite ?(within_not 194 223), ?(within_not 224 239), ?(within_not 240 244) by lia; simpl; intros Hab; try discriminate Hab.
Qed.

(** ** Lines *)
Lemma raw_lines_app l : newline ∉ l → ∀ cur t, raw_lines cur (l ++ t) = raw_lines (cur ++ l) t.
Proof.
  induction l as [|c l IH]; intros Hl cur t; [simpl; rewrite app_nil_r; reflexivity|]. simpl.
  apply not_elem_of_cons in Hl as [Hc Hl]. destruct (Ascii.eqb_spec c "010") as [->|_]; [destruct Hc; reflexivity|].
  rewrite IH by exact Hl. rewrite <- app_assoc. reflexivity.
Qed.
Lemma strip_cr_snoc l : strip_cr (l ++ [return_char]) = l.
Proof. induction l as [|c l IH]; [reflexivity|]. simpl. destruct (l ++ [return_char]) eqn:E; [destruct l; discriminate E|]. rewrite IH. reflexivity. Qed.
Lemma strip_cr_keep l : list.last l ≠ Some return_char → strip_cr l = l.
Proof.
  induction l as [|c l IH]; [reflexivity|]. intros H. simpl. destruct l as [|d l].
  - simpl in H. destruct (Ascii.eqb_spec c "013") as [->|_]; [destruct H; reflexivity|reflexivity].
  - rewrite IH; [reflexivity|]. exact H.
Qed.
Lemma in_lines_raw text ls : in_lines text ls → raw_lines [] text = ls.
Proof.
  induction 1 as [|l Hl Hn|l e text ls Hn He H IH]; [reflexivity| |].
  - rewrite <- (app_nil_r l) at 1. rewrite raw_lines_app by exact Hn. simpl. destruct l; [destruct Hl; reflexivity|reflexivity].
  - rewrite raw_lines_app by exact Hn. cbn [app]. destruct He as [[-> He]| ->]; simpl.
    + rewrite IH, strip_cr_keep by exact He. reflexivity.
    + rewrite IH, strip_cr_snoc. reflexivity.
Qed.
Lemma raw_in_lines l : ∀ cur, newline ∉ cur → in_lines (cur ++ l) (raw_lines cur l).
Proof.
  induction l as [|c l IH]; intros cur Hc; simpl.
  - rewrite app_nil_r. destruct cur; [constructor|]. apply il_last; [discriminate|exact Hc].
  - destruct (Ascii.eqb_spec c "010") as [->|Hn].
    + pose proof (IH [] ltac:(apply not_elem_of_nil)) as H. simpl in H. destruct (decide (list.last cur = Some return_char)) as [E|E].
      * apply last_Some in E as [k ->]. rewrite strip_cr_snoc. rewrite <- app_assoc.
        change ([return_char] ++ "010"%char :: l) with ([return_char; newline] ++ l). apply il_line; [|right; reflexivity|exact H].
        apply not_elem_of_app in Hc. apply Hc.
      * rewrite strip_cr_keep by exact E. change ("010"%char :: l) with ([newline] ++ l). apply il_line; [exact Hc|left; split; [reflexivity|exact E]|exact H].
    + replace (cur ++ c :: l) with ((cur ++ [c]) ++ l) by (rewrite <- app_assoc; reflexivity). apply IH.
      apply not_elem_of_app. split; [exact Hc|]. apply not_elem_of_cons. split; [intros E; apply Hn; symmetry; exact E|apply not_elem_of_nil].
Qed.
Lemma in_lines_total text : ∃ ls, in_lines text ls.
Proof. exists (raw_lines [] text). apply (raw_in_lines text []). apply not_elem_of_nil. Qed.
Lemma valid_lines text ls : in_lines text ls → valid text = true → Forall (λ l, valid l = true) ls.
Proof.
  induction 1 as [|l Hl Hn|l e text ls Hn He H IH]; intros Hv; [constructor|constructor; [exact Hv|constructor]|].
  assert (Hl : valid l = true).
  { destruct He as [[-> _]| ->]; eapply valid_before; try exact Hv; vm_compute; reflexivity. }
  constructor; [exact Hl|]. apply IH. rewrite valid_app in Hv by exact Hl.
  destruct He as [[-> _]| ->]; exact Hv.
Qed.
Lemma file_lines_at text ls n l : in_lines text ls → valid text = true → ls !! n = Some l → file_lines text !! n = Some (Some l).
Proof.
  intros H Hv Hn. unfold file_lines. rewrite (in_lines_raw _ _ H), list_lookup_fmap, Hn. simpl.
  pose proof (valid_lines _ _ H Hv) as HF. rewrite Forall_lookup in HF. rewrite (HF _ _ Hn). reflexivity.
Qed.

(** ** Columns *)
Lemma expand_app a b : expand (a ++ b) = expand a ++ expand b.
Proof. induction a as [|c a IH]; [reflexivity|]. simpl. rewrite IH, app_assoc. reflexivity. Qed.
Lemma tabs_app a b : tabs (a ++ b) = tabs a + tabs b.
Proof. induction a as [|c a IH]; [reflexivity|]. simpl. rewrite IH. lia. Qed.
Lemma expand_length l : length (expand l) = length l + tabs l.
Proof. induction l as [|c l IH]; [reflexivity|]. simpl. rewrite app_length, IH. destruct (Ascii.eqb c "009"); simpl; lia. Qed.
Lemma expand_one c : c ≠ tab_char → expand [c] = [c].
Proof. intros H. simpl. destruct (Ascii.eqb_spec c "009") as [->|_]; [destruct H; reflexivity|reflexivity]. Qed.
Lemma slice_start x b : valid x = true → valid (x ++ b) = true → slice (x ++ b) 0 (length x) = Some x.
Proof. intros H1 H2. unfold slice. rewrite (boundary_ok _ _ H1 H2). simpl. rewrite take_app. reflexivity. Qed.
Lemma slice_mid x y b : valid x = true → valid (x ++ y) = true → valid (x ++ y ++ b) = true →
  slice (x ++ y ++ b) (length x) (length x + length y) = Some y.
Proof.
  intros H1 H2 H3. unfold slice. rewrite (proj2 (Nat.leb_le _ _)) by lia. rewrite (boundary_ok _ _ H1 H3).
  pose proof (boundary_ok (x ++ y) b H2) as H4. rewrite <- app_assoc, app_length in H4. rewrite (H4 H3). simpl.
  rewrite app_assoc. replace (length x + length y) with (length (x ++ y)) by (rewrite app_length; reflexivity).
  rewrite take_app, drop_app. reflexivity.
Qed.
Lemma line_str1_ok x c z : c ≠ tab_char → one_byte c → valid (x ++ c :: z) = true →
  line_str1 (Some (Some (x ++ c :: z))) (N.of_nat (length x) + 1) =
  Some (expand x ++ c :: expand z, length (expand x) + 1).
Proof.
  intros Ht Hc Hv. unfold line_str1. cbn [get_line mbind option_bind]. pose proof (valid_upto _ _ _ Hv Hc) as H1.
  replace (x ++ c :: z) with ((x ++ [c]) ++ z) in * by (rewrite <- app_assoc; reflexivity).
  replace (N.to_nat (N.of_nat (length x) + 1)) with (length (x ++ [c])) by (rewrite app_length; simpl; lia).
  rewrite (slice_start _ _ H1 Hv). cbn [mbind option_bind]. do 2 f_equal.
  - rewrite !expand_app, expand_one by exact Ht. rewrite <- app_assoc. reflexivity.
  - pose proof (expand_length (x ++ [c])) as E. rewrite expand_app, expand_one, app_length in E by exact Ht. simpl in E. lia.
Qed.
Lemma line_str2_ok x c y z : c ≠ tab_char → one_byte c → valid (x ++ c :: y) = true → valid (x ++ c :: y ++ z) = true →
  line_str2 (Some (Some (x ++ c :: y ++ z))) (N.of_nat (length x) + 1) (N.of_nat (length x) + N.of_nat (length (c :: y))) =
  Some (expand (x ++ c :: y ++ z), length (expand x) + 1, length (expand x) + length (expand (c :: y))).
Proof.
  intros Ht Hc Hy Hv. unfold line_str2. cbn [get_line mbind option_bind]. pose proof (valid_upto _ _ _ Hv Hc) as H1.
  replace (x ++ c :: y ++ z) with ((x ++ [c]) ++ y ++ z) in * by (rewrite <- app_assoc; reflexivity).
  replace (x ++ c :: y) with ((x ++ [c]) ++ y) in * by (rewrite <- app_assoc; reflexivity).
  replace (N.to_nat (N.of_nat (length x) + 1)) with (length (x ++ [c])) by (rewrite app_length; simpl; lia).
  replace (N.to_nat (N.of_nat (length x) + N.of_nat (length (c :: y)))) with (length (x ++ [c]) + length y) by (rewrite app_length; simpl; lia).
  rewrite (slice_start _ _ H1 Hv), (slice_mid _ _ _ H1 Hy Hv). cbn [mbind option_bind].
  pose proof (expand_length (x ++ [c])) as E1. pose proof (expand_length y) as E2. rewrite expand_app, expand_one, app_length in E1 by exact Ht.
  change (c :: y) with ([c] ++ y). rewrite (expand_app [c] y), expand_one by exact Ht. rewrite !app_length in *. simpl length in *.
  f_equal. apply f_equal2; [apply f_equal2; [reflexivity|lia]|lia].
Qed.
