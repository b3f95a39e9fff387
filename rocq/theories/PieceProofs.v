(** Texts as lists of tokens with the whitespace before each; how the parser steps through
    such a text. *)
From Coq Require Import Lia ZifyBool ZifyNat ZifyN.
From Verif Require Import Base IrModel TypeModel LexerModel TextModel LexerSpec LexerProofs
  LexerFwdProofs LexerRunProofs ParserModel ParserSpec ParserProofs PrintSpec.

Notation chars := String.list_ascii_of_string.
Lemma chars_app a b : chars (a ++ b)%string = chars a ++ chars b.
Proof. induction a as [|c a IH]; [done|]. simpl. by f_equal. Qed.

Notation piece := (string * tokkind)%type.
Definition piece_text (p : piece) : list ascii := chars p.1 ++ chars (show_token p.2).
Definition flat (l : list piece) : list ascii := concat (map piece_text l).
Lemma flat_app a b : flat (a ++ b) = flat a ++ flat b.
Proof. unfold flat. by rewrite map_app, concat_app. Qed.
Lemma flat_cons p l : flat (p :: l) = piece_text p ++ flat l.
Proof. done. Qed.

(** ** When such a text is read back token by token *)
Definition punct : list ascii := ["("; ")"; ","; ":"; "{"; "}"; "["; "]"; "="; "*"]%char.
Definition okk (k : tokkind) : Prop :=
  match k with
  | TkInt z => i64 z
  | TkSymbol s => wf_name s
  | TkKeyword _ | TkBinaryOp _ => True
  | TkOther c => c ∈ punct
  | TkEnd => False
  end.
Definition okgap (g : string) : Prop :=
  Forall (λ c, c = " "%char ∨ c = "010"%char) (chars g) ∧ (count_nl (chars g) < two32)%N.
Definition other (k : tokkind) : bool := match k with TkOther _ => true | _ => false end.

Fixpoint valid (b : bool) (l : list piece) : Prop :=
  match l with
  | [] => True
  | (g, k) :: l' =>
      okk k ∧ okgap g ∧ (b = true ∨ g ≠ EmptyString ∨ other k = true) ∧ valid (other k) l'
  end.

Lemma valid_weak b l : valid false l → valid b l.
Proof.
  destruct l as [|[g k] l]; [done|]. simpl. intros (H1 & H2 & H3 & H4).
  split_and!; try done. destruct H3 as [?|?]; [done|by right].
Qed.
Lemma valid_app b l r : valid b l → valid false r → valid b (l ++ r).
Proof.
  revert b. induction l as [|[g k] l IH]; intros b Hl Hr; [by apply valid_weak|].
  destruct Hl as (H1 & H2 & H3 & H4). simpl. split_and!; try done. by apply IH.
Qed.

Lemma okk_text k : okk k → token_text k (chars (show_token k)).
Proof.
  destruct k as [z|s|kw|o|c|]; simpl; intros H; try (by apply printable_text).
  by apply show_Z_token.
Qed.
Lemma punct_extends c k t : c ∈ punct → extends k t c = false.
Proof.
  intros H. assert (is_numeric c = false ∧ is_symbol_char c = false ∧ is_alphanumeric c = false)
    as (H1 & H2 & H3).
  { unfold punct in H. rewrite !elem_of_cons, elem_of_nil in H.
    repeat (destruct H as [-> |H]; [done|]). done. }
  destruct k; simpl; try done. destruct t as [|? [|d ?]]; try done.
  destruct (is_numeric d); [|done]. rewrite H1. by rewrite andb_false_r.
Qed.
Lemma ws_extends c k t : c = " "%char ∨ c = "010"%char → extends k t c = false.
Proof.
  intros H. assert (is_numeric c = false ∧ is_symbol_char c = false ∧ is_alphanumeric c = false)
    as (H1 & H2 & H3) by (by destruct H as [-> | ->]).
  destruct k; simpl; try done. destruct t as [|? [|d ?]]; try done.
  destruct (is_numeric d); [|done]. rewrite H1. by rewrite andb_false_r.
Qed.
Lemma okgap_sep g : okgap g → sep (chars g).
Proof.
  intros [H _]. apply sep_ws_list. revert H. apply Forall_impl. by intros c [-> | ->].
Qed.

(** what may follow the last token *)
Definition oktail (tr : list ascii) : Prop := Forall (λ c, c = " "%char ∨ c = "010"%char) tr.

Lemma valid_not_extended k t l tr :
  valid (other k) l → oktail tr → not_extended k t (flat l ++ tr).
Proof.
  intros Hv Ht. destruct l as [|[g k'] l].
  - simpl. destruct Ht as [|c tr Hc _]; [done|]. simpl. by apply ws_extends.
  - destruct Hv as (H1 & [H2 _] & H3 & _). unfold flat; simpl. unfold piece_text; simpl.
    destruct (chars g) as [|c g'] eqn:Eg.
    + assert (g = EmptyString) as ->. { by destruct g. }
      destruct H3 as [H3|[?|H3]]; [|done|].
      * destruct k; try done. simpl. by destruct (_ ++ _).
      * destruct k' as [| | | |c|]; try done. simpl. by apply punct_extends.
    + simpl. inversion H2; subst. by apply ws_extends.
Qed.

(** ** Positions of tokens in the parser *)
Definition no_nl (g : string) : bool := (count_nl (chars g) =? 0)%N.

Lemma count_nl_app a b : count_nl (a ++ b) = (count_nl a + count_nl b)%N.
Proof. induction a as [|c a IH]; simpl; [done|]. rewrite IH. lia. Qed.

Record at_ps (e : N) (tr : list ascii) (s : ps) (l : list piece) : Prop := {
  ap_cur : cur_kind s = match l with [] => TkEnd | (_, k) :: _ => k end;
  ap_errs : perrs s = e;
  ap_rest : l ≠ [] →
    noerr (p_lex s) ∧ inv (p_lex s) ∧ oktail tr ∧
    valid (other (cur_kind s)) (tail l) ∧ rem (p_lex s) = flat (tail l) ++ tr ∧
    ∃ b k, at_ b (p_lex s) (S k) ∧ sp_end (tok_span (p_cur s)) = pos_after (take k b);
}.

Lemma token_nonempty k t : token_text k t → t ≠ [].
Proof.
  intros Ht ->. inversion Ht as [? [? _]| | ? Hs | s ? Hk Heq | s ? Hk Heq |]; subst; try done.
  - inversion Hs.
  - apply kw_shape_kw, kw_shape_spec in Hk as [_ (? & ? & Hq' & _)]. congruence.
  - apply kw_shape_op, kw_shape_spec in Hk as [_ (? & ? & Hq' & _)]. congruence.
Qed.

(** Reading the next piece from a lexer state. *)
Lemma lex_piece l b j g k l' tr :
  noerr l → inv l → at_ b l j → rem l = flat ((g, k) :: l') ++ tr →
  okk k → okgap g → valid (other k) l' → oktail tr →
  ∃ l2 sp, lex_next_token l = (Rok (Token sp k), l2) ∧ errs l2 = errs l ∧
    at_ps (errs l) tr (Ps l2 (Token sp k)) ((g, k) :: l') ∧
    line (sp_start sp) = ((1 + count_nl (take (j + length (chars g)) b)) mod two32)%N.
Proof.
  intros Hn Hi Ha Hr Hk Hg Hv Ht. set (t := chars (show_token k)).
  assert (Htk : token_text k t) by by apply okk_text.
  unfold flat in Hr. simpl in Hr. fold (flat l') in Hr. unfold piece_text in Hr. simpl in Hr.
  fold t in Hr. rewrite <- !app_assoc in Hr.
  destruct (lex_token l (chars g) k t (flat l' ++ tr)) as (l1 & l2 & -> & Hm1 & Hm2 & He & Hn2 & Hi2);
    try done; [by apply okgap_sep|by apply valid_not_extended|].
  pose proof (at_moved _ _ _ _ _ Ha Hm1) as Ha1.
  pose proof (at_moved _ _ _ _ _ Ha1 Hm2) as Ha2.
  eexists l2, _. split; [done|]. split; [done|].
  pose proof (token_nonempty _ _ Htk) as Hne. destruct t as [|c t'] eqn:Et; [done|]. simpl.
  assert (Hdrop : drop (j + length (chars g)) (" "%char :: b) = c :: t' ++ flat l' ++ tr).
  { rewrite <- (at_rem _ _ _ Ha1). by eapply moved_rem. }
  split.
  - split; simpl; [done|done|]. intros _. split_and!; try done.
    { by eapply (moved_rem l1); [|eapply moved_rem]. }
    exists b, (j + length (chars g) + length t'). split.
    { replace (S _) with (j + length (chars g) + length (c :: t')) by (simpl; lia). done. }
    rewrite (at_pos _ _ _ Ha1), <- adv_pos_after, <- adv_app. f_equal.
    rewrite <- (take_take_drop b _ (length t')). f_equal.
    assert (drop (j + length (chars g)) b = t' ++ flat l' ++ tr) as ->.
    { change b with (tail (" "%char :: b)). rewrite <- tail_drop, Hdrop. done. }
    by rewrite take_app.
  - rewrite (at_pos _ _ _ Ha1), adv_pos_after. done.
Qed.

Lemma p_next_at e tr s p l :
  at_ps e tr s (p :: l) →
  ∃ s', p_next s = (Rok tt, s') ∧ at_ps e tr s' l ∧
    ∀ g k l', l = (g, k) :: l' →
      is_in_same_line_as (tok_span (p_cur s)) (tok_span (p_cur s')) = no_nl g.
Proof.
  intros [Hc He Hr]. destruct (Hr ltac:(done)) as (Hn & Hi & Ht & Hv & Hrem & b & k & Ha & Hsp).
  simpl in *. unfold p_next. destruct l as [|[g k'] l].
  - destruct (lex_end (p_lex s)) as (l' & -> & _ & He' & _ & Hi' & _); try done.
    { rewrite Hrem. simpl. constructor. apply sep_ws_list. revert Ht. apply Forall_impl.
      by intros c [-> | ->]. }
    eexists. split; [done|]. split; [|done]. split; simpl; [done|congruence|done].
  - destruct Hv as (H1 & H2 & H3 & H4).
    destruct (lex_piece (p_lex s) b (S k) g k' l tr) as (l2 & sp & -> & He2 & Hat & Hli); try done.
    eexists. split; [done|]. rewrite He in Hat. split; [done|]. intros ? ? ? [= <- <- <-].
    unfold is_in_same_line_as, no_nl. simpl. rewrite Hli, Hsp. simpl.
    assert (Hd : drop k b = chars g ++ chars (show_token k') ++ flat l ++ tr).
    { pose proof (at_rem _ _ _ Ha) as Hx. simpl in Hx. rewrite <- Hx, Hrem. unfold flat. simpl.
      unfold piece_text. simpl. by rewrite <- !app_assoc. }
    assert (Hkl : k ≤ length b) by (pose proof (at_len _ _ _ Ha); lia).
    pose proof (okk_text _ H1) as Htk. pose proof (token_nonempty _ _ Htk) as Hne.
    destruct (chars (show_token k')) as [|c t] eqn:Et; [done|].
    pose proof (token_text_first _ _ _ Htk) as Hw.
    replace (S (k + length (chars g))) with (k + S (length (chars g))) by lia.
    rewrite <- take_take_drop, Hd, count_nl_app.
    replace (S (length (chars g))) with (length (chars g) + 1) by lia.
    rewrite take_add_app by done. simpl. rewrite take_0, count_nl_app. simpl.
    destruct (Ascii.eqb c "010") eqn:Ec; [apply eqb_true in Ec; by subst|].
    destruct H2 as [_ H2]. set (x := count_nl (chars g)) in *.
    generalize (count_nl (take k b)). intros y. clear -H2. unfold two32 in *. lia.
Qed.

(** ** Stepping *)
Lemma bind_step {A B} (m : M ps A) (k : A → M ps B) s a s1 :
  m s = (Rok a, s1) → (x <- m;; k x) s = k a s1.
Proof. intros H. unfold mthen. by rewrite H. Qed.

Lemma expect_at e tr s g c l : at_ps e tr s ((g, TkOther c) :: l) →
  ∃ s', expect c s = (Rok tt, s') ∧ at_ps e tr s' l.
Proof.
  intros H. destruct (p_next_at _ _ _ _ _ H) as (s' & H1 & H2 & _). exists s'. split; [|done].
  unfold expect, expect_. rewrite (ap_cur _ _ _ _ H). simpl. by rewrite Ascii.eqb_refl.
Qed.
Lemma read_sym_at e tr s g v l : at_ps e tr s ((g, TkSymbol v) :: l) →
  ∃ s', read_sym s = (Rok v, s') ∧ at_ps e tr s' l.
Proof.
  intros H. destruct (p_next_at _ _ _ _ _ H) as (s' & H1 & H2 & _). exists s'. split; [|done].
  unfold read_sym. rewrite (ap_cur _ _ _ _ H). by rewrite (bind_step _ _ _ _ _ H1).
Qed.
Lemma read_int_at e tr s g v l : at_ps e tr s ((g, TkInt v) :: l) →
  ∃ s', read_int s = (Rok v, s') ∧ at_ps e tr s' l.
Proof.
  intros H. destruct (p_next_at _ _ _ _ _ H) as (s' & H1 & H2 & _). exists s'. split; [|done].
  unfold read_int. rewrite (ap_cur _ _ _ _ H). by rewrite (bind_step _ _ _ _ _ H1).
Qed.
Lemma read_op_at e tr s g v l : at_ps e tr s ((g, TkBinaryOp v) :: l) →
  ∃ s', read_op s = (Rok v, s') ∧ at_ps e tr s' l.
Proof.
  intros H. destruct (p_next_at _ _ _ _ _ H) as (s' & H1 & H2 & _). exists s'. split; [|done].
  unfold read_op. rewrite (ap_cur _ _ _ _ H). by rewrite (bind_step _ _ _ _ _ H1).
Qed.
