(** C19-C22: the lexer. *)
From Coq Require Import Lia.
From Verif Require Import Base IrModel TypeModel LexerModel TextModel LexerSpec
  LexerProofs LexerRunProofs.

(** C19: after any number of calls, a call returns a token or an error; if it is not at
    the end of input, it consumes a reader event (or, when only the current character is
    left, that character); at the end it returns the end token and changes nothing. *)
Theorem C19_progress : ∀ inp e n rs l r l',
  lex_run n (lex_new inp e) = (rs, l) → lex_next_token l = (r, l') →
  ((∃ t, r = Rok t) ∨ (∃ f, r = Rerr f)) ∧
  (∀ c, last l = Some c →
     length (rd l') < length (rd l) ∨ rd l = [] ∧ rd l' = [] ∧ last l' = None) ∧
  (last l = None → r = Rok (Token (span_new (lpos l)) TkEnd) ∧ l' = l).
Proof. exact lex_progress. Qed.
Print Assumptions C19_progress.

(** C19: at most one call per byte (plus one) returns something else than the end
    token. *)
Theorem C19_ends : ∀ inp e m,
  ∃ rs l, lex_run (S (length inp) + m) (lex_new inp e) =
    (rs ++ replicate m (Rok (Token (Span (lpos l) (lpos l)) TkEnd)), l) ∧
    length rs = S (length inp).
Proof. exact lex_ends. Qed.
Print Assumptions C19_ends.

Definition chars (s : string) : list ascii := String.list_ascii_of_string s.

(** An input with comments, a wrong symbol and an I/O error. *)
Definition lex_input : list revent :=
  (RByte <$> chars "fun @f/* * */(): // x") ++ [RByte "010"%char] ++
  (RByte <$> chars "%01 @9z -12") ++ [RErr] ++ (RByte <$> chars "3 §").

Example C19_example :
  map (λ r, match r with Rok t => inl (tok_kind t) | Rerr f => inr f | _ => inr true end)
    (lex_run 13 (lex_new lex_input 0)).1 =
  [inl (TkKeyword KwFun); inl (TkSymbol "@f"); inl (TkOther "("); inl (TkOther ")");
   inl (TkOther ":"); inl (TkSymbol "%0"); inl (TkInt 1); inr false; inr true;
   inl (TkInt 23); inr false; inl TkEnd; inl TkEnd] ∧
  errs (lex_run 13 (lex_new lex_input 0)).2 = 3%N.
Proof. vm_compute. split; reflexivity. Qed.

(** C20: the tokens returned by any number of calls are consecutive pieces of the input,
    with only separators in between (or text for which an error was reported), and the
    span of each token consists of the positions of its first and last character. *)
Theorem C20_token_spans : ∀ inp e n rs l,
  lex_run n (lex_new inp e) = (rs, l) → covers (bytes_of inp) 0 rs.
Proof.
  intros inp e n rs l H.
  exact (covers_run _ _ _ _ _ 0 H (lex_new_inv _ _) (lex_new_at _ _)).
Qed.
Print Assumptions C20_token_spans.

(** The position of a piece of text: line and column of its characters. *)
Example C20_example :
  (lex_run 3 (lex_new (RByte <$> chars "ret  " ++ ["010"%char] ++ chars " %12x") 7)).1 =
  [Rok (Token (Span (Pos 1 1) (Pos 1 3)) (TkKeyword KwRet));
   Rok (Token (Span (Pos 2 2) (Pos 2 4)) (TkSymbol "%12"));
   Rerr false].
Proof. vm_compute. reflexivity. Qed.

(** C21: a text made of tokens and separators lexes to exactly those tokens, without
    errors. *)
Theorem C21_doc : ∀ s ks e m,
  doc s ks →
  ∃ rs l', lex_run (length ks + m) (lex_new (RByte <$> s) e) = (rs, l') ∧ errs l' = e ∧
    map kind_of rs = map Some ks ++ replicate m (Some TkEnd).
Proof. exact lex_doc. Qed.
Print Assumptions C21_doc.

(** C21: so two texts that differ only in separators give the same token kinds. *)
Theorem C21_layout : ∀ s s' ks e e' n,
  doc s ks → doc s' ks →
  map kind_of (lex_run n (lex_new (RByte <$> s) e)).1 =
  map kind_of (lex_run n (lex_new (RByte <$> s') e')).1.
Proof. exact lex_layout. Qed.
Print Assumptions C21_layout.

Lemma no_close_check b :
  (fix f l := match l with
   | a :: (c :: _) as l' => negb (Ascii.eqb a "*" && Ascii.eqb c "/") && f l'
   | _ => true end) b = true → no_close b.
Proof.
  intros H (x & y & ->). induction x as [|a [|c x] IH]; simpl in *.
  - done.
  - apply andb_true_iff in H as [_ H]. done.
  - apply andb_true_iff in H as [_ H]. by apply IH.
Qed.

Example C21_example :
  doc (chars "ret-5") [TkKeyword KwRet; TkInt (-5)] ∧
  doc (chars "  ret/* * / **/ -5//end") [TkKeyword KwRet; TkInt (-5)].
Proof.
  split.
  - apply (doc_tok [] (chars "ret") (chars "-5")); [constructor|apply (tt_kw "ret"); set_solver|done|].
    apply (doc_tok [] (chars "-5") []); [constructor| |done|by repeat constructor].
    apply (printable_text (TkInt (-5))). simpl. lia.
  - apply (doc_tok (chars "  ") (chars "ret") (chars "/* * / **/ -5//end"));
      [by repeat constructor|apply (tt_kw "ret"); set_solver|done|].
    apply (doc_tok (chars "/* * / **/ ") (chars "-5") (chars "//end")).
    + apply (sep_block (chars " * / *") (chars " ")); [by apply no_close_check|by repeat constructor].
    + apply (printable_text (TkInt (-5))). simpl. lia.
    + done.
    + constructor. apply (tr_line [] (chars "end")); [constructor|]. by repeat constructor.
Qed.

(** C22: every token that the text generator can print is read back as itself, with the
    span of its text, and the lexer stops right after it. *)
Theorem C22_print_lex : ∀ k rest e,
  printable k →
  let t := String.list_ascii_of_string (show_token k) in
  not_extended k t rest →
  lex_next_token (lex_new (RByte <$> t ++ rest) e) =
  (Rok (Token (Span (pos_after (take 1 t)) (pos_after t)) k),
   Lex (RByte <$> tail rest) (pos_after (t ++ take 1 rest)) (head rest) e).
Proof. exact lex_print. Qed.
Print Assumptions C22_print_lex.

Example C22_example :
  printable (TkInt (-2147483648)) ∧
  not_extended (TkInt (-2147483648)) (chars "-2147483648") (chars ", @x") ∧
  printable (TkSymbol "%while_entry2") ∧ printable (TkSymbol "%0") ∧
  printable (TkSymbol "%10") ∧
  show_token (TkInt (-2147483648)) = "-2147483648".
Proof.
  repeat split; try (vm_compute; reflexivity || discriminate);
    try (repeat constructor; vm_compute; reflexivity).
  all: simpl; by constructor; auto.
Qed.
