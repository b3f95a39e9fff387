(** Specification of the token language, independent of the lexer's control flow. *)
From Verif Require Import Base IrModel LexerModel.

(** The bytes of a reader, ignoring I/O errors. *)
Definition bytes_of (r : list revent) : list ascii :=
  omap (λ e, match e with RByte c => Some c | RErr => None end) r.

(** Line and column (1-based line, column = characters since the last newline, both
    u32) after reading some text. *)
Fixpoint count_nl (l : list ascii) : N :=
  match l with
  | [] => 0
  | c :: l' => (if Ascii.eqb c "010" then 1 else 0) + count_nl l'
  end.
Fixpoint after_nl (l : list ascii) (k : N) : N :=
  match l with
  | [] => k
  | c :: l' => after_nl l' (if Ascii.eqb c "010" then 0 else k + 1)
  end.
Definition pos_after (l : list ascii) : pos :=
  Pos ((1 + count_nl l) mod two32) (after_nl l 0 mod two32).

(** The text of a decimal number. *)
Fixpoint dec_val (l : list ascii) : Z :=
  match l with
  | [] => 0
  | c :: l' => Z.of_N (N_of_ascii c - 48) * 10 ^ Z.of_nat (length l') + dec_val l'
  end.
Definition digits (l : list ascii) : Prop := l ≠ [] ∧ Forall (λ c, is_ascii_digit c = true) l.
Definition i64 (z : Z) : Prop := (- 2 ^ 63 ≤ z < 2 ^ 63)%Z.

(** Symbols: [%0], [%] and a number that does not start with 0, or [@]/[%] and a
    non-empty name that does not start with a number. *)
Inductive symbol_text : list ascii → Prop :=
  | sym_zero : symbol_text ["%"; "0"]%char
  | sym_temp d ds :
      is_numeric d = true → d ≠ "0"%char → Forall (λ c, is_numeric c = true) ds →
      symbol_text ("%"%char :: d :: ds)
  | sym_named tag c cs :
      tag = "@"%char ∨ tag = "%"%char →
      is_numeric c = false → Forall (λ c, is_symbol_char c = true) (c :: cs) →
      symbol_text (tag :: c :: cs).

(** Characters that start no other token, whitespace or comment. *)
Definition other_char (c : ascii) : Prop :=
  is_whitespace c = false ∧ is_alphabetic c = false ∧ is_numeric c = false ∧
  c ∉ ["/"; "@"; "%"; "-"]%char.

(** [token_text k t]: [t] is a way to write a token of kind [k]. *)
Inductive token_text : tokkind → list ascii → Prop :=
  | tt_int ds : digits ds → i64 (dec_val ds) → token_text (TkInt (dec_val ds)) ds
  | tt_neg ds : digits ds → i64 (- dec_val ds) →
      token_text (TkInt (- dec_val ds)) ("-"%char :: ds)
  | tt_sym t : symbol_text t → token_text (TkSymbol (utf8s t)) t
  | tt_kw s k : (s, k) ∈ KEYWORDS → token_text (TkKeyword k) (String.list_ascii_of_string s)
  | tt_op s o : (s, o) ∈ BINARY_OPS → token_text (TkBinaryOp o) (String.list_ascii_of_string s)
  | tt_other c : other_char c → token_text (TkOther c) [c].

(** [extends t c]: the character [c] right after the text [t] would be read as part of
    the same token. *)
Definition extends (k : tokkind) (t : list ascii) (c : ascii) : bool :=
  match k with
  | TkInt _ => is_numeric c
  | TkSymbol _ =>
      match t with
      | _ :: d :: _ =>
          if is_numeric d then negb (Ascii.eqb d "0") && is_numeric c
          else is_symbol_char c
      | _ => false
      end
  | TkKeyword _ | TkBinaryOp _ => is_alphanumeric c
  | TkOther _ | TkEnd => false
  end.

Definition not_extended (k : tokkind) (t rest : list ascii) : Prop :=
  match rest with [] => True | c :: _ => extends k t c = false end.

(** Separators: whitespace, line comments up to a line end, block comments. *)
Definition no_line_end (b : list ascii) : Prop :=
  Forall (λ c, c ≠ "013"%char ∧ c ≠ "010"%char) b.
Definition no_close (b : list ascii) : Prop := ¬ ∃ x y, b = x ++ "*"%char :: "/"%char :: y.

Inductive sep : list ascii → Prop :=
  | sep_nil : sep []
  | sep_ws c s : is_whitespace c = true → sep s → sep (c :: s)
  | sep_line b c s :
      no_line_end b → c = "013"%char ∨ c = "010"%char → sep (c :: s) →
      sep ("/"%char :: "/"%char :: b ++ c :: s)
  | sep_block b s :
      no_close (b ++ ["*"%char]) → sep s →
      sep ("/"%char :: "*"%char :: b ++ "*"%char :: "/"%char :: s).

(** After the last token a line comment need not be ended. *)
Inductive trailer : list ascii → Prop :=
  | tr_sep s : sep s → trailer s
  | tr_line s b : sep s → no_line_end b → trailer (s ++ "/"%char :: "/"%char :: b).

(** [covers b k rs]: the results [rs] of successive calls are explained by the bytes [b]
    from index [k] on: each token is an exact, maximal piece of the text at or after the
    end of the one before, separated by separators only (unless an error was reported in
    between), and its span is the region of that piece. *)
Inductive covers (b : list ascii) : nat → list (res token) → Prop :=
  | cov_nil k : covers b k []
  | cov_err k k' f rs :
      k ≤ k' → covers b k' rs → covers b k (Rerr f :: rs)
  | cov_tok k gap kd t c rest rs sp :
      drop k b = gap ++ (c :: t) ++ rest → sep gap →
      token_text kd (c :: t) → not_extended kd (c :: t) rest →
      sp = Span (pos_after (take (k + length gap) b ++ [c]))
                (pos_after (take (k + length gap) b ++ c :: t)) →
      covers b (k + length gap + length (c :: t)) rs →
      covers b k (Rok (Token sp kd) :: rs)
  | cov_end k rs :
      trailer (drop k b) →
      covers b (length b) rs →
      covers b k (Rok (Token (Span (pos_after b) (pos_after b)) TkEnd) :: rs).

(** [doc s ks]: the text [s] is a sequence of tokens of kinds [ks] with separators
    before each of them (and a trailer at the end), such that no two tokens run into each
    other. *)
Inductive doc : list ascii → list tokkind → Prop :=
  | doc_end s : trailer s → doc s []
  | doc_tok gap t rest k ks :
      sep gap → token_text k t → not_extended k t rest → doc rest ks →
      doc (gap ++ t ++ rest) (k :: ks).

(** The kind of token that a call returned, if it returned one. *)
Definition kind_of (r : res token) : option tokkind :=
  match r with Rok t => Some (tok_kind t) | _ => None end.

(** Tokens that the text generator can print. *)
Definition ascii_only (s : string) : Prop :=
  Forall (λ c, (N_of_ascii c < 128)%N) (String.list_ascii_of_string s).
Definition printable (k : tokkind) : Prop :=
  match k with
  | TkInt z => (- 2 ^ 31 ≤ z < 2 ^ 31)%Z
  | TkSymbol s => ascii_only s ∧ symbol_text (String.list_ascii_of_string s)
  | TkKeyword _ | TkBinaryOp _ => True
  | TkOther c => c ∈ ["("; ")"; ","; ":"; "{"; "}"; "["; "]"; "="; "*"]%char
  | TkEnd => False
  end.
