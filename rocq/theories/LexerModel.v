(** Model of koopa/src/front/lexer.rs, koopa/src/front/token.rs and the positions of
    koopa/src/front/span.rs. *)
From Verif Require Import Base IrModel.

(** ** Results and effects of the front end *)

(** [std::result::Result<A, Error>] with [Error::Normal]/[Error::Fatal]
    (koopa/src/front/span.rs:15-30), plus a panic and the model's own out-of-fuel. *)
Inductive res (A : Type) :=
  | Rok (a : A)
  | Rerr (fatal : bool)
  | Rpanic
  | Rfuel.
Arguments Rok {A} a.
Arguments Rerr {A} fatal.
Arguments Rpanic {A}.
Arguments Rfuel {A}.

(** A method [fn f(&mut self, ..) -> Result<A, Error>]: the state survives an error
    (koopa/src/front/lexer.rs:20, koopa/src/front/parser.rs:20). *)
Definition M (S A : Type) : Type := S → res A * S.

(** [Ok(a)] (koopa/src/front/lexer.rs, koopa/src/front/parser.rs) *)
Definition mok {S A} (a : A) : M S A := λ s, (Rok a, s).
(** [m?] followed by the rest of the function: errors return early
    (the [?] operator, e.g. koopa/src/front/lexer.rs:37). *)
Definition mthen {S A B} (m : M S A) (k : A → M S B) : M S B := λ s,
  match m s with
  | (Rok a, s') => k a s'
  | (Rerr f, s') => (Rerr f, s')
  | (Rpanic, s') => (Rpanic, s')
  | (Rfuel, s') => (Rfuel, s')
  end.
(** Reading a field of [self] (koopa/src/front/lexer.rs, koopa/src/front/parser.rs). *)
Definition mget {S} : M S S := λ s, (Rok s, s).

Declare Scope front_scope.
Delimit Scope front_scope with front.
Notation "x <- m ;; k" := (mthen m (λ x, k))
  (at level 100, m at next level, right associativity) : front_scope.
Notation "' p <- m ;; k" := (mthen m (λ p, k))
  (at level 100, p strict pattern, m at next level, right associativity) : front_scope.
Notation "m ;; k" := (mthen m (λ _, k))
  (at level 100, k at level 200, right associativity) : front_scope.
Open Scope front_scope.

(** ** Positions and spans *)

(** koopa/src/front/span.rs:427-430 [Pos] (u32 fields) *)
Record pos := Pos { line : N; col : N }.
(** koopa/src/front/span.rs:434-436 [Pos::new] *)
Definition pos0 : pos := Pos 1 0.
(** koopa/src/front/span.rs:439-447 [Pos::update]; u32 additions, wrapping (release
    build; a debug build panics on the 2^32nd line or column instead). *)
Definition pos_update (c : ascii) (p : pos) : pos :=
  if Ascii.eqb c "010" then Pos ((line p + 1) mod two32) 0
  else Pos (line p) ((col p + 1) mod two32).

(** koopa/src/front/span.rs:72-75 [Span] *)
Record span := Span { sp_start : pos; sp_end : pos }.
(** koopa/src/front/span.rs:124-126 [Span::new] *)
Definition span_new (p : pos) : span := Span p p.
(** koopa/src/front/span.rs:286-296 [into_updated]/[update] *)
Definition span_upd (s : span) (p : pos) : span := Span (sp_start s) p.
(** koopa/src/front/span.rs:300-310 [into_updated_span]/[update_span] *)
Definition span_upd_span (s t : span) : span := Span (sp_start s) (sp_end t).
(** koopa/src/front/span.rs:313-315 [is_in_same_line_as] *)
Definition is_in_same_line_as (s t : span) : bool :=
  (line (sp_end s) =? line (sp_start t))%N.

(** ** Tokens *)

(** koopa/src/front/token.rs:67-98 [Keyword] *)
Inductive keyword :=
  | KwI32 | KwUndef | KwZeroInit | KwGlobal | KwAlloc | KwLoad | KwStore | KwGetPtr
  | KwGetElemPtr | KwBr | KwJump | KwCall | KwRet | KwFun | KwDecl.

(** koopa/src/front/token.rs:37-50 [TokenKind] *)
Inductive tokkind :=
  | TkInt (z : Z)
  | TkSymbol (s : string)
  | TkKeyword (k : keyword)
  | TkBinaryOp (op : binop)
  | TkOther (c : ascii)
  | TkEnd.

(** koopa/src/front/token.rs:13-16 [Token] *)
Record token := Token { tok_span : span; tok_kind : tokkind }.

(** koopa/src/front/lexer.rs:221-237 [KEYWORDS] (a perfect hash map; lookup by string
    equality) *)
Definition KEYWORDS : list (string * keyword) :=
  [ ("i32", KwI32); ("undef", KwUndef); ("zeroinit", KwZeroInit); ("global", KwGlobal);
    ("alloc", KwAlloc); ("load", KwLoad); ("store", KwStore); ("getptr", KwGetPtr);
    ("getelemptr", KwGetElemPtr); ("br", KwBr); ("jump", KwJump); ("call", KwCall);
    ("ret", KwRet); ("fun", KwFun); ("decl", KwDecl) ]%string.

(** koopa/src/front/lexer.rs:240-258 [BINARY_OPS] *)
Definition BINARY_OPS : list (string * binop) :=
  [ ("ne", NotEq); ("eq", Eq_); ("gt", Gt_); ("lt", Lt_); ("ge", Ge_); ("le", Le_);
    ("add", Add); ("sub", Sub); ("mul", Mul); ("div", Div); ("mod", Mod_); ("and", And);
    ("or", Or); ("xor", Xor); ("shl", Shl); ("shr", Shr); ("sar", Sar) ]%string.

(** [phf::Map::get] (used at koopa/src/front/lexer.rs:160,162) *)
Fixpoint map_get {A} (k : string) (l : list (string * A)) : option A :=
  match l with
  | [] => None
  | (k', a) :: l' => if String.eqb k k' then Some a else map_get k l'
  end.

(** ** Character classes

    [single_char[0] as char] (koopa/src/front/lexer.rs:77): the lexer sees each byte as
    the Unicode character U+0000 to U+00FF, so only this range of the Unicode tables
    behind [char::is_whitespace], [is_alphabetic], [is_numeric] matters. *)

(** [char::is_whitespace] on U+0000-U+00FF (koopa/src/front/lexer.rs:36,213) *)
Definition is_whitespace (c : ascii) : bool :=
  let n := N_of_ascii c in
  ((9 <=? n) && (n <=? 13) || (n =? 32) || (n =? 133) || (n =? 160))%N.
(** [char::is_alphabetic] on U+0000-U+00FF (koopa/src/front/lexer.rs:47) *)
Definition is_alphabetic (c : ascii) : bool :=
  let n := N_of_ascii c in
  ((65 <=? n) && (n <=? 90) || (97 <=? n) && (n <=? 122) || (n =? 170) || (n =? 181)
   || (n =? 186) || (192 <=? n) && (n <=? 214) || (216 <=? n) && (n <=? 246)
   || (248 <=? n))%N.
(** ASCII digits (part of [char::is_numeric], koopa/src/front/lexer.rs:91, 112) *)
Definition is_ascii_digit (c : ascii) : bool :=
  let n := N_of_ascii c in ((48 <=? n) && (n <=? 57))%N.
(** [char::is_numeric] on U+0000-U+00FF (koopa/src/front/lexer.rs:50,91,112,124): the
    digits, the superscripts and the vulgar fractions *)
Definition is_numeric (c : ascii) : bool :=
  let n := N_of_ascii c in
  is_ascii_digit c
  || ((n =? 178) || (n =? 179) || (n =? 185) || (188 <=? n) && (n <=? 190))%N.
(** [char::is_alphanumeric] (koopa/src/front/lexer.rs:134,154) *)
Definition is_alphanumeric (c : ascii) : bool := is_alphabetic c || is_numeric c.
(** the class of koopa/src/front/lexer.rs:134 *)
Definition is_symbol_char (c : ascii) : bool := is_alphanumeric c || Ascii.eqb c "_".

(** [String::push] of such a character: its UTF-8 encoding
    (koopa/src/front/lexer.rs:89,92,109,119,125,136,155). *)
Definition utf8 (c : ascii) : string :=
  let n := N_of_ascii c in
  if (n <? 128)%N then String c EmptyString
  else String (ascii_of_N (192 + n / 64)) (String (ascii_of_N (128 + n mod 64)) EmptyString).
(** Successive [String::push]es (koopa/src/front/lexer.rs:124-128) *)
Fixpoint utf8s (l : list ascii) : string :=
  match l with
  | [] => EmptyString
  | c :: l' => (utf8 c ++ utf8s l')%string
  end.

(** ** The lexer *)

(** What one call of [reader.read] on a one-byte buffer gives
    (koopa/src/front/lexer.rs:72-75): a byte or an I/O error.  The end of the list is
    [Ok(0)], end of file; the lexer never reads again after that. *)
Inductive revent := RByte (c : ascii) | RErr.

(** koopa/src/front/lexer.rs:13-18 [Lexer], plus the number of errors logged so far
    ([GlobalState::err_num], koopa/src/front/span.rs:463-467). *)
Record lex := Lex {
  rd : list revent;
  lpos : pos;
  last : option ascii;
  errs : N;
}.

(** koopa/src/front/lexer.rs:25-31 [Lexer::new] *)
Definition lex_new (r : list revent) (e : N) : lex := Lex r pos0 (Some " "%char) e.

(** [Span::log_error] and friends return an error and count it
    (koopa/src/front/span.rs:141-177,243-269). *)
Definition log_err (l : lex) : lex := Lex (rd l) (lpos l) (last l) (errs l + 1).

(** koopa/src/front/lexer.rs:68-83 [next_char] *)
Definition next_char : M lex unit := λ l,
  match rd l with
  | [] => (Rok tt, Lex [] (lpos l) None (errs l))
  | RErr :: r => (Rerr true, log_err (Lex r (lpos l) (last l) (errs l)))
  | RByte c :: r => (Rok tt, Lex r (pos_update c (lpos l)) (Some c) (errs l))
  end.

(** The loops [while self.last_char.is_some_and(p) { buf.push(last); span.update(pos);
    self.next_char()?; }] (koopa/src/front/lexer.rs:36-38,91-95,124-128,132-139,154-158,
    179-181,213-215; some of them ignore the characters and the end position): returns
    the characters read and the position of the last of them ([e] if none). *)
Fixpoint scan_ (p : ascii → bool) (r : list revent) (q : pos) (la : option ascii) (n : N)
    (e : pos) : res (list ascii * pos) * lex :=
  match la with
  | Some c =>
      if p c then
        match r with
        | [] => (Rok ([c], q), Lex [] q None n)
        | RErr :: r' => (Rerr true, Lex r' q la (n + 1))
        | RByte c' :: r' =>
            match scan_ p r' (pos_update c' q) (Some c') n q with
            | (Rok (cs, e'), l') => (Rok (c :: cs, e'), l')
            | (x, l') => (x, l')
            end
        end
      else (Rok ([], e), Lex r q la n)
  | None => (Rok ([], e), Lex r q la n)
  end.
(** The loop on the state of the lexer (koopa/src/front/lexer.rs:124-128, 132-139, 154-158) *)
Definition scan (p : ascii → bool) (e : pos) : M lex (list ascii * pos) := λ l,
  scan_ p (rd l) (lpos l) (last l) (errs l) e.

(** koopa/src/front/lexer.rs:212-217 [log_err_and_skip] *)
Definition log_err_and_skip {A} : M lex A :=
  scan (λ c, negb (is_whitespace c)) pos0;; λ l, (Rerr false, log_err l).

(** Decimal digits, most significant first ([<i64 as FromStr>], used at
    koopa/src/front/lexer.rs:97). *)
Fixpoint digits_val (l : list ascii) (acc : Z) : option Z :=
  match l with
  | [] => Some acc
  | c :: l' =>
      if is_ascii_digit c then digits_val l' (acc * 10 + Z.of_N (N_of_ascii c - 48))%Z
      else None
  end.
(** [num.parse::<i64>()] (koopa/src/front/lexer.rs:97): optional sign, at least one
    digit, no overflow. *)
Definition parse_i64 (l : list ascii) : option Z :=
  match l with
  | [] => None
  | c :: l' =>
      let ds := if Ascii.eqb c "-" then l' else l in
      match ds with
      | [] => None
      | _ =>
          v ← digits_val ds 0;
          let z := if Ascii.eqb c "-" then (- v)%Z else v in
          if ((-9223372036854775808 <=? z) && (z <=? 9223372036854775807))%Z
          then Some z else None
      end
  end.

(** koopa/src/front/lexer.rs:86-102 [handle_integer]; [c] is [self.last_char.unwrap()]
    (line 89), which the caller has just checked. *)
Definition handle_integer (c : ascii) : M lex token :=
  l <- mget;;
  next_char;;
  '(cs, e) <- scan is_numeric (lpos l);;
  match parse_i64 (c :: cs) with
  | Some z => mok (Token (Span (lpos l) e) (TkInt z))
  | None => log_err_and_skip
  end.

(** koopa/src/front/lexer.rs:105-147 [handle_symbol]; [tag] is
    [self.last_char.unwrap()] (line 107). *)
Definition handle_symbol (tag : ascii) : M lex token :=
  l <- mget;;
  next_char;;
  l' <- mget;;
  '(cs, e) <-
    match last l' with
    | Some d =>
        if is_numeric d then
          if Ascii.eqb tag "@" then log_err_and_skip
          else
            next_char;;
            if Ascii.eqb d "0" then mok ([d], lpos l')
            else
              '(cs, e) <- scan is_numeric (lpos l');;
              mok (d :: cs, e)
        else scan is_symbol_char (lpos l)
    | None => scan is_symbol_char (lpos l)
    end;;
  match cs with
  | [] => log_err_and_skip
  | _ => mok (Token (Span (lpos l) e) (TkSymbol (utf8s (tag :: cs))))
  end.

(** koopa/src/front/lexer.rs:150-167 [handle_keyword] *)
Definition handle_keyword : M lex token :=
  l <- mget;;
  '(cs, e) <- scan is_alphanumeric (lpos l);;
  match map_get (utf8s cs) KEYWORDS with
  | Some k => mok (Token (Span (lpos l) e) (TkKeyword k))
  | None =>
      match map_get (utf8s cs) BINARY_OPS with
      | Some op => mok (Token (Span (lpos l) e) (TkBinaryOp op))
      | None => log_err_and_skip
      end
  end.

(** koopa/src/front/lexer.rs:195-198: the loop of [handle_block_comment] *)
Fixpoint block_loop (star : bool) (r : list revent) (q : pos) (la : option ascii) (n : N)
    : res unit * lex :=
  match la with
  | None => (Rok tt, Lex r q la n)
  | Some c =>
      if star && Ascii.eqb c "/" then (Rok tt, Lex r q la n)
      else
        match r with
        | [] => (Rok tt, Lex [] q None n)
        | RErr :: r' => (Rerr true, Lex r' q la (n + 1))
        | RByte c' :: r' =>
            block_loop (Ascii.eqb c "*") r' (pos_update c' q) (Some c') n
        end
  end.

(** koopa/src/front/lexer.rs:190-207 [handle_block_comment]; [next] is the recursive
    call of [self.next_token()] (line 205). *)
Definition handle_block_comment (next : M lex token) : M lex token :=
  next_char;;
  (λ l, block_loop false (rd l) (lpos l) (last l) (errs l));;
  l <- mget;;
  match last l with
  | None => log_err_and_skip
  | Some _ => next_char;; next
  end.

(** koopa/src/front/lexer.rs:170-187 [handle_comment] *)
Definition handle_comment (next : M lex token) : M lex token :=
  next_char;;
  l <- mget;;
  match last l with
  | Some c =>
      if Ascii.eqb c "*" then handle_block_comment next
      else if Ascii.eqb c "/" then
        scan (λ c, negb (Ascii.eqb c "013") && negb (Ascii.eqb c "010")) pos0;;
        next
      else log_err_and_skip
  | None => log_err_and_skip
  end.

(** koopa/src/front/lexer.rs:34-63 [next_token]; the recursion through comments
    (lines 183, 205) is bounded by [fuel]. *)
Fixpoint next_token_f (fuel : nat) : M lex token :=
  match fuel with
  | O => λ l, (Rfuel, l)
  | S f =>
      scan is_whitespace pos0;;
      l <- mget;;
      match last l with
      | Some c =>
          if Ascii.eqb c "/" then handle_comment (next_token_f f)
          else if Ascii.eqb c "@" || Ascii.eqb c "%" then handle_symbol c
          else if is_alphabetic c then handle_keyword
          else if is_numeric c || Ascii.eqb c "-" then handle_integer c
          else next_char;; mok (Token (span_new (lpos l)) (TkOther c))
      | None => mok (Token (span_new (lpos l)) TkEnd)
      end
  end.

(** koopa/src/front/lexer.rs:34-63 [next_token], with fuel that always suffices
    (theorem C19_no_fuel: every nested call has consumed input). *)
Definition lex_next_token : M lex token := λ l, next_token_f (S (length (rd l))) l.

(** A client that calls [next_token] [n] times (as the tests of
    koopa/src/front/lexer.rs:285-369 do) and keeps the results. *)
Fixpoint lex_run (n : nat) (l : lex) : list (res token) * lex :=
  match n with
  | O => ([], l)
  | S n' =>
      let '(r, l') := lex_next_token l in
      let '(rs, l'') := lex_run n' l' in
      (r :: rs, l'')
  end.
