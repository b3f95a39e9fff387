(** Model of koopa/src/front/ast.rs and koopa/src/front/parser.rs.

    Simplifications: the spans that the parser attaches to syntax trees are dropped (they
    are only used to print messages); message texts are dropped (an error is counted in
    [errs], see LexerModel); where the Rust tree is untyped ([AstBox]), the model uses one
    type per grammatical role, so that the shapes that the parser can build are exactly
    the inhabitants. *)
From Verif Require Import Base IrModel LexerModel.

(** ** Syntax trees *)

(** koopa/src/front/ast.rs:96-145 [IntType], [ArrayType], [PointerType], [FunType] *)
Inductive aty :=
  | AInt
  | AArr (base : aty) (len : N)
  | APtr (base : aty)
  | AFun (params : list aty) (ret : option aty).

(** koopa/src/front/ast.rs:148-182 [SymbolRef], [IntVal], [UndefVal]: what
    [parse_value] returns *)
Inductive aval :=
  | VSym (s : string)
  | VInt (z : Z)
  | VUndef.

(** koopa/src/front/ast.rs:161-206 [IntVal], [UndefVal], [Aggregate], [ZeroInit]: what
    [parse_init] returns *)
Inductive ainit :=
  | IInt (z : Z)
  | IUndef
  | IZero
  | IAggr (elems : list ainit).

(** koopa/src/front/ast.rs:277-281 [Store::value]: a [SymbolRef] or an initializer
    (koopa/src/front/parser.rs:346-356) *)
Inductive astore :=
  | SvSym (s : string)
  | SvInit (i : ainit).

(** koopa/src/front/ast.rs:237-332,381-385 [MemDecl], [Load], [GetPointer],
    [GetElementPointer], [BinaryExpr], [FunCall]: the right-hand sides of
    [SymbolDef] (koopa/src/front/parser.rs:307-315) *)
Inductive aexpr :=
  | EMemDecl (t : aty)
  | ELoad (s : string)
  | EGetPtr (s : string) (v : aval)
  | EGetElemPtr (s : string) (v : aval)
  | EBin (op : binop) (l r : aval)
  | ECall (f : string) (args : list aval).

(** koopa/src/front/ast.rs:209-221,277-289,334-405,491 [SymbolDef], [Store], [FunCall],
    [Branch], [Jump], [Return], [Error]: the statements of a block *)
Inductive astmt :=
  | SDef (name : string) (e : aexpr)
  | SStore (v : astore) (dest : string)
  | SCall (f : string) (args : list aval)
  | SBr (cond : aval) (tbb : string) (targs : list aval) (fbb : string) (fargs : list aval)
  | SJump (target : string) (args : list aval)
  | SRet (v : option aval)
  | SErr.

(** koopa/src/front/ast.rs:438-442 [Block] *)
Record ablock := ABlock {
  b_name : string;
  b_params : list (string * aty);
  b_stmts : list astmt;
}.

(** koopa/src/front/ast.rs:223-262,408-413,465-469,480,491 [GlobalDef] (with its
    [GlobalDecl]), [FunDef], [FunDecl], [End], [Error]: what [parse_next] returns *)
Inductive atop :=
  | TGlobal (name : string) (t : aty) (i : ainit)
  | TFunDef (name : string) (params : list (string * aty)) (ret : option aty)
      (bbs : list ablock)
  | TFunDecl (name : string) (params : list aty) (ret : option aty)
  | TEnd
  | TErr.

(** ** Numbers *)

(** [i64 as i32] (koopa/src/front/parser.rs:495,511): the low 32 bits *)
Definition i64_as_i32 (z : Z) : Z :=
  ((z + 2147483648) mod 4294967296 - 2147483648)%Z.
(** [i64 as usize] on a 64-bit target (koopa/src/front/parser.rs:222) *)
Definition i64_as_usize (z : Z) : N := Z.to_N (z mod 18446744073709551616)%Z.

(** ** The parser *)

(** koopa/src/front/parser.rs:14-17 [Parser] *)
Record ps := Ps { p_lex : lex; p_cur : token }.

(** [self.cur_token.kind] (koopa/src/front/parser.rs:16) *)
Definition cur_kind (s : ps) : tokkind := tok_kind (p_cur s).

(** equality of tokens (the derived [PartialEq] of koopa/src/front/token.rs:36) against
    [TokenKind::Other(c)] and [TokenKind::Keyword(k)], the only kinds the parser compares
    with *)
Definition is_other (c : ascii) (k : tokkind) : bool :=
  match k with TkOther c' => Ascii.eqb c' c | _ => false end.
(** see [is_other]; used at koopa/src/front/parser.rs:113 *)
Definition is_alloc (k : tokkind) : bool :=
  match k with TkKeyword KwAlloc => true | _ => false end.

(** koopa/src/front/parser.rs:94-97 [next_token]: on an error the current token stays *)
Definition p_next : M ps unit := λ s,
  match lex_next_token (p_lex s) with
  | (Rok t, l) => (Rok tt, Ps l t)
  | (Rerr f, l) => (Rerr f, Ps l (p_cur s))
  | (Rpanic, l) => (Rpanic, Ps l (p_cur s))
  | (Rfuel, l) => (Rfuel, Ps l (p_cur s))
  end.

(** [return_error!] (koopa/src/front/span.rs:538-543, through [Span::log_error]): counts
    an error and returns from the enclosing function or closure; at every use the
    enclosing function passes the error on with [?] or as its result, except in the [?]
    arms of [match_token!], see [block_stmt] and [parse_next_f] *)
Definition p_error {A} : M ps A := λ s, (Rerr false, Ps (log_err (p_lex s)) (p_cur s)).

(** [read!] (koopa/src/front/parser.rs:23-34) at [TokenKind::Symbol] *)
Definition read_sym : M ps string := λ s,
  match cur_kind s with
  | TkSymbol v => (p_next;; mok v) s
  | _ => p_error s
  end.
(** [read!] at [TokenKind::Int] (koopa/src/front/parser.rs:222) *)
Definition read_int : M ps Z := λ s,
  match cur_kind s with
  | TkInt v => (p_next;; mok v) s
  | _ => p_error s
  end.
(** [read!] at [TokenKind::BinaryOp] (koopa/src/front/parser.rs:401) *)
Definition read_op : M ps binop := λ s,
  match cur_kind s with
  | TkBinaryOp v => (p_next;; mok v) s
  | _ => p_error s
  end.

(** koopa/src/front/parser.rs:595-604 [expect], for the tokens that satisfy [is] *)
Definition expect_ (is : tokkind → bool) : M ps unit := λ s,
  if is (cur_kind s) then p_next s else p_error s.
(** [self.expect(TokenKind::Other(c))] (koopa/src/front/parser.rs:595-604) *)
Definition expect (c : ascii) : M ps unit := expect_ (is_other c).

(** koopa/src/front/parser.rs:562-570: the loop of [parse_list] *)
Fixpoint list_loop {A} (fuel : nat) (item : M ps A) : M ps (list A) :=
  match fuel with
  | O => λ s, (Rfuel, s)
  | S f =>
      x <- item;;
      s <- mget;;
      if is_other "," (cur_kind s) then
        p_next;;
        xs <- list_loop f item;;
        mok (x :: xs)
      else mok [x]
  end.
(** koopa/src/front/parser.rs:553-574 [parse_list] *)
Definition parse_list {A} (fuel : nat) (item : M ps A) : M ps (list A) :=
  expect "(";;
  s <- mget;;
  xs <- (if is_other ")" (cur_kind s) then mok [] else list_loop fuel item);;
  expect ")";;
  mok xs.
(** koopa/src/front/parser.rs:577-587 [parse_opt_list] *)
Definition parse_opt_list {A} (fuel : nat) (item : M ps A) : M ps (list A) := λ s,
  if is_other "(" (cur_kind s) then parse_list fuel item s else mok [] s.

(** koopa/src/front/parser.rs:145-149,182-188,246-252: an optional return type *)
Definition opt_ret (ty : M ps aty) : M ps (option aty) := λ s,
  if is_other ":" (cur_kind s) then (p_next;; t <- ty;; mok (Some t)) s else mok None s.

(** koopa/src/front/parser.rs:194-255 [parse_type] with [parse_int_type] (206-210),
    [parse_array_type] (213-226), [parse_pointer_type] (229-237), [parse_fun_type]
    (240-255) *)
Fixpoint parse_type (fuel : nat) : M ps aty :=
  match fuel with
  | O => λ s, (Rfuel, s)
  | S f => λ s,
      match cur_kind s with
      | TkKeyword KwI32 => (p_next;; mok AInt) s
      | TkOther c =>
          if Ascii.eqb c "[" then
            (p_next;;
             base <- parse_type f;;
             expect ",";;
             len <- read_int;;
             expect "]";;
             mok (AArr base (i64_as_usize len))) s
          else if Ascii.eqb c "*" then
            (p_next;;
             base <- parse_type f;;
             mok (APtr base)) s
          else if Ascii.eqb c "(" then
            (params <- parse_list f (parse_type f);;
             ret <- opt_ret (parse_type f);;
             mok (AFun params ret)) s
          else p_error s
      | _ => p_error s
      end
  end.

(** koopa/src/front/parser.rs:136-143,263-270: a named parameter *)
Definition parse_param (fuel : nat) : M ps (string * aty) :=
  name <- read_sym;;
  expect ":";;
  t <- parse_type fuel;;
  mok (name, t).

(** koopa/src/front/parser.rs:489-503 [parse_value] *)
Definition parse_value : M ps aval := λ s,
  match cur_kind s with
  | TkSymbol v => (p_next;; mok (VSym v)) s
  | TkInt i => (p_next;; mok (VInt (i64_as_i32 i))) s
  | TkKeyword KwUndef => (p_next;; mok VUndef) s
  | _ => p_error s
  end.

(** koopa/src/front/parser.rs:540-544: the elements of an aggregate; the first element is
    read before the loop, and the loop condition is [is_token(',')], which is what
    [list_loop] does *)
Definition elems_loop {A} : nat → M ps A → M ps (list A) := list_loop.
(** koopa/src/front/parser.rs:506-550 [parse_init], [parse_aggregate] *)
Fixpoint parse_init (fuel : nat) : M ps ainit :=
  match fuel with
  | O => λ s, (Rfuel, s)
  | S f => λ s,
      match cur_kind s with
      | TkInt i => (p_next;; mok (IInt (i64_as_i32 i))) s
      | TkKeyword KwUndef => (p_next;; mok IUndef) s
      | TkKeyword KwZeroInit => (p_next;; mok IZero) s
      | TkOther c =>
          if Ascii.eqb c "{" then
            (expect "{";;
             elems <- elems_loop f (parse_init f);;
             expect "}";;
             mok (IAggr elems)) s
          else p_error s
      | _ => p_error s
      end
  end.

(** koopa/src/front/parser.rs:456-470 [parse_fun_call]; it builds a [FunCall], used as a
    statement and as an expression *)
Definition parse_fun_call (fuel : nat) : M ps (string * list aval) :=
  p_next;;
  f <- read_sym;;
  args <- parse_list fuel parse_value;;
  mok (f, args).

(** koopa/src/front/parser.rs:366-395 [parse_get_pointer], [parse_get_element_pointer] *)
Definition parse_gep (mk : string → aval → aexpr) : M ps aexpr :=
  p_next;;
  s <- read_sym;;
  expect ",";;
  v <- parse_value;;
  mok (mk s v).

(** koopa/src/front/parser.rs:306-315 with [parse_mem_decl] (320-328), [parse_load]
    (331-338), [parse_binary_expr] (398-408) *)
Definition parse_expr (fuel : nat) : M ps aexpr := λ s,
  match cur_kind s with
  | TkKeyword KwAlloc => (p_next;; t <- parse_type fuel;; mok (EMemDecl t)) s
  | TkKeyword KwLoad => (p_next;; v <- read_sym;; mok (ELoad v)) s
  | TkKeyword KwGetPtr => parse_gep EGetPtr s
  | TkKeyword KwGetElemPtr => parse_gep EGetElemPtr s
  | TkBinaryOp _ =>
      (op <- read_op;;
       l <- parse_value;;
       expect ",";;
       r <- parse_value;;
       mok (EBin op l r)) s
  | TkKeyword KwCall => ('(f, args) <- parse_fun_call fuel;; mok (ECall f args)) s
  | _ => p_error s
  end.

(** koopa/src/front/parser.rs:299-317 [parse_symbol_def] *)
Definition parse_symbol_def (fuel : nat) : M ps astmt :=
  name <- read_sym;;
  expect "=";;
  e <- parse_expr fuel;;
  mok (SDef name e).

(** koopa/src/front/parser.rs:346-356 *)
Definition parse_store_value (fuel : nat) : M ps astore := λ s,
  match cur_kind s with
  | TkSymbol v => (p_next;; mok (SvSym v)) s
  | _ => (i <- parse_init fuel;; mok (SvInit i)) s
  end.
(** koopa/src/front/parser.rs:341-363 [parse_store] *)
Definition parse_store (fuel : nat) : M ps astmt :=
  p_next;;
  v <- parse_store_value fuel;;
  expect ",";;
  d <- read_sym;;
  mok (SStore v d).

(** koopa/src/front/parser.rs:411-437 [parse_branch] *)
Definition parse_branch (fuel : nat) : M ps astmt :=
  p_next;;
  c <- parse_value;;
  expect ",";;
  t <- read_sym;;
  targs <- parse_opt_list fuel parse_value;;
  expect ",";;
  f <- read_sym;;
  fargs <- parse_opt_list fuel parse_value;;
  mok (SBr c t targs f fargs).

(** koopa/src/front/parser.rs:440-453 [parse_jump] *)
Definition parse_jump (fuel : nat) : M ps astmt :=
  p_next;;
  t <- read_sym;;
  args <- parse_opt_list fuel parse_value;;
  mok (SJump t args).

(** koopa/src/front/parser.rs:473-486 [parse_return] *)
Definition parse_return : M ps astmt :=
  s <- mget;;
  p_next;;
  s' <- mget;;
  if is_in_same_line_as (tok_span (p_cur s)) (tok_span (p_cur s')) then
    v <- parse_value;;
    mok (SRet (Some v))
  else mok (SRet None).

(** koopa/src/front/parser.rs:279-284, the patterns: [None] if the token starts no
    statement, otherwise whether [exit_flag] is set *)
Definition stmt_start (k : tokkind) : option bool :=
  match k with
  | TkSymbol _ => Some false
  | TkKeyword KwStore => Some false
  | TkKeyword KwCall => Some false
  | TkKeyword KwBr => Some true
  | TkKeyword KwJump => Some true
  | TkKeyword KwRet => Some true
  | _ => None
  end.
(** koopa/src/front/parser.rs:279-285, the results *)
Definition parse_stmt (fuel : nat) : M ps astmt := λ s,
  match cur_kind s with
  | TkSymbol _ => parse_symbol_def fuel s
  | TkKeyword KwStore => parse_store fuel s
  | TkKeyword KwCall => ('(f, args) <- parse_fun_call fuel;; mok (SCall f args)) s
  | TkKeyword KwBr => parse_branch fuel s
  | TkKeyword KwJump => parse_jump fuel s
  | TkKeyword KwRet => parse_return s
  | _ => p_error s
  end.

(** The recovery loop of [match_token!] (koopa/src/front/parser.rs:52-62): skips tokens
    until [stop] holds; [brk] is the [break if] pattern.  Returns whether it was left
    through [break]. *)
Fixpoint recover (fuel : nat) (stop brk : tokkind → bool) : M ps bool :=
  match fuel with
  | O => λ s, (Rfuel, s)
  | S f => λ s,
      if stop (cur_kind s) then (Rok false, s)
      else if brk (cur_kind s) then (Rok true, s)
      else
        match p_next s with
        | (Rok _, s') | (Rerr false, s') => recover f stop brk s'
        | (Rerr true, s') => (Rerr true, s')
        | (Rpanic, s') => (Rpanic, s')
        | (Rfuel, s') => (Rfuel, s')
        end
  end.

(** koopa/src/front/parser.rs:286 the [break if] pattern *)
Definition block_break (k : tokkind) : bool :=
  match k with TkOther c => Ascii.eqb c "}" | TkEnd => true | _ => false end.

(** koopa/src/front/parser.rs:277-287: one statement with recovery; returns the statement
    and the new [exit_flag].  For a token that starts no statement, [return_error!] leaves
    the whole of [parse_block] (line 285): no recovery. *)
Definition block_stmt (fuel : nat) : M ps (astmt * bool) := λ s,
  match stmt_start (cur_kind s) with
  | None => p_error s
  | Some exit =>
      match parse_stmt fuel s with
      | (Rok st, s') => (Rok (st, exit), s')
      | (Rerr false, s') =>
          (b <- recover fuel (λ k, bool_decide (is_Some (stmt_start k))) block_break;;
           mok (SErr, exit || b)) s'
      | (Rerr true, s') => (Rerr true, s')
      | (Rpanic, s') => (Rpanic, s')
      | (Rfuel, s') => (Rfuel, s')
      end
  end.

(** koopa/src/front/parser.rs:274-288: the statements of a block *)
Fixpoint block_loop_ (fuel : nat) (g : nat) : M ps (list astmt) :=
  match fuel with
  | O => λ s, (Rfuel, s)
  | S f =>
      '(st, exit) <- block_stmt g;;
      if (exit : bool) then mok [st]
      else
        sts <- block_loop_ f g;;
        mok (st :: sts)
  end.

(** koopa/src/front/parser.rs:258-296 [parse_block] *)
Definition parse_block (fuel : nat) : M ps ablock :=
  name <- read_sym;;
  params <- parse_opt_list fuel (parse_param fuel);;
  expect ":";;
  stmts <- block_loop_ fuel fuel;;
  mok (ABlock name params stmts).

(** koopa/src/front/parser.rs:153-156 *)
Fixpoint blocks_loop (fuel : nat) (g : nat) : M ps (list ablock) :=
  match fuel with
  | O => λ s, (Rfuel, s)
  | S f => λ s,
      if is_other "}" (cur_kind s) then (Rok [], s)
      else
        (b <- parse_block g;;
         bs <- blocks_loop f g;;
         mok (b :: bs)) s
  end.

(** koopa/src/front/parser.rs:129-169 [parse_fun_def] *)
Definition parse_fun_def (fuel : nat) : M ps atop :=
  p_next;;
  name <- read_sym;;
  params <- parse_list fuel (parse_param fuel);;
  ret <- opt_ret (parse_type fuel);;
  expect "{";;
  bbs <- blocks_loop fuel fuel;;
  p_next;;
  match bbs with
  | [] => p_error
  | _ => mok (TFunDef name params ret bbs)
  end.

(** koopa/src/front/parser.rs:172-191 [parse_fun_decl] *)
Definition parse_fun_decl (fuel : nat) : M ps atop :=
  p_next;;
  name <- read_sym;;
  params <- parse_list fuel (parse_type fuel);;
  ret <- opt_ret (parse_type fuel);;
  mok (TFunDecl name params ret).

(** koopa/src/front/parser.rs:105-126 [parse_global_def] *)
Definition parse_global_def (fuel : nat) : M ps atop :=
  p_next;;
  name <- read_sym;;
  expect "=";;
  expect_ is_alloc;;
  t <- parse_type fuel;;
  expect ",";;
  i <- parse_init fuel;;
  mok (TGlobal name t i).

(** koopa/src/front/parser.rs:85-88, the patterns *)
Definition top_start (k : tokkind) : bool :=
  match k with
  | TkEnd | TkKeyword KwGlobal | TkKeyword KwFun | TkKeyword KwDecl => true
  | _ => false
  end.
(** koopa/src/front/parser.rs:85-89, the results *)
Definition parse_top (fuel : nat) : M ps atop := λ s,
  match cur_kind s with
  | TkEnd => mok TEnd s
  | TkKeyword KwGlobal => parse_global_def fuel s
  | TkKeyword KwFun => parse_fun_def fuel s
  | TkKeyword KwDecl => parse_fun_decl fuel s
  | _ => p_error s
  end.

(** koopa/src/front/parser.rs:82-91 [parse_next] with explicit fuel.  For a token that
    starts no definition, [return_error!] leaves [parse_next] (line 89): no recovery. *)
Definition parse_next_f (fuel : nat) : M ps atop := λ s,
  if top_start (cur_kind s) then
    match parse_top fuel s with
    | (Rerr false, s') =>
        (recover fuel top_start (λ _, false);; mok TErr) s'
    | r => r
    end
  else p_error s.

(** The number of tokens that can still be read, doubled, plus one for the current token:
    enough fuel for every loop of the parser (koopa/src/front/parser.rs:52-62 and others). *)
Definition p_fuel (s : ps) : nat := S (2 * (length (rd (p_lex s)) + 1) + 1).
(** koopa/src/front/parser.rs:82-91 [parse_next] *)
Definition parse_next : M ps atop := λ s, parse_next_f (p_fuel s) s.

(** koopa/src/front/parser.rs:72-79 [Parser::new]; [Token::default()] is
    koopa/src/front/token.rs:25-33 *)
Definition parser_new : lex → res ps * lex := λ l,
  match p_next (Ps l (Token (Span pos0 pos0) TkEnd)) with
  | (Rok _, s) => (Rok s, p_lex s)
  | (Rerr f, s) => (Rerr f, p_lex s)
  | (Rpanic, s) => (Rpanic, p_lex s)
  | (Rfuel, s) => (Rfuel, p_lex s)
  end.
