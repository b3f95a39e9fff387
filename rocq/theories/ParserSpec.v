(** Specification of the shapes of syntax trees, independent of the parser. *)
From Verif Require Import Base IrModel LexerModel ParserModel.

(** Statements that end a block, and those that do not. *)
Definition terminator (st : astmt) : Prop :=
  match st with SBr _ _ _ _ _ | SJump _ _ | SRet _ => True | _ => False end.
Definition err_stmt (st : astmt) : Prop := st = SErr.

(** A block: some statements none of which is a terminator, then a terminator or a
    statement that was reported as erroneous. *)
Definition block_shape (b : ablock) : Prop :=
  ∃ body fin, b_stmts b = body ++ [fin] ∧ Forall (λ st, ¬ terminator st) body ∧
    (terminator fin ∨ err_stmt fin).

Definition top_shape (t : atop) : Prop :=
  match t with
  | TFunDef _ _ _ bbs => bbs ≠ [] ∧ Forall block_shape bbs
  | _ => True
  end.

(** No part of the tree stands for text that was skipped. *)
Definition no_err_block (b : ablock) : Prop := Forall (λ st, ¬ err_stmt st) (b_stmts b).
Definition no_err_top (t : atop) : Prop :=
  match t with
  | TFunDef _ _ _ bbs => Forall no_err_block bbs
  | TErr => False
  | _ => True
  end.

(** Aggregates are not empty. *)
Inductive init_shape : ainit → Prop :=
  | is_int z : (- 2 ^ 31 ≤ z < 2 ^ 31)%Z → init_shape (IInt z)
  | is_undef : init_shape IUndef
  | is_zero : init_shape IZero
  | is_aggr l : l ≠ [] → Forall init_shape l → init_shape (IAggr l).

(** A client that calls [parse_next] until the end or an error. *)
Inductive parses : ps → list atop → ps → Prop :=
  | parses_end s s' : parse_next s = (Rok TEnd, s') → parses s [] s'
  | parses_next s t s1 ts s' :
      parse_next s = (Rok t, s1) → t ≠ TEnd → parses s1 ts s' → parses s (t :: ts) s'.
Inductive parse_fails : ps → bool → ps → Prop :=
  | pf_now s f s' : parse_next s = (Rerr f, s') → parse_fails s f s'
  | pf_later s t s1 f s' :
      parse_next s = (Rok t, s1) → t ≠ TEnd → parse_fails s1 f s' → parse_fails s f s'.
