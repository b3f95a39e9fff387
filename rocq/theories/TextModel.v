(** Model of the [Display] implementations the text generator uses, other than those of
    integers and types (TypeModel). *)
From Verif Require Import Base IrModel TypeModel LexerModel.

(** koopa/src/ir/values.rs:352-374 [Display] for [BinaryOp] *)
Definition show_binop (o : binop) : string :=
  match o with
  | NotEq => "ne" | Eq_ => "eq" | Gt_ => "gt" | Lt_ => "lt" | Ge_ => "ge" | Le_ => "le"
  | Add => "add" | Sub => "sub" | Mul => "mul" | Div => "div" | Mod_ => "mod"
  | And => "and" | Or => "or" | Xor => "xor" | Shl => "shl" | Shr => "shr" | Sar => "sar"
  end.

(** koopa/src/front/token.rs:100-126 [Display] for [Keyword]; the text generator writes
    the same words as literals (koopa/src/back/koopa.rs:76,78,158,202,208,214,223,231,247,
    257,266,282,314,315). *)
Definition show_keyword (k : keyword) : string :=
  match k with
  | KwI32 => "i32" | KwUndef => "undef" | KwZeroInit => "zeroinit" | KwGlobal => "global"
  | KwAlloc => "alloc" | KwLoad => "load" | KwStore => "store" | KwGetPtr => "getptr"
  | KwGetElemPtr => "getelemptr" | KwBr => "br" | KwJump => "jump" | KwCall => "call"
  | KwRet => "ret" | KwFun => "fun" | KwDecl => "decl"
  end.

(** A token as the text generator prints it (koopa/src/back/koopa.rs: integers 313,331;
    names through the name manager; operators 239; keywords and punctuation as literals
    throughout). *)
Definition show_token (k : tokkind) : string :=
  match k with
  | TkInt z => show_Z z
  | TkSymbol s => s
  | TkKeyword k => show_keyword k
  | TkBinaryOp o => show_binop o
  | TkOther c => String c EmptyString
  | TkEnd => EmptyString
  end.
