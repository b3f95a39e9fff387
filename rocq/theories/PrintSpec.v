(** The text format of the Koopa generator (koopa/src/back/koopa.rs), described on syntax
    trees, and the trees that have such a text.  Nothing here mentions the parser or the
    lexer's functions. *)
From Verif Require Import Base IrModel TypeModel TextModel LexerModel LexerSpec ParserModel ParserSpec.

Notation nl := (String "010"%char EmptyString).

Fixpoint text_aty (t : aty) : string :=
  match t with
  | AInt => "i32"
  | AArr b n => "[" ++ text_aty b ++ ", " ++ show_N n ++ "]"
  | APtr b => "*" ++ text_aty b
  | AFun ps r =>
      "(" ++ sep_comma (map text_aty ps) ++ ")" ++
      match r with None => "" | Some r => ": " ++ text_aty r end
  end%string.

Definition text_val (v : aval) : string :=
  match v with VSym s => s | VInt z => show_Z z | VUndef => "undef" end.

Fixpoint text_init (i : ainit) : string :=
  match i with
  | IInt z => show_Z z
  | IUndef => "undef"
  | IZero => "zeroinit"
  | IAggr l => "{" ++ sep_comma (map text_init l) ++ "}"
  end%string.

Definition text_args (l : list aval) : string :=
  ("(" ++ sep_comma (map text_val l) ++ ")")%string.
(** arguments of a block: nothing if there are none *)
Definition text_opt_args (l : list aval) : string :=
  match l with [] => "" | _ => text_args l end%string.
Definition text_param (p : string * aty) : string := (p.1 ++ ": " ++ text_aty p.2)%string.
Definition text_params (l : list (string * aty)) : string :=
  ("(" ++ sep_comma (map text_param l) ++ ")")%string.
Definition text_opt_params (l : list (string * aty)) : string :=
  match l with [] => "" | _ => text_params l end%string.
Definition text_ret (r : option aty) : string :=
  match r with None => "" | Some t => ": " ++ text_aty t end%string.

Definition text_expr (e : aexpr) : string :=
  match e with
  | EMemDecl t => "alloc " ++ text_aty t
  | ELoad s => "load " ++ s
  | EGetPtr s v => "getptr " ++ s ++ ", " ++ text_val v
  | EGetElemPtr s v => "getelemptr " ++ s ++ ", " ++ text_val v
  | EBin op l r => show_binop op ++ " " ++ text_val l ++ ", " ++ text_val r
  | ECall f args => "call " ++ f ++ text_args args
  end%string.

Definition text_stmt (st : astmt) : string :=
  match st with
  | SDef n e => n ++ " = " ++ text_expr e
  | SStore (SvSym s) d => "store " ++ s ++ ", " ++ d
  | SStore (SvInit i) d => "store " ++ text_init i ++ ", " ++ d
  | SCall f args => "call " ++ f ++ text_args args
  | SBr c t ta f fa =>
      "br " ++ text_val c ++ ", " ++ t ++ text_opt_args ta ++ ", " ++ f ++ text_opt_args fa
  | SJump t a => "jump " ++ t ++ text_opt_args a
  | SRet None => "ret"
  | SRet (Some v) => "ret " ++ text_val v
  | SErr => ""
  end%string.

Fixpoint cat (l : list string) : string :=
  match l with [] => EmptyString | s :: l' => (s ++ cat l')%string end.
(** with an empty line between two parts *)
Fixpoint cat_nl (l : list string) : string :=
  match l with
  | [] => EmptyString
  | [s] => s
  | s :: l' => (s ++ nl ++ cat_nl l')%string
  end.

Definition text_block (b : ablock) : string :=
  (b_name b ++ text_opt_params (b_params b) ++ ":" ++ nl ++
   cat (map (λ st, "  " ++ text_stmt st ++ nl) (b_stmts b)))%string.

Definition text_top (t : atop) : string :=
  match t with
  | TGlobal n t i => "global " ++ n ++ " = alloc " ++ text_aty t ++ ", " ++ text_init i ++ nl
  | TFunDef n ps r bbs =>
      "fun " ++ n ++ text_params ps ++ text_ret r ++ " {" ++ nl ++
      cat_nl (map text_block bbs) ++ "}" ++ nl
  | TFunDecl n ps r =>
      "decl " ++ n ++ "(" ++ sep_comma (map text_aty ps) ++ ")" ++ text_ret r ++ nl
  | TEnd | TErr => ""
  end%string.

(** Globals, an empty line if there are any, functions separated by empty lines. *)
Definition text_program (globals funcs : list atop) : string :=
  (cat (map text_top globals) ++
   match globals with [] => "" | _ => nl end ++
   cat_nl (map text_top funcs))%string.

(** ** Trees that have a text *)

(** Names: a symbol in ASCII. *)
Definition wf_name (s : string) : Prop :=
  ascii_only s ∧ symbol_text (String.list_ascii_of_string s).
Definition wf_int (z : Z) : Prop := (- 2 ^ 31 ≤ z < 2 ^ 31)%Z.

Inductive wf_aty : aty → Prop :=
  | wa_int : wf_aty AInt
  | wa_arr b n : wf_aty b → (n < 2 ^ 63)%N → wf_aty (AArr b n)
  | wa_ptr b : wf_aty b → wf_aty (APtr b)
  | wa_fun ps r : Forall wf_aty ps → (∀ t, r = Some t → wf_aty t) → wf_aty (AFun ps r).
Inductive wf_init : ainit → Prop :=
  | wi_int z : wf_int z → wf_init (IInt z)
  | wi_undef : wf_init IUndef
  | wi_zero : wf_init IZero
  | wi_aggr l : l ≠ [] → Forall wf_init l → wf_init (IAggr l).
Definition wf_val (v : aval) : Prop :=
  match v with VSym s => wf_name s | VInt z => wf_int z | VUndef => True end.
Definition wf_expr (e : aexpr) : Prop :=
  match e with
  | EMemDecl t => wf_aty t
  | ELoad s => wf_name s
  | EGetPtr s v | EGetElemPtr s v => wf_name s ∧ wf_val v
  | EBin _ l r => wf_val l ∧ wf_val r
  | ECall f args => wf_name f ∧ Forall wf_val args
  end.
Definition wf_stmt (st : astmt) : Prop :=
  match st with
  | SDef n e => wf_name n ∧ wf_expr e
  | SStore (SvSym s) d => wf_name s ∧ wf_name d
  | SStore (SvInit i) d => wf_init i ∧ wf_name d
  | SCall f args => wf_name f ∧ Forall wf_val args
  | SBr c t ta f fa =>
      wf_val c ∧ wf_name t ∧ Forall wf_val ta ∧ wf_name f ∧ Forall wf_val fa
  | SJump t a => wf_name t ∧ Forall wf_val a
  | SRet v => ∀ x, v = Some x → wf_val x
  | SErr => False
  end.
Definition wf_param (p : string * aty) : Prop := wf_name p.1 ∧ wf_aty p.2.
Definition wf_block (b : ablock) : Prop :=
  wf_name (b_name b) ∧ Forall wf_param (b_params b) ∧ Forall wf_stmt (b_stmts b) ∧
  block_shape b.
Definition wf_ret (r : option aty) : Prop := ∀ t, r = Some t → wf_aty t.
Definition wf_global (t : atop) : Prop :=
  match t with TGlobal n t i => wf_name n ∧ wf_aty t ∧ wf_init i | _ => False end.
Definition wf_func (t : atop) : Prop :=
  match t with
  | TFunDef n ps r bbs =>
      wf_name n ∧ Forall wf_param ps ∧ wf_ret r ∧ bbs ≠ [] ∧ Forall wf_block bbs
  | TFunDecl n ps r => wf_name n ∧ Forall wf_aty ps ∧ wf_ret r
  | _ => False
  end.

(** ** Types *)
(** Types in the image of the text format: unit only as a result, lengths that are
    positive 64-bit integers. *)
Inductive readable : ty → Prop :=
  | rd_int : readable TInt32
  | rd_arr b n : readable b → (1 ≤ n < 2 ^ 63)%N → readable (TArray b n)
  | rd_ptr b : readable b → readable (TPtr b)
  | rd_fun ps r : Forall readable ps → r = TUnit ∨ readable r → readable (TFun ps r).
(** Unit only as a result. *)
Inductive no_unit : ty → Prop :=
  | nu_int : no_unit TInt32
  | nu_arr b n : no_unit b → no_unit (TArray b n)
  | nu_ptr b : no_unit b → no_unit (TPtr b)
  | nu_fun ps r : Forall no_unit ps → r = TUnit ∨ no_unit r → no_unit (TFun ps r).
