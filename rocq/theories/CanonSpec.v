(** Canonical texts (C28): the texts that the Koopa generator can write for a program that
    the front end can build, described on syntax trees.  Nothing here mentions the functions
    of the generator, of its name manager, or of the builder. *)
From Verif Require Import Base TypeModel IrModel LexerModel LexerSpec ParserModel ParserSpec PrintSpec FlowSpec FaithSpec.

(** ** Names *)
(** Where a name is written: the definition of a global variable, a function (its definition
    or a call), a value (the definition of a local value, or a use), a block (its definition
    or a target). *)
Inductive occ := OGlobal (n : string) | OFun (n : string) | OVal (n : string) | OBlk (n : string).

Definition occ_val (v : aval) : list occ := match v with VSym s => [OVal s] | _ => [] end.
Definition occ_expr (e : aexpr) : list occ :=
  match e with
  | EMemDecl _ => []
  | ELoad s => [OVal s]
  | EGetPtr s v | EGetElemPtr s v => OVal s :: occ_val v
  | EBin _ l r => occ_val l ++ occ_val r
  | ECall f args => OFun f :: concat (map occ_val args)
  end.
Definition occ_stmt (st : astmt) : list occ :=
  match st with
  | SDef n e => OVal n :: occ_expr e
  | SStore (SvSym s) d => [OVal s; OVal d]
  | SStore (SvInit _) d => [OVal d]
  | SCall f args => OFun f :: concat (map occ_val args)
  | SBr c t ta f fa =>
      occ_val c ++ (OBlk t :: concat (map occ_val ta)) ++ (OBlk f :: concat (map occ_val fa))
  | SJump t a => OBlk t :: concat (map occ_val a)
  | SRet (Some v) => occ_val v
  | SRet None | SErr => []
  end.
Definition occ_params (ps : list (string * aty)) : list occ := map (λ p, OVal p.1) ps.
Definition occ_block (b : ablock) : list occ :=
  OBlk (b_name b) :: occ_params (b_params b) ++ concat (map occ_stmt (b_stmts b)).
Definition occ_top (t : atop) : list occ :=
  match t with
  | TGlobal n _ _ => [OGlobal n]
  | TFunDecl n _ _ => [OFun n]
  | TFunDef n ps _ bbs => OFun n :: occ_params ps ++ concat (map occ_block bbs)
  | _ => []
  end.

(** The names that have been written: how many of them were numbers, and the names of
    global variables, functions, and values and blocks of the current function. *)
Record written := Written {
  wr_count : N;
  wr_globals : gset string;
  wr_funs : gset string;
  wr_vals : gset string;
  wr_blks : gset string;
}.
Definition written0 : written := Written 0 ∅ ∅ ∅ ∅.

Definition numbered (k : N) : string := ("%" ++ show_N k)%string.
(** A name that is written for the first time is the next of the names [%0], [%1], ..., which
    are counted through the whole text, or an ordinary name that nothing else has in the same
    name space: there is one for the blocks of a function, and one for everything else.
    Functions have ordinary names. *)
Inductive writes : written → occ → written → Prop :=
  | w_global_num k G F V B : numbered k ∉ G →
      writes (Written k G F V B) (OGlobal (numbered k))
        (Written (k + 1) ({[numbered k]} ∪ G) F V B)
  | w_global n k G F V B : ordinary n → n ∉ G → n ∉ F → n ∉ V →
      writes (Written k G F V B) (OGlobal n) (Written k ({[n]} ∪ G) F V B)
  | w_fun_again n k G F V B : n ∈ F →
      writes (Written k G F V B) (OFun n) (Written k G F V B)
  | w_fun n k G F V B : ordinary n → n ∉ G → n ∉ F → n ∉ V →
      writes (Written k G F V B) (OFun n) (Written k G ({[n]} ∪ F) V B)
  | w_val_again n k G F V B : n ∈ G ∨ n ∈ V →
      writes (Written k G F V B) (OVal n) (Written k G F V B)
  | w_val_num k G F V B : numbered k ∉ G → numbered k ∉ V →
      writes (Written k G F V B) (OVal (numbered k))
        (Written (k + 1) G F ({[numbered k]} ∪ V) B)
  | w_val n k G F V B : ordinary n → n ∉ G → n ∉ F → n ∉ V →
      writes (Written k G F V B) (OVal n) (Written k G F ({[n]} ∪ V) B)
  | w_blk_again n k G F V B : n ∈ B →
      writes (Written k G F V B) (OBlk n) (Written k G F V B)
  | w_blk_num k G F V B : numbered k ∉ B →
      writes (Written k G F V B) (OBlk (numbered k))
        (Written (k + 1) G F V ({[numbered k]} ∪ B))
  | w_blk n k G F V B : ordinary n → n ∉ B →
      writes (Written k G F V B) (OBlk n) (Written k G F V ({[n]} ∪ B)).
Inductive writes_all : written → list occ → written → Prop :=
  | ws_nil s : writes_all s [] s
  | ws_cons s o s1 l s2 : writes s o s1 → writes_all s1 l s2 → writes_all s (o :: l) s2.

(** The names of the values and blocks of a function end with it. *)
Definition end_top (s : written) : written :=
  Written (wr_count s) (wr_globals s) (wr_funs s) ∅ ∅.
Inductive writes_tops : written → list atop → written → Prop :=
  | wt_nil s : writes_tops s [] s
  | wt_cons s t s1 l s2 : writes_all s (occ_top t) s1 → writes_tops (end_top s1) l s2 →
      writes_tops s (t :: l) s2.

(** ** Calls, jumps and initializers *)
(** [f] has the parameters and result [ps], [r] in the definitions [ts]. *)
Definition has_sig (ts : list atop) (f : string) (ps : nat) (r : option aty) : Prop :=
  (∃ l, TFunDecl f l r ∈ ts ∧ length l = ps) ∨ (∃ l bbs, TFunDef f l r bbs ∈ ts ∧ length l = ps).
(** Arguments are as many as parameters; a call is a statement of its own only if the
    function returns nothing. *)
Definition stmt_fits (ts : list atop) (bbs : list ablock) (st : astmt) : Prop :=
  let goes t (a : list aval) := ∀ b, b ∈ bbs → b_name b = t → length a = length (b_params b) in
  match st with
  | SDef _ (ECall f a) => ∀ n r, has_sig ts f n r → length a = n
  | SCall f a => ∀ n r, has_sig ts f n r → length a = n ∧ r = None
  | SBr _ t ta f fa => goes t ta ∧ goes f fa
  | SJump t a => goes t a
  | _ => True
  end.
Definition gvars_of (ts : list atop) : list string :=
  concat (map (λ t, match t with TGlobal n _ _ => [n] | _ => [] end) ts).
(** The blocks are all reachable and listed in the order in which they are reached; names of
    values are different from each other and from those of the global variables; aggregates
    are for arrays. *)
Definition top_fits (ts : list atop) (t : atop) : Prop :=
  match t with
  | TGlobal _ t i => init_fits t i
  | TFunDef _ ps _ bbs =>
      in_order bbs bbs ∧ NoDup (fun_names ps bbs) ∧
      (∀ n, n ∈ fun_names ps bbs → n ∉ gvars_of ts) ∧
      ∀ b st, b ∈ bbs → st ∈ b_stmts b → stmt_fits ts bbs st
  | _ => True
  end.

Definition canonical (gs fs : list atop) : Prop :=
  Forall wf_global gs ∧ Forall wf_func fs ∧
  (∃ s, writes_tops written0 (gs ++ fs) s) ∧
  Forall (top_fits (gs ++ fs)) (gs ++ fs).

(** ** Types whose text can be read *)
(** No array of the type has 2^63 or more elements. *)
Inductive short : ty → Prop :=
  | sh_int : short TInt32
  | sh_unit : short TUnit
  | sh_arr b n : short b → (n < 2 ^ 63)%N → short (TArray b n)
  | sh_ptr b : short b → short (TPtr b)
  | sh_fun ps r : Forall short ps → short r → short (TFun ps r).
(** The types of global values, of functions and of local values *)
Definition short_program (p : program) : Prop :=
  (∀ v d, p_values p !! v = Some d → short (v_ty d)) ∧
  ∀ f fd, p_funcs p !! f = Some fd →
    short (f_ty fd) ∧ ∀ v d, d_values (f_dfg fd) !! v = Some d → short (v_ty d).
(** Functions are not called [%0], [%1], ... *)
Definition ordinary_functions (p : program) : Prop :=
  ∀ f fd, p_funcs p !! f = Some fd → ordinary (f_name fd).
