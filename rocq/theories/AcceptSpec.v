(** Well-formed texts (C49): rules on syntax trees under which a text has to be accepted.
    Nothing here mentions the functions of the front end. *)
From Verif Require Import Base TypeModel IrModel ParserModel FlowSpec FaithSpec.

(** ** Names and types *)
(** [@x] or [%x], with something after the first character *)
Definition well_named (n : string) : Prop :=
  ∃ c d rest, n = String c (String d rest) ∧ (c = "%"%char ∨ c = "@"%char).
(** The type written [a] is [t], and there are no arrays of length 0. *)
Inductive type_of : aty → ty → Prop :=
  | to_int : type_of AInt TInt32
  | to_arr a n t : n ≠ 0%N → type_of a t → type_of (AArr a n) (TArray t n)
  | to_ptr a t : type_of a t → type_of (APtr a) (TPtr t)
  | to_proc ps ts : Forall2 type_of ps ts → type_of (AFun ps None) (TFun ts TUnit)
  | to_fun ps ts r t : Forall2 type_of ps ts → type_of r t → type_of (AFun ps (Some r)) (TFun ts t).
Definition ret_of (r : option aty) (t : ty) : Prop :=
  match r with None => t = TUnit | Some a => type_of a t end.
(** The initializer [i] can be used for something of type [t]: an aggregate lists all the
    elements of an array. *)
Inductive init_of : ainit → ty → Prop :=
  | io_int z : init_of (IInt z) TInt32
  | io_undef t : t ≠ TUnit → init_of IUndef t
  | io_zero t : t ≠ TUnit → init_of IZero t
  | io_aggr l t : l ≠ [] → t ≠ TUnit → Forall (λ i, init_of i t) l →
      init_of (IAggr l) (TArray t (N.of_nat (length l))).

(** ** Statements *)
(** Where the symbols [V] can be used, the functions [Fn] can be called and the blocks [B] can
    be jumped to, with these types, parameters and results: *)
Section scope.
Context (V : string → ty → Prop) (Fn : string → list ty → ty → Prop) (B : string → list ty → Prop).

Definition val_of (a : aval) (t : ty) : Prop :=
  match a with VSym n => V n t | VInt _ => t = TInt32 | VUndef => t ≠ TUnit end.
Definition stored_of (a : astore) (t : ty) : Prop :=
  match a with SvSym n => V n t | SvInit i => init_of i t end.
Definition expr_of (e : aexpr) (t : ty) : Prop :=
  match e with
  | EMemDecl a => ∃ t0, t = TPtr t0 ∧ type_of a t0
  | ELoad x => V x (TPtr t)
  | EGetPtr x i => (∃ t0, t = TPtr t0) ∧ V x t ∧ val_of i TInt32
  | EGetElemPtr x i => ∃ t0 n, t = TPtr t0 ∧ V x (TPtr (TArray t0 n)) ∧ val_of i TInt32
  | EBin _ l r => t = TInt32 ∧ val_of l TInt32 ∧ val_of r TInt32
  | ECall f args => ∃ ts, Fn f ts t ∧ Forall2 val_of args ts
  end.
(** In a function that returns [r]; the local symbols have the types [Ty]. *)
Definition stmt_of (Ty : string → ty) (r : ty) (st : astmt) : Prop :=
  match st with
  | SDef n e => Ty n ≠ TUnit ∧ expr_of e (Ty n)
  | SStore v d => ∃ t, V d (TPtr t) ∧ stored_of v t
  | SCall f args => ∃ ts t, Fn f ts t ∧ Forall2 val_of args ts
  | SBr c t ta f fa => val_of c TInt32 ∧ (∃ ts, B t ts ∧ Forall2 val_of ta ts) ∧
      (∃ ts, B f ts ∧ Forall2 val_of fa ts) ∧ (t = f → ta = [] ∧ fa = [])
  | SJump t args => ∃ ts, B t ts ∧ Forall2 val_of args ts
  | SRet None => r = TUnit
  | SRet (Some v) => r ≠ TUnit ∧ val_of v r
  | SErr => False
  end.
End scope.
Definition ends_block (st : astmt) : Prop :=
  match st with SBr _ _ _ _ _ | SJump _ _ | SRet _ => True | _ => False end.

(** ** Functions *)
(** In a function with the parameters [ps] and the blocks [l], in this order: the block [d]
    defines [n] before the statement after [sts] of the block [b] is read, when the blocks
    [pre] are before [b].  The parameters of the first block cannot be used. *)
Definition defined_in (ps : list (string * aty)) (l pre : list ablock) (b : ablock) (sts : list astmt)
    (d : ablock) (n : string) : Prop :=
  (if decide (head (map b_name l) = Some (b_name d)) then n ∈ map fst ps else n ∈ param_names d) ∨
  d ∈ pre ∧ n ∈ body_names d ∨ d = b ∧ n ∈ concat (map stmt_defs sts).
(** A symbol can be used if it is defined in a block from which control can reach [b]. *)
Definition usable (ps : list (string * aty)) (l pre : list ablock) (b : ablock) (sts : list astmt)
    (n : string) : Prop :=
  ∃ d, d ∈ l ∧ reachable l d b ∧ defined_in ps l pre b sts d n.
(** The definitions of global variables and functions among [ts] *)
Definition var_in (ts : list atop) (n : string) (t : ty) : Prop :=
  ∃ a i t0, TGlobal n a i ∈ ts ∧ type_of a t0 ∧ t = TPtr t0.
Definition fun_in (ts : list atop) (n : string) (l : list ty) (t : ty) : Prop :=
  ∃ ps r, (TFunDecl n ps r ∈ ts ∨ ∃ qs bbs, ps = map snd qs ∧ TFunDef n qs r bbs ∈ ts) ∧
    Forall2 type_of ps l ∧ ret_of r t.
(** The parameters of the blocks *)
Definition blk_in (l : list ablock) (n : string) (ts : list ty) : Prop :=
  ∃ b, b ∈ l ∧ b_name b = n ∧ Forall2 type_of (map snd (b_params b)) ts.

(** The definition of a function with parameters [ps], result [r] and blocks [bbs], after the
    definitions [pre]; [self] is the definition itself. *)
Record fun_of (pre : list atop) (self : atop) (ps : list (string * aty)) (r : ty) (bbs : list ablock)
    (l : list ablock) (Ty : string → ty) : Prop := {
  fo_blocks : NoDup (map b_name bbs);
  fo_order : in_order bbs l;
  fo_ends : ∀ b, b ∈ l → ∃ body fin, b_stmts b = body ++ [fin] ∧ ends_block fin;
  fo_targets : ∀ b n, b ∈ l → succ b n → n ∈ map b_name bbs ∧ head (map b_name bbs) ≠ Some n;
  fo_named : Forall well_named (map b_name l ++ fun_names ps l);
  fo_names : NoDup (fun_names ps l);
  fo_globals : ∀ n t, n ∈ fun_names ps l → ¬ var_in pre n t;
  fo_params : ∀ n a, (n, a) ∈ ps ++ concat (map b_params l) → type_of a (Ty n);
  fo_stmts : ∀ front b rest sts st after, l = front ++ b :: rest → b_stmts b = sts ++ st :: after →
    stmt_of (λ n t, var_in pre n t ∨ usable ps l front b sts n ∧ t = Ty n)
      (fun_in (pre ++ [self])) (blk_in l) Ty r st;
}.

(** ** Texts *)
Definition top_names (t : atop) : list string := gvar_names t ++ gfun_names t.
(** The definition [t] can follow the definitions [pre]. *)
Definition top_of (pre : list atop) (t : atop) : Prop :=
  Forall (λ n, well_named n ∧ n ∉ concat (map top_names pre)) (top_names t) ∧
  match t with
  | TGlobal n a i => ∃ t0, type_of a t0 ∧ init_of i t0
  | TFunDecl n ps r => ∃ ts t0, Forall2 type_of ps ts ∧ ret_of r t0
  | TFunDef n ps r bbs => ∃ t0 l Ty, ret_of r t0 ∧ fun_of pre t ps t0 bbs l Ty
  | TEnd | TErr => False
  end.
Definition well_formed (ts : list atop) : Prop :=
  ∀ pre t post, ts = pre ++ t :: post → top_of pre t.

(** ** Sizes *)
(** How many values, blocks and functions a text consists of *)
Definition sum_of {A} (f : A → N) (l : list A) : N := foldr (λ x n, f x + n)%N 0%N l.
Definition val_size (a : aval) : N := match a with VSym _ => 0 | _ => 1 end.
Definition expr_size (e : aexpr) : N :=
  match e with
  | EMemDecl _ | ELoad _ => 0
  | EGetPtr _ i | EGetElemPtr _ i => val_size i
  | EBin _ l r => val_size l + val_size r
  | ECall _ args => sum_of val_size args
  end.
Definition stmt_size (st : astmt) : N :=
  match st with
  | SDef _ e => expr_size e + 1
  | SStore (SvSym _) _ => 1
  | SStore (SvInit i) _ => init_nodes i + 1
  | SCall _ args => sum_of val_size args + 1
  | SBr c _ ta _ fa => val_size c + sum_of val_size ta + sum_of val_size fa + 1
  | SJump _ args => sum_of val_size args + 1
  | SRet (Some v) => val_size v + 1
  | SRet None => 1
  | SErr => 0
  end.
Definition block_size (b : ablock) : N :=
  N.of_nat (length (b_params b)) + sum_of stmt_size (b_stmts b) + 1.
Definition top_size (t : atop) : N :=
  match t with
  | TGlobal _ _ i => init_nodes i + 1
  | TFunDecl _ _ _ => 1
  | TFunDef _ ps _ bbs => N.of_nat (length ps) + sum_of block_size bbs + 1
  | _ => 0
  end.
(** Handles are 32 bit numbers; those of global values are below 2 ^ 30. *)
Definition small (ts : list atop) : Prop := (sum_of top_size ts < 2 ^ 30)%N.
