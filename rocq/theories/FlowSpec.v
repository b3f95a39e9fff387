(** Control flow of the blocks of a function text, and visibility of symbols, described
    without reference to the builder's functions. *)
From Verif Require Import Base ParserModel FrontModel.

(** ** Control flow *)
Definition goes_to (st : astmt) (t : string) : Prop :=
  match st with
  | SBr _ a _ b _ => t = a ∨ t = b
  | SJump a _ => t = a
  | _ => False
  end.
(** The end of block [b] may transfer control to the name [t]. *)
Definition succ (b : ablock) (t : string) : Prop :=
  ∃ body fin, b_stmts b = body ++ [fin] ∧ goes_to fin t.
(** [bpath bbs n a b]: control can flow in [n] steps from block [a] to block [b] of [bbs]. *)
Inductive bpath (bbs : list ablock) : nat → ablock → ablock → Prop :=
  | bpath_nil a : bpath bbs 0 a a
  | bpath_cons n a b c :
      succ a (b_name b) → b ∈ bbs → bpath bbs n b c → bpath bbs (S n) a c.
Definition reachable (bbs : list ablock) (a b : ablock) : Prop := ∃ n, bpath bbs n a b.

(** ** Symbols *)
(** [p] is a predecessor of [b]. *)
Definition pred_of (bbs : gmap string bbinfo) (b p : string) : Prop :=
  ∃ info, bbs !! b = Some info ∧ p ∈ bi_preds info.
(** The value [v] is a definition of [sym] in the block [b]. *)
Definition defines (bbs : gmap string bbinfo) (b sym : string) (v : value) : Prop :=
  ∃ info, bbs !! b = Some info ∧ bi_defs info !! sym = Some v.
(** [v] is a definition of [sym] in [bb] or in a block from which [bb] can be reached. *)
Definition visible (bbs : gmap string bbinfo) (bb sym : string) (v : value) : Prop :=
  ∃ b, rtc (pred_of bbs) bb b ∧ defines bbs b sym v.
(** Predecessors are blocks. *)
Definition preds_closed (bbs : gmap string bbinfo) : Prop :=
  ∀ b p, pred_of bbs b p → is_Some (bbs !! p).

(** ** Names defined by a text *)
(** The names defined inside a block: its parameters and the results of its instructions. *)
Definition stmt_defs (st : astmt) : list string :=
  match st with SDef n _ => [n] | _ => [] end.
Definition body_names (b : ablock) : list string := concat (map stmt_defs (b_stmts b)).
Definition param_names (b : ablock) : list string := map fst (b_params b).
(** The names of the global variables, and of all the global symbols. *)
Definition gvar_names (t : atop) : list string :=
  match t with TGlobal n _ _ => [n] | _ => [] end.
Definition gfun_names (t : atop) : list string :=
  match t with TFunDef n _ _ _ | TFunDecl n _ _ => [n] | _ => [] end.
(** In a function with parameters [ps] and blocks [bbs], after global variables [gv]: the
    names of the parameters and of the blocks are distinct; no name is defined twice in the
    blocks that can be reached, none of those names is that of a global variable, and no
    instruction redefines a parameter. *)
Definition fun_once (gv : list string) (ps : list (string * aty)) (bbs : list ablock) : Prop :=
  NoDup (map fst ps) ∧ NoDup (map b_name bbs) ∧
  ∀ first l, head bbs = Some first → NoDup l → (∀ b, b ∈ l ↔ reachable bbs first b) →
    NoDup (concat (map (λ b, param_names b ++ body_names b) l)) ∧
    ∀ b n, b ∈ l →
      (n ∈ param_names b → n ∉ gv) ∧ (n ∈ body_names b → n ∉ gv ∧ n ∉ map fst ps).

(** ** Dominance *)
(** Control can flow from [a] to [b] without passing through [d]. *)
Inductive avoids (bbs : list ablock) (d : ablock) : ablock → ablock → Prop :=
  | avoids_nil a : a ≠ d → avoids bbs d a a
  | avoids_cons a b c :
      a ≠ d → succ a (b_name b) → b ∈ bbs → avoids bbs d b c → avoids bbs d a c.
(** Every path from the entry to [b] passes through [d]. *)
Definition dominates (bbs : list ablock) (entry d b : ablock) : Prop :=
  ¬ avoids bbs d entry b.

(** ** Uses *)
Definition val_uses (v : aval) : list string := match v with VSym x => [x] | _ => [] end.
Definition expr_uses (e : aexpr) : list string :=
  match e with
  | EMemDecl _ => []
  | ELoad x => [x]
  | EGetPtr x v | EGetElemPtr x v => x :: val_uses v
  | EBin _ l r => val_uses l ++ val_uses r
  | ECall _ args => concat (map val_uses args)
  end.
Definition stmt_uses (st : astmt) : list string :=
  match st with
  | SDef _ e => expr_uses e
  | SStore (SvSym x) d => [x; d]
  | SStore (SvInit _) d => [d]
  | SCall _ args => concat (map val_uses args)
  | SBr c _ ta _ fa => val_uses c ++ concat (map val_uses (ta ++ fa))
  | SJump _ args => concat (map val_uses args)
  | SRet (Some v) => val_uses v
  | SRet None | SErr => []
  end.
(** Block [b] uses the name [x] in a place that no definition in [b] precedes. *)
Definition uses_before_def (b : ablock) (x : string) : Prop :=
  ∃ before st after, b_stmts b = before ++ st :: after ∧ x ∈ stmt_uses st ∧
    x ∉ param_names b ∧ x ∉ concat (map stmt_defs before).
(** Every use of a name defined in some block of the function is preceded by the definition
    in the same block, or the block of the definition dominates that of the use. *)
Definition ssa_form (bbs : list ablock) : Prop :=
  ∀ entry b d x, head bbs = Some entry → b ∈ bbs → reachable bbs entry b → d ∈ bbs →
    uses_before_def b x → x ∈ param_names d ++ body_names d →
    d ≠ b ∧ dominates bbs entry d b.

(** ** Sizes *)
(** The number of values that an initializer, and a definition, consists of. *)
Fixpoint init_nodes (i : ainit) : N :=
  match i with
  | IInt _ | IUndef | IZero => 1
  | IAggr l => foldr (λ i n, init_nodes i + n) 0 l + 1
  end%N.
Definition globals_in (t : atop) : N :=
  match t with TGlobal _ _ i => init_nodes i + 1 | _ => 0 end%N.
