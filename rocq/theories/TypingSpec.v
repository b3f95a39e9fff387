(** The type rules of Koopa IR, declaratively (C11).  Source of the rules: the
    documentation of the builder methods (koopa/src/ir/builder.rs:53-344) and
    koopa/README/specification of the instruction set. *)
From Verif Require Import Base IdModel TypeModel IrModel BuilderModel WorldModel UsesSpec DfgSpec
  WorldSpec.

(** What a value can refer to: types and constness of values, parameters of blocks,
    types of functions. *)
Record env := Env {
  e_ty : N → option ty;
  e_const : N → bool;
  e_bb : N → option (list N);
  e_fun : N → option ty;
}.

(** The arguments passed to a block match its parameters in number and types. *)
Definition args_match (E : env) (b : bblock) (args : list value) : Prop :=
  ∃ ps, e_bb E b = Some ps ∧
    Forall2 (λ p a, ∃ t, e_ty E p = Some t ∧ e_ty E a = Some t) ps args.

(** [k] is a well-formed value of type [t]. *)
Inductive has_type (E : env) : vkind → ty → Prop :=
  | T_integer z : has_type E (KInteger z) TInt32
  | T_zero_init t : t ≠ TUnit → has_type E KZeroInit t
  | T_undef t : t ≠ TUnit → has_type E KUndef t
  | T_aggregate elems t :
      elems ≠ [] → t ≠ TUnit →
      (∀ e, e ∈ elems → e_ty E e = Some t ∧ e_const E e = true) →
      has_type E (KAggregate elems) (TArray t (N.of_nat (length elems)))
  | T_global_alloc init t :
      e_ty E init = Some t → t ≠ TUnit → has_type E (KGlobalAlloc init) (TPtr t)
  | T_alloc t : t ≠ TUnit → has_type E KAlloc (TPtr t)
  | T_load src t : e_ty E src = Some (TPtr t) → has_type E (KLoad src) t
  | T_store v dest t :
      e_ty E v = Some t → e_ty E dest = Some (TPtr t) → has_type E (KStore v dest) TUnit
  | T_get_ptr src index t :
      e_ty E src = Some (TPtr t) → e_ty E index = Some TInt32 →
      has_type E (KGetPtr src index) (TPtr t)
  | T_get_elem_ptr src index t n :
      e_ty E src = Some (TPtr (TArray t n)) → e_ty E index = Some TInt32 →
      has_type E (KGetElemPtr src index) (TPtr t)
  | T_binary op l r :
      e_ty E l = Some TInt32 → e_ty E r = Some TInt32 → has_type E (KBinary op l r) TInt32
  | T_branch c t f targs fargs :
      e_ty E c = Some TInt32 → args_match E t targs → args_match E f fargs →
      (t = f → targs = [] ∧ fargs = []) →
      has_type E (KBranch c t f targs fargs) TUnit
  | T_jump t args : args_match E t args → has_type E (KJump t args) TUnit
  | T_call callee args ps ret :
      e_fun E callee = Some (TFun ps ret) →
      Forall2 (λ t a, e_ty E a = Some t) ps args →
      has_type E (KCall callee args) ret
  | T_return_unit : has_type E (KReturn None) TUnit
  | T_return v t : e_ty E v = Some t → t ≠ TUnit → has_type E (KReturn (Some v)) TUnit.

(** The value kind a builder method is asked for. *)
Definition requested (r : breq) : vkind :=
  match r with
  | BInteger z => KInteger z
  | BZeroInit _ => KZeroInit
  | BUndef _ => KUndef
  | BAggregate l => KAggregate l
  | BGlobalAlloc v => KGlobalAlloc v
  | BAlloc _ => KAlloc
  | BLoad v => KLoad v
  | BStore v d => KStore v d
  | BGetPtr s i => KGetPtr s i
  | BGetElemPtr s i => KGetElemPtr s i
  | BBinary op l r => KBinary op l r
  | BBranch c t f => KBranch c t f [] []
  | BBranchArgs c t f ta fa => KBranch c t f ta fa
  | BJump t => KJump t []
  | BJumpArgs t a => KJump t a
  | BCall c a => KCall c a
  | BRet v => KReturn v
  end.

(** ... and the type it is asked for, if the method takes one. *)
Definition requested_ty (r : breq) (t : ty) : Prop :=
  match r with
  | BZeroInit t' | BUndef t' => t = t'
  | BAlloc t' => t = TPtr t'
  | _ => True
  end.

(** The environment of the values of function [fd] of program [p]. *)
Definition local_env (p : program) (fd : fdata) : env :=
  Env (λ v, v_ty <$> (p_values p ∪ vals fd) !! v)
      (λ v, match (p_values p ∪ vals fd) !! v with
            | Some d => is_const (v_kind d) | None => false end)
      (λ b, bb_params <$> blks fd !! b)
      (λ f, f_ty <$> p_funcs p !! f).

(** The environment of global values. *)
Definition global_env (p : program) : env :=
  Env (λ v, v_ty <$> p_values p !! v)
      (λ v, match p_values p !! v with Some d => is_const (v_kind d) | None => false end)
      (λ _, None) (λ _, None).

(** Parameters of functions and blocks. *)
Definition is_param (k : vkind) : bool :=
  match k with KFuncArg _ | KBlockArg _ => true | _ => false end.

(** Every value of the program is well typed; parameters of functions and blocks are
    not of type unit. *)
Definition well_typed (p : program) : Prop :=
  (∀ v d, p_values p !! v = Some d → has_type (global_env p) (v_kind d) (v_ty d)) ∧
  (∀ f fd v d, p_funcs p !! f = Some fd → vals fd !! v = Some d →
     if is_param (v_kind d) then v_ty d ≠ TUnit
     else has_type (local_env p fd) (v_kind d) (v_ty d)).

(** Histories that use the builders only: no [raw], no [update_value]; a replacement
    keeps the type, and the constness, of the value; parameters are removed only together
    with their block; a function is removed only when no other function calls it. *)
Definition builders_only (o : op) (w : world) : Prop :=
  match o with
  | ONewLocalRaw _ _ _ _ | OReplaceRaw _ _ _ _ _ | OUpdate _ _ _ | ONewGlobalRaw _ _ _ => False
  | ONewLocal _ r => local_req r = true
  | ONewGlobal r => global_req r = true
  | OReplace f v r => local_req r = true ∧
      ∀ fd d, p_funcs (w_prog w) !! f = Some fd → vals fd !! v = Some d →
      has_type (local_env (w_prog w) fd) (requested r) (v_ty d) ∧ requested_ty r (v_ty d) ∧
      (is_const (v_kind d) = true → is_const (requested r) = true)
  | ORemoveLocal f v => ∀ fd b bd,
      p_funcs (w_prog w) !! f = Some fd → blks fd !! b = Some bd → v ∉ bb_params bd
  | ORemoveFunc f => ∀ f' fd u d args,
      f' ≠ f → p_funcs (w_prog w) !! f' = Some fd → vals fd !! u = Some d →
      v_kind d ≠ KCall f args
  | _ => True
  end.
