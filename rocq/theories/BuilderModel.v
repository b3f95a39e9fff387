(** Model of koopa/src/ir/builder.rs. *)
From Verif Require Import Base IdModel TypeModel IrModel.

(** koopa/src/ir/builder.rs:14-42 [EntityInfoQuerier]; [None] = panic. *)
Record querier := Querier {
  q_type : value → option ty;
  q_const : value → option bool;
  q_bb_params : bblock → option (list value);
  q_func_type : func → option ty;
}.

(** koopa/src/ir/builder.rs:458-507 [EntityInfoQuerier] for data-flow-graph based
    builders ([LocalBuilder], [ReplaceBuilder]); globals first, then local values. *)
Definition local_querier (gs : gmap N vdata) (ftys : gmap N ty) (g : dfg) : querier :=
  Querier
    (λ v, v_ty <$> dfg_data gs g v)
    (λ v, (λ d, is_const (v_kind d)) <$> dfg_data gs g v)
    (λ b, bb_params <$> d_bbs g !! b)
    (λ f, ftys !! f).

(** koopa/src/ir/builder.rs:585-615 [EntityInfoQuerier for GlobalBuilder];
    [unimplemented!()] is a panic. *)
Definition global_querier (p : program) : querier :=
  Querier
    (λ v, v_ty <$> p_values p !! v)
    (λ v, (λ d, is_const (v_kind d)) <$> p_values p !! v)
    (λ _, None)
    (λ _, None).

(** [elems.iter().all(|e| self.is_const( *e))] (koopa/src/ir/builder.rs:102) *)
Fixpoint all_const (q : querier) (l : list value) : option bool :=
  match l with
  | [] => Some true
  | e :: l' =>
      match q_const q e with
      | Some true => all_const q l'
      | Some false => Some false
      | None => None
      end
  end.

(** [elems.windows(2).all(..)] (koopa/src/ir/builder.rs:107-109) *)
Fixpoint windows_eq (q : querier) (l : list value) : option bool :=
  match l with
  | a :: ((b :: _) as l') =>
      ta ← q_type q a; tb ← q_type q b;
      if ty_eqb ta tb then windows_eq q l' else Some false
  | _ => Some true
  end.

(** Loop of koopa/src/ir/builder.rs:425-435 over zipped parameters and arguments *)
Fixpoint zip_types (q : querier) (ps args : list value) : option unit :=
  match ps, args with
  | p :: ps', a :: args' =>
      tp ← q_type q p; ta ← q_type q a;
      _ ← assert_ (ty_eqb tp ta);
      zip_types q ps' args'
  | _, _ => Some tt
  end.

(** koopa/src/ir/builder.rs:418-436 [check_bb_arg_types] *)
Definition check_bb_arg_types (q : querier) (ps args : list value) : option unit :=
  _ ← assert_ (length ps =? length args)%nat;
  zip_types q ps args.

(** Loop of koopa/src/ir/builder.rs:315-324 *)
Fixpoint check_call_args (q : querier) (ps : list ty) (args : list value) : option unit :=
  match ps, args with
  | t :: ps', a :: args' =>
      ta ← q_type q a;
      _ ← assert_ (ty_eqb t ta);
      check_call_args q ps' args'
  | _, _ => Some tt
  end.

(** koopa/src/ir/builder.rs:64-66 [integer], values.rs:14-16 *)
Definition mk_integer (z : Z) : option vdata := Some (new_vdata TInt32 (KInteger z)).

(** koopa/src/ir/builder.rs:73-76 [zero_init] *)
Definition mk_zero_init (t : ty) : option vdata :=
  _ ← assert_ (negb (is_unit t)); Some (new_vdata t KZeroInit).

(** koopa/src/ir/builder.rs:83-86 [undef] *)
Definition mk_undef (t : ty) : option vdata :=
  _ ← assert_ (negb (is_unit t)); Some (new_vdata t KUndef).

(** koopa/src/ir/builder.rs:97-118 [aggregate] *)
Definition mk_aggregate (q : querier) (elems : list value) : option vdata :=
  _ ← assert_ (negb (match elems with [] => true | _ => false end));
  c ← all_const q elems;
  _ ← assert_ c;
  w ← windows_eq q elems;
  _ ← assert_ w;
  e0 ← head elems;
  base ← q_type q e0;
  _ ← assert_ (negb (is_unit base));
  t ← get_array base (N.of_nat (length elems));
  Some (new_vdata t (KAggregate elems)).

(** koopa/src/ir/builder.rs:128-133 [global_alloc] *)
Definition mk_global_alloc (q : querier) (init : value) : option vdata :=
  t ← q_type q init;
  _ ← assert_ (negb (is_unit t));
  Some (new_vdata (TPtr t) (KGlobalAlloc init)).

(** koopa/src/ir/builder.rs:143-146 [alloc] *)
Definition mk_alloc (t : ty) : option vdata :=
  _ ← assert_ (negb (is_unit t)); Some (new_vdata (TPtr t) KAlloc).

(** koopa/src/ir/builder.rs:153-160 [load] *)
Definition mk_load (q : querier) (src : value) : option vdata :=
  st ← q_type q src;
  match st with
  | TPtr t => Some (new_vdata t (KLoad src))
  | _ => None
  end.

(** koopa/src/ir/builder.rs:167-173 [store] *)
Definition mk_store (q : querier) (v dest : value) : option vdata :=
  tv ← q_type q v;
  td ← q_type q dest;
  _ ← assert_ (ty_eqb (TPtr tv) td);
  Some (new_vdata TUnit (KStore v dest)).

(** koopa/src/ir/builder.rs:181-192 [get_ptr] *)
Definition mk_get_ptr (q : querier) (src index : value) : option vdata :=
  st ← q_type q src;
  _ ← assert_ (match st with TPtr _ => true | _ => false end);
  it ← q_type q index;
  _ ← assert_ (is_i32 it);
  Some (new_vdata st (KGetPtr src index)).

(** koopa/src/ir/builder.rs:201-214 [get_elem_ptr] *)
Definition mk_get_elem_ptr (q : querier) (src index : value) : option vdata :=
  it ← q_type q index;
  _ ← assert_ (is_i32 it);
  st ← q_type q src;
  match st with
  | TPtr (TArray base _) => Some (new_vdata (TPtr base) (KGetElemPtr src index))
  | _ => None
  end.

(** koopa/src/ir/builder.rs:221-229 [binary] *)
Definition mk_binary (q : querier) (op : binop) (l r : value) : option vdata :=
  tl ← q_type q l;
  tr ← q_type q r;
  _ ← assert_ (is_i32 tl && ty_eqb tl tr);
  Some (new_vdata tl (KBinary op l r)).

(** koopa/src/ir/builder.rs:237-248 [branch] *)
Definition mk_branch (q : querier) (c : value) (t f : bblock) : option vdata :=
  tc ← q_type q c;
  _ ← assert_ (is_i32 tc);
  pt ← q_bb_params q t;
  _ ← assert_ (match pt with [] => true | _ => false end);
  pf ← q_bb_params q f;
  _ ← assert_ (match pf with [] => true | _ => false end);
  Some (new_vdata TUnit (KBranch c t f [] [])).

(** koopa/src/ir/builder.rs:258-276 [branch_with_args] *)
Definition mk_branch_with_args (q : querier) (c : value) (t f : bblock)
    (targs fargs : list value) : option vdata :=
  tc ← q_type q c;
  _ ← assert_ (is_i32 tc);
  _ ← assert_ (negb (t =? f)%N
               || (match targs with [] => true | _ => false end
                   && match fargs with [] => true | _ => false end));
  pt ← q_bb_params q t;
  _ ← check_bb_arg_types q pt targs;
  pf ← q_bb_params q f;
  _ ← check_bb_arg_types q pf fargs;
  Some (new_vdata TUnit (KBranch c t f targs fargs)).

(** koopa/src/ir/builder.rs:283-289 [jump] *)
Definition mk_jump (q : querier) (t : bblock) : option vdata :=
  pt ← q_bb_params q t;
  _ ← assert_ (match pt with [] => true | _ => false end);
  Some (new_vdata TUnit (KJump t [])).

(** koopa/src/ir/builder.rs:296-299 [jump_with_args] *)
Definition mk_jump_with_args (q : querier) (t : bblock) (args : list value) : option vdata :=
  pt ← q_bb_params q t;
  _ ← check_bb_arg_types q pt args;
  Some (new_vdata TUnit (KJump t args)).

(** koopa/src/ir/builder.rs:306-330 [call] *)
Definition mk_call (q : querier) (callee : func) (args : list value) : option vdata :=
  ft ← q_func_type q callee;
  match ft with
  | TFun ps ret =>
      _ ← assert_ (length ps =? length args)%nat;
      _ ← check_call_args q ps args;
      Some (new_vdata ret (KCall callee args))
  | _ => None
  end.

(** koopa/src/ir/builder.rs:337-343 [ret] *)
Definition mk_ret (q : querier) (v : option value) : option vdata :=
  _ ← (match v with
       | None => Some tt
       | Some v => t ← q_type q v; assert_ (negb (is_unit t))
       end);
  Some (new_vdata TUnit (KReturn v)).

(** A call of a method of [ValueBuilder], [LocalInstBuilder] or [GlobalInstBuilder]
    (koopa/src/ir/builder.rs:53-344), except [raw]. *)
Inductive breq :=
  | BInteger (z : Z)
  | BZeroInit (t : ty)
  | BUndef (t : ty)
  | BAggregate (elems : list value)
  | BGlobalAlloc (init : value)
  | BAlloc (t : ty)
  | BLoad (src : value)
  | BStore (v dest : value)
  | BGetPtr (src index : value)
  | BGetElemPtr (src index : value)
  | BBinary (op : binop) (l r : value)
  | BBranch (c : value) (t f : bblock)
  | BBranchArgs (c : value) (t f : bblock) (targs fargs : list value)
  | BJump (t : bblock)
  | BJumpArgs (t : bblock) (args : list value)
  | BCall (callee : func) (args : list value)
  | BRet (v : option value).

(** Dispatch: the value data a builder method computes before [insert_value]
    (koopa/src/ir/builder.rs:53-344). *)
Definition build (q : querier) (r : breq) : option vdata :=
  match r with
  | BInteger z => mk_integer z
  | BZeroInit t => mk_zero_init t
  | BUndef t => mk_undef t
  | BAggregate l => mk_aggregate q l
  | BGlobalAlloc v => mk_global_alloc q v
  | BAlloc t => mk_alloc t
  | BLoad v => mk_load q v
  | BStore v d => mk_store q v d
  | BGetPtr s i => mk_get_ptr q s i
  | BGetElemPtr s i => mk_get_elem_ptr q s i
  | BBinary op l r => mk_binary q op l r
  | BBranch c t f => mk_branch q c t f
  | BBranchArgs c t f ta fa => mk_branch_with_args q c t f ta fa
  | BJump t => mk_jump q t
  | BJumpArgs t a => mk_jump_with_args q t a
  | BCall c a => mk_call q c a
  | BRet v => mk_ret q v
  end.

(** Methods available on a local builder ([ValueBuilder] and [LocalInstBuilder],
    koopa/src/ir/builder.rs:529-530,574-575) and on a global builder
    ([ValueBuilder] and [GlobalInstBuilder], 628-629). *)
Definition local_req (r : breq) : bool :=
  match r with BGlobalAlloc _ => false | _ => true end.
(** On a global builder (koopa/src/ir/builder.rs:628-629) *)
Definition global_req (r : breq) : bool :=
  match r with
  | BInteger _ | BZeroInit _ | BUndef _ | BAggregate _ | BGlobalAlloc _ => true
  | _ => false
  end.

(** Loop of koopa/src/ir/builder.rs:398-406 (and 374-378): one [BlockArgRef] per
    parameter *)
Fixpoint new_block_args (i : ids) (gs : gmap N vdata) (idx : N)
    (ps : list (option string * ty)) (g : dfg)
    : option (list value * ids * gmap N vdata * dfg) :=
  match ps with
  | [] => Some ([], i, gs, g)
  | (n, t) :: ps' =>
      d ← set_name n (new_vdata t (KBlockArg idx));
      '(v, i1, gs1, g1) ← dfg_new_value_data i gs g d;
      '(vs, i2, gs2, g2) ← new_block_args i1 gs1 (idx + 1) ps' g1;
      Some (v :: vs, i2, gs2, g2)
  end.

(** koopa/src/ir/builder.rs:388-408 [basic_block_with_param_names]
    (368-380 [basic_block_with_params] is the case of absent names,
    358-361 [basic_block] the case of no parameters), including
    443-451 [check_bb_name]. *)
Definition basic_block_with_param_names (i : ids) (gs : gmap N vdata) (g : dfg)
    (name : option string) (ps : list (option string * ty))
    : option (bblock * ids * gmap N vdata * dfg) :=
  _ ← assert_ (valid_opt_name name);
  _ ← assert_ (forallb (λ p, negb (is_unit p.2)) ps);
  '(vs, i1, gs1, g1) ← new_block_args i gs 0 ps g;
  '(b, i2, g2) ← dfg_new_bb_data i1 g1 (BBData name vs ∅);
  Some (b, i2, gs1, g2).
