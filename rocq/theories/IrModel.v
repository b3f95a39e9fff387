(** Model of koopa/src/ir/{values,entities,dfg}.rs: value kinds, use iterators,
    the data flow graph and the program. *)
From Verif Require Import Base IdModel TypeModel.

(** koopa/src/ir/values.rs:315-350 [BinaryOp] *)
Inductive binop :=
  | NotEq | Eq_ | Gt_ | Lt_ | Ge_ | Le_
  | Add | Sub | Mul | Div | Mod_ | And | Or | Xor | Shl | Shr | Sar.

(** koopa/src/ir/entities.rs:562-597 [ValueKind], with the payload structs of
    koopa/src/ir/values.rs inlined. *)
Inductive vkind :=
  | KInteger (z : Z)                                        (* values.rs:9 *)
  | KZeroInit                                               (* values.rs:31 *)
  | KUndef                                                  (* values.rs:41 *)
  | KAggregate (elems : list value)                         (* values.rs:51 *)
  | KFuncArg (index : N)                                    (* values.rs:73 *)
  | KBlockArg (index : N)                                   (* values.rs:95 *)
  | KAlloc                                                  (* values.rs:117 *)
  | KGlobalAlloc (init : value)                             (* values.rs:128 *)
  | KLoad (src : value)                                     (* values.rs:150 *)
  | KStore (val dest : value)                               (* values.rs:172 *)
  | KGetPtr (src index : value)                             (* values.rs:205 *)
  | KGetElemPtr (src index : value)                         (* values.rs:238 *)
  | KBinary (op : binop) (lhs rhs : value)                  (* values.rs:271 *)
  | KBranch (cond : value) (tbb fbb : bblock) (targs fargs : list value)
                                                            (* values.rs:378 *)
  | KJump (target : bblock) (args : list value)             (* values.rs:480 *)
  | KCall (callee : func) (args : list value)               (* values.rs:523 *)
  | KReturn (val : option value).                           (* values.rs:556 *)

(** koopa/src/ir/entities.rs:617-625 [ValueKind::is_const] *)
Definition is_const (k : vkind) : bool :=
  match k with
  | KInteger _ | KZeroInit | KUndef | KAggregate _ => true
  | _ => false
  end.

(** koopa/src/ir/entities.rs:628-630 [ValueKind::is_global_alloc] *)
Definition is_global_alloc (k : vkind) : bool :=
  match k with KGlobalAlloc _ => true | _ => false end.

(** koopa/src/ir/entities.rs:633-647 [ValueKind::is_local_inst] *)
Definition is_local_inst (k : vkind) : bool :=
  match k with
  | KAlloc | KLoad _ | KStore _ _ | KGetPtr _ _ | KGetElemPtr _ _ | KBinary _ _ _
  | KBranch _ _ _ _ _ | KJump _ _ | KCall _ _ | KReturn _ => true
  | _ => false
  end.

(** ** Use iterators *)

(** koopa/src/ir/entities.rs:662-670 macro [vec_use!] *)
Definition vec_use (v : list value) (cur : nat) : option value :=
  if (cur <? length v)%nat then v !! cur else None.

(** koopa/src/ir/entities.rs:671-685 macro [field_use!]: compare [cur] with
    0, 1, ... in turn *)
Fixpoint field_use (fields : list value) (index cur : nat) : option value :=
  match fields with
  | [] => None
  | h :: t => if (cur =? index)%nat then Some h else field_use t (index + 1) cur
  end.

(** koopa/src/ir/entities.rs:659-714 [ValueUses::next] at index [cur] *)
Definition value_uses_next (k : vkind) (cur : nat) : option value :=
  match k with
  | KAggregate elems => vec_use elems cur
  | KGlobalAlloc init => field_use [init] 0 cur
  | KLoad src => field_use [src] 0 cur
  | KStore v d => field_use [v; d] 0 cur
  | KGetPtr s i => field_use [s; i] 0 cur
  | KGetElemPtr s i => field_use [s; i] 0 cur
  | KBinary _ l r => field_use [l; r] 0 cur
  | KBranch c _ _ targs fargs =>
      let tlen := length targs in
      if (cur =? 0)%nat then Some c
      else if ((1 <=? cur) && (cur <=? tlen))%nat then targs !! (cur - 1)%nat
      else if ((tlen <? cur) && (cur <=? tlen + length fargs))%nat
           then fargs !! (cur - tlen - 1)%nat
      else None
  | KJump _ args => vec_use args cur
  | KCall _ args => vec_use args cur
  | KReturn v => if (cur =? 0)%nat then v else None
  | _ => None
  end.

(** koopa/src/ir/entities.rs:726-741 [BasicBlockUses::next] at index [cur] *)
Definition bb_uses_next (k : vkind) (cur : nat) : option bblock :=
  match k with
  | KBranch _ t f _ _ =>
      match cur with 0%nat => Some t | 1%nat => Some f | _ => None end
  | KJump t _ => match cur with 0%nat => Some t | _ => None end
  | _ => None
  end.

(** A [for] loop over an index-based iterator (koopa/src/ir/dfg.rs:74,77,...):
    call [next] with 0, 1, ... until it returns [None].  The fuel bounds the number
    of calls; C05 shows that it is never exhausted. *)
Fixpoint drain (next : nat → option N) (fuel i : nat) : list N :=
  match fuel with
  | O => []
  | S f => match next i with Some v => v :: drain next f (S i) | None => [] end
  end.

(** Upper bound on the number of operands, only used as fuel for [drain]
    (argument lists of koopa/src/ir/values.rs). *)
Definition kind_fuel (k : vkind) : nat :=
  match k with
  | KAggregate l | KJump _ l | KCall _ l => S (length l)
  | KBranch _ _ _ t f => 2 + length t + length f
  | _ => 3
  end.

(** koopa/src/ir/entities.rs:601-606 [ValueKind::value_uses], drained by a loop *)
Definition value_uses (k : vkind) : list value := drain (value_uses_next k) (kind_fuel k) 0.

(** koopa/src/ir/entities.rs:609-614 [ValueKind::bb_uses], drained by a loop *)
Definition bb_uses (k : vkind) : list bblock := drain (bb_uses_next k) 3 0.

(** ** Entity data *)

(** koopa/src/ir/entities.rs:489-494 [ValueData] *)
Record vdata := VData {
  v_ty : ty;
  v_name : option string;
  v_kind : vkind;
  v_used_by : gset N;
}.

(** koopa/src/ir/entities.rs:498-505 [ValueData::new] *)
Definition new_vdata (t : ty) (k : vkind) : vdata := VData t None k ∅.

(** koopa/src/ir/entities.rs:548-558 [Clone for ValueData] *)
Definition clone_vdata (d : vdata) : vdata := VData (v_ty d) (v_name d) (v_kind d) ∅.

(** Update of the [used_by] field (koopa/src/ir/dfg.rs:75,103,...). *)
Definition upd_used_by (f : gset N → gset N) (d : vdata) : vdata :=
  VData (v_ty d) (v_name d) (v_kind d) (f (v_used_by d)).

(** Is this a name accepted by [ValueData::set_name], [check_sanity],
    [check_bb_name]: longer than one byte, first character '%' or '@'
    (koopa/src/ir/entities.rs:355-357,522-527; koopa/src/ir/builder.rs:443-448). *)
Definition valid_name (n : string) : bool :=
  match n with
  | String c (String _ _) => (Ascii.eqb c "%" || Ascii.eqb c "@")%char
  | _ => false
  end.

(** [name.is_none_or(...)], same places as [valid_name]
    (koopa/src/ir/entities.rs:517-530). *)
Definition valid_opt_name (n : option string) : bool :=
  match n with None => true | Some s => valid_name s end.

(** koopa/src/ir/entities.rs:522-530 [ValueData::set_name] *)
Definition set_name (n : option string) (d : vdata) : option vdata :=
  if valid_opt_name n then Some (VData (v_ty d) n (v_kind d) (v_used_by d)) else None.

(** koopa/src/ir/entities.rs:420-424 [BasicBlockData] *)
Record bbdata := BBData {
  bb_name : option string;
  bb_params : list value;
  bb_used_by : gset N;
}.

(** Update of the [used_by] field of a block (koopa/src/ir/dfg.rs:78,106,...). *)
Definition upd_bb_used_by (f : gset N → gset N) (d : bbdata) : bbdata :=
  BBData (bb_name d) (bb_params d) (f (bb_used_by d)).

(** koopa/src/ir/dfg.rs:14-19 [DataFlowGraph]; the weak pointers to the program's
    global values and function types are passed explicitly. *)
Record dfg := Dfg {
  d_values : gmap N vdata;
  d_bbs : gmap N bbdata;
}.

(** koopa/src/ir/dfg.rs:51-58 [DataFlowGraph::new] *)
Definition dfg0 : dfg := Dfg ∅ ∅.

(** ** Data flow graph operations.  [gs] is the program's global value map. *)

(** koopa/src/ir/dfg.rs:36-47 macro [data_mut!] followed by an update of [used_by]:
    globals are looked up first, then local values; panics if absent. *)
Definition data_mut_used (f : gset N → gset N) (v : value)
    (gs vs : gmap N vdata) : option (gmap N vdata * gmap N vdata) :=
  match gs !! v with
  | Some d => Some (<[v := upd_used_by f d]> gs, vs)
  | None =>
      match vs !! v with
      | Some d => Some (gs, <[v := upd_used_by f d]> vs)
      | None => None
      end
  end.

(** [for v in data.kind().value_uses() { data_mut!(self, v).used_by... }]
    (koopa/src/ir/dfg.rs:74-76,102-104,108-110,128-130,135-137,153-155) *)
Fixpoint upd_uses (f : gset N → gset N) (us : list value)
    (gs vs : gmap N vdata) : option (gmap N vdata * gmap N vdata) :=
  match us with
  | [] => Some (gs, vs)
  | u :: us' =>
      '(gs', vs') ← data_mut_used f u gs vs;
      upd_uses f us' gs' vs'
  end.

(** [for bb in data.kind().bb_uses() { self.bb_mut(bb).used_by... }]
    (koopa/src/ir/dfg.rs:77-79,105-107,111-113,131-133,138-140,156-158; 298-300) *)
Fixpoint upd_bb_uses (f : gset N → gset N) (us : list bblock)
    (bs : gmap N bbdata) : option (gmap N bbdata) :=
  match us with
  | [] => Some bs
  | u :: us' =>
      d ← bs !! u;
      upd_bb_uses f us' (<[u := upd_bb_used_by f d]> bs)
  end.

(** [HashSet::insert] of a user (koopa/src/ir/dfg.rs:75, 78). *)
Definition add_user (v : value) (s : gset N) : gset N := {[v]} ∪ s.
(** [HashSet::remove] of a user (koopa/src/ir/dfg.rs:103, 106). *)
Definition del_user (v : value) (s : gset N) : gset N := s ∖ {[v]}.

(** koopa/src/ir/dfg.rs:72-82 [DataFlowGraph::new_value_data] *)
Definition dfg_new_value_data (i : ids) (gs : gmap N vdata) (g : dfg) (data : vdata)
    : option (value * ids * gmap N vdata * dfg) :=
  '(v, i') ← next_local_value_id i;
  '(gs', vs') ← upd_uses (add_user v) (value_uses (v_kind data)) gs (d_values g);
  bs' ← upd_bb_uses (add_user v) (bb_uses (v_kind data)) (d_bbs g);
  Some (v, i', gs', Dfg (<[v := data]> vs') bs').

(** koopa/src/ir/dfg.rs:100-116 [DataFlowGraph::replace_value_with_data] *)
Definition dfg_replace_value_with_data (gs : gmap N vdata) (g : dfg)
    (v : value) (data : vdata) : option (gmap N vdata * dfg) :=
  old ← d_values g !! v;
  '(gs1, vs1) ← upd_uses (del_user v) (value_uses (v_kind old)) gs (delete v (d_values g));
  bs1 ← upd_bb_uses (del_user v) (bb_uses (v_kind old)) (d_bbs g);
  '(gs2, vs2) ← upd_uses (add_user v) (value_uses (v_kind data)) gs1 vs1;
  bs2 ← upd_bb_uses (add_user v) (bb_uses (v_kind data)) bs1;
  Some (gs2, Dfg (<[v := VData (v_ty data) (v_name data) (v_kind data) (v_used_by old)]> vs2) bs2).

(** koopa/src/ir/dfg.rs:123-142 [DataFlowGraph::update_value]; [f] is the closure. *)
Definition dfg_update_value (gs : gmap N vdata) (g : dfg)
    (v : value) (f : vdata → vdata) : option (gmap N vdata * dfg) :=
  old ← d_values g !! v;
  '(gs1, vs1) ← upd_uses (del_user v) (value_uses (v_kind old)) gs (delete v (d_values g));
  bs1 ← upd_bb_uses (del_user v) (bb_uses (v_kind old)) (d_bbs g);
  let data := f old in
  '(gs2, vs2) ← upd_uses (add_user v) (value_uses (v_kind data)) gs1 vs1;
  bs2 ← upd_bb_uses (add_user v) (bb_uses (v_kind data)) bs1;
  Some (gs2, Dfg (<[v := data]> vs2) bs2).

(** A closure that only goes through [ValueData::kind_mut]
    (koopa/src/ir/entities.rs:538-540), the only public mutator of [ValueData]. *)
Definition kind_mut (h : vkind → vkind) (d : vdata) : vdata :=
  VData (v_ty d) (v_name d) (h (v_kind d)) (v_used_by d).

(** koopa/src/ir/dfg.rs:150-160 [DataFlowGraph::remove_value] *)
Definition dfg_remove_value (gs : gmap N vdata) (g : dfg) (v : value)
    : option (vdata * gmap N vdata * dfg) :=
  data ← d_values g !! v;
  _ ← assert_ (bool_decide (v_used_by data = ∅));
  '(gs1, vs1) ← upd_uses (del_user v) (value_uses (v_kind data)) gs (delete v (d_values g));
  bs1 ← upd_bb_uses (del_user v) (bb_uses (v_kind data)) (d_bbs g);
  Some (data, gs1, Dfg vs1 bs1).

(** koopa/src/ir/dfg.rs:168-174 [DataFlowGraph::set_value_name] *)
Definition dfg_set_value_name (g : dfg) (v : value) (n : option string) : option dfg :=
  d ← d_values g !! v;
  d' ← set_name n d;
  Some (Dfg (<[v := d']> (d_values g)) (d_bbs g)).

(** koopa/src/ir/dfg.rs:251-255 [DataFlowGraph::new_bb_data] *)
Definition dfg_new_bb_data (i : ids) (g : dfg) (data : bbdata) : option (bblock * ids * dfg) :=
  '(b, i') ← next_bb_id i;
  Some (b, i', Dfg (d_values g) (<[b := data]> (d_bbs g))).

(** Loop of koopa/src/ir/dfg.rs:271-280 *)
Fixpoint remove_params (ps : list value) (vs : gmap N vdata) : option (gmap N vdata) :=
  match ps with
  | [] => Some vs
  | p :: ps' =>
      d ← vs !! p;
      _ ← assert_ (bool_decide (v_used_by d = ∅));
      remove_params ps' (delete p vs)
  end.

(** koopa/src/ir/dfg.rs:268-282 [DataFlowGraph::remove_bb] *)
Definition dfg_remove_bb (g : dfg) (b : bblock) : option (bbdata * dfg) :=
  data ← d_bbs g !! b;
  _ ← assert_ (bool_decide (bb_used_by data = ∅));
  vs' ← remove_params (bb_params data) (d_values g);
  Some (data, Dfg vs' (delete b (d_bbs g))).

(** koopa/src/ir/dfg.rs:22-33 macro [data!]: globals first, then local values *)
Definition dfg_data (gs : gmap N vdata) (g : dfg) (v : value) : option vdata :=
  match gs !! v with Some d => Some d | None => d_values g !! v end.

(** koopa/src/ir/dfg.rs:196-236 the part of [data_eq] before the operand loop:
    [Some b] = return b, [None] = go on with the operands. *)
Definition data_eq_head (l r : vdata) : option bool :=
  if negb (ty_eqb (v_ty l) (v_ty r)) then Some false else
  match v_kind l, v_kind r with
  | KInteger a, KInteger b => if negb (a =? b)%Z then Some false else None
  | KZeroInit, KZeroInit => Some true
  | KUndef, KUndef => Some true
  | KAggregate a, KAggregate b =>
      if negb (length a =? length b)%nat then Some false else None
  | KFuncArg a, KFuncArg b => if negb (a =? b)%N then Some false else None
  | KBlockArg a, KBlockArg b => if negb (a =? b)%N then Some false else None
  | KAlloc, KAlloc => Some true
  | KGlobalAlloc _, KGlobalAlloc _ => None
  | KLoad _, KLoad _ => None
  | KStore _ _, KStore _ _ => None
  | KGetPtr _ _, KGetPtr _ _ => None
  | KGetElemPtr _ _, KGetElemPtr _ _ => None
  | KBinary a _ _, KBinary b _ _ =>
      match a, b with
      | NotEq, NotEq | Eq_, Eq_ | Gt_, Gt_ | Lt_, Lt_ | Ge_, Ge_ | Le_, Le_
      | Add, Add | Sub, Sub | Mul, Mul | Div, Div | Mod_, Mod_ | And, And | Or, Or
      | Xor, Xor | Shl, Shl | Shr, Shr | Sar, Sar => None
      | _, _ => Some false
      end
  | KBranch _ t f ta fa, KBranch _ t' f' ta' fa' =>
      if negb (t =? t')%N || negb (f =? f')%N || negb (length ta =? length ta')%nat
         || negb (length fa =? length fa')%nat
      then Some false else None
  | KJump t a, KJump t' a' =>
      if negb (t =? t')%N || negb (length a =? length a')%nat then Some false else None
  | KCall c a, KCall c' a' =>
      if negb (c =? c')%N || negb (length a =? length a')%nat then Some false else None
  | KReturn a, KReturn b =>
      match a, b with
      | Some _, None | None, Some _ => Some false
      | _, _ => None
      end
  | _, _ => Some false
  end.

(** Result of the (possibly diverging, possibly panicking) comparison
    (koopa/src/ir/dfg.rs:191-241). *)
Inductive eqres := EqTrue | EqFalse | EqPanic | EqFuel.

(** Loop of koopa/src/ir/dfg.rs:237-239 over the zipped operand iterators *)
Fixpoint all_eq (eq : value → value → eqres) (ls rs : list value) : eqres :=
  match ls, rs with
  | l :: ls', r :: rs' =>
      match eq l r with
      | EqTrue => all_eq eq ls' rs'
      | other => other
      end
  | _, _ => EqTrue
  end.

(** koopa/src/ir/dfg.rs:191-193 [value_eq] (mutually recursive with [data_eq],
    196-241); the fuel bounds the recursion depth, which the code does not. *)
Fixpoint value_eq (fuel : nat) (gs : gmap N vdata) (g : dfg) (l r : value) : eqres :=
  match fuel with
  | O => EqFuel
  | S f =>
      match dfg_data gs g l, dfg_data gs g r with
      | Some dl, Some dr =>
          match data_eq_head dl dr with
          | Some true => EqTrue
          | Some false => EqFalse
          | None => all_eq (value_eq f gs g) (value_uses (v_kind dl)) (value_uses (v_kind dr))
          end
      | _, _ => EqPanic
      end
  end.

(** ** Layout data (operations are in LayoutModel.v) *)

(** koopa/src/ir/layout.rs:16-19 [Layout]: the ordered block list with the
    instruction list of each block, and the reverse map [inst_bb]. *)
Record layout := Layout {
  l_bbs : list (bblock * list value);
  l_inst_bb : gmap N N;
}.

(** koopa/src/ir/layout.rs:60-68 [Layout::default] *)
Definition layout0 : layout := Layout [] ∅.

(** ** Functions and programs *)

(** koopa/src/ir/entities.rs:245-251 [FunctionData] *)
Record fdata := FData {
  f_ty : ty;
  f_name : string;
  f_params : list value;
  f_dfg : dfg;
  f_layout : layout;
}.

(** koopa/src/ir/entities.rs:20-26 [Program] *)
Record program := Program {
  p_values : gmap N vdata;
  p_inst_layout : list value;
  p_funcs : gmap N fdata;
  p_func_tys : gmap N ty;
  p_func_layout : list func;
}.

(** koopa/src/ir/entities.rs:42-44 [Program::new] *)
Definition program0 : program := Program ∅ [] ∅ ∅ [].

(** Loop of koopa/src/ir/entities.rs:60-62,86-88 over the global value map only *)
Fixpoint upd_guses (f : gset N → gset N) (us : list value) (gs : gmap N vdata)
    : option (gmap N vdata) :=
  match us with
  | [] => Some gs
  | u :: us' =>
      d ← gs !! u;
      upd_guses f us' (<[u := upd_used_by f d]> gs)
  end.

(** koopa/src/ir/entities.rs:58-65 [Program::new_value_data] *)
Definition prog_new_value_data (i : ids) (p : program) (data : vdata)
    : option (value * ids * program) :=
  '(v, i') ← next_global_value_id i;
  gs' ← upd_guses (add_user v) (value_uses (v_kind data)) (p_values p);
  Some (v, i', Program (<[v := data]> gs') (p_inst_layout p) (p_funcs p)
                 (p_func_tys p) (p_func_layout p)).

(** koopa/src/ir/builder.rs:617-626 [GlobalBuilder::insert_value] *)
Definition global_insert_value (i : ids) (p : program) (data : vdata)
    : option (value * ids * program) :=
  '(v, i', p') ← prog_new_value_data i p data;
  Some (v, i',
    if is_global_alloc (v_kind data)
    then Program (p_values p') (p_inst_layout p' ++ [v]) (p_funcs p')
           (p_func_tys p') (p_func_layout p')
    else p').

(** [vec.remove(vec.iter().position(|x| *x == v).unwrap())]: remove the first
    occurrence, panic if there is none (koopa/src/ir/entities.rs:81-83,184-186). *)
Fixpoint remove_first (v : N) (l : list N) : option (list N) :=
  match l with
  | [] => None
  | x :: l' => if (x =? v)%N then Some l' else l'' ← remove_first v l'; Some (x :: l'')
  end.

(** koopa/src/ir/entities.rs:74-90 [Program::remove_value] *)
Definition prog_remove_value (p : program) (v : value) : option (vdata * program) :=
  data ← p_values p !! v;
  il ← (if is_global_alloc (v_kind data) then remove_first v (p_inst_layout p)
        else Some (p_inst_layout p));
  _ ← assert_ (bool_decide (v_used_by data = ∅));
  gs' ← upd_guses (del_user v) (value_uses (v_kind data)) (delete v (p_values p));
  Some (data, Program gs' il (p_funcs p) (p_func_tys p) (p_func_layout p)).

(** koopa/src/ir/entities.rs:98-105 [Program::set_value_name] *)
Definition prog_set_value_name (p : program) (v : value) (n : option string)
    : option program :=
  d ← p_values p !! v;
  d' ← set_name n d;
  Some (Program (<[v := d']> (p_values p)) (p_inst_layout p) (p_funcs p)
          (p_func_tys p) (p_func_layout p)).

(** koopa/src/ir/entities.rs:351-363 [FunctionData::check_sanity] *)
Definition check_sanity (name : string) (params : list ty) : option unit :=
  _ ← assert_ (valid_name name);
  assert_ (forallb (λ t, negb (is_unit t)) params).

(** Loops of koopa/src/ir/entities.rs:271-275 and 305-313: create one [FuncArgRef]
    per parameter.  The new function's weak pointer to the program is still dangling
    but [FuncArgRef] has no operands, so it is never upgraded. *)
Fixpoint new_func_args (i : ids) (idx : N) (ps : list (option string * ty)) (g : dfg)
    : option (list value * ids * dfg) :=
  match ps with
  | [] => Some ([], i, g)
  | (n, t) :: ps' =>
      '(v, i1, _, g1) ← dfg_new_value_data i ∅ g (new_vdata t (KFuncArg idx));
      g2 ← dfg_set_value_name g1 v n;
      '(vs, i2, g3) ← new_func_args i1 (idx + 1) ps' g2;
      Some (v :: vs, i2, g3)
  end.

(** koopa/src/ir/entities.rs:300-321 [FunctionData::with_param_names] *)
Definition fdata_with_param_names (i : ids) (name : string)
    (params : list (option string * ty)) (ret : ty) : option (fdata * ids) :=
  _ ← check_sanity name (map snd params);
  '(vs, i', g) ← new_func_args i 0 params dfg0;
  Some (FData (TFun (map snd params) ret) name vs g layout0, i').

(** koopa/src/ir/entities.rs:266-283 [FunctionData::new] (same, without names) *)
Definition fdata_new (i : ids) (name : string) (params : list ty) (ret : ty)
    : option (fdata * ids) :=
  fdata_with_param_names i name (map (λ t, (None, t)) params) ret.

(** koopa/src/ir/entities.rs:335-344 [FunctionData::new_decl] *)
Definition fdata_new_decl (name : string) (params : list ty) (ret : ty) : option fdata :=
  _ ← check_sanity name params;
  Some (FData (TFun params ret) name [] dfg0 layout0).

(** koopa/src/ir/entities.rs:130-138 [Program::new_func] *)
Definition prog_new_func (i : ids) (p : program) (data : fdata)
    : option (func * ids * program) :=
  '(f, i') ← next_func_id i;
  Some (f, i', Program (p_values p) (p_inst_layout p) (<[f := data]> (p_funcs p))
                 (<[f := f_ty data]> (p_func_tys p)) (p_func_layout p ++ [f])).

(** koopa/src/ir/entities.rs:158-166 [Program::new_func_def_with_param_names]
    (and, with all names [None], 146-149 [Program::new_func_def]) *)
Definition prog_new_func_def (i : ids) (p : program) (name : string)
    (params : list (option string * ty)) (ret : ty) : option (func * ids * program) :=
  '(d, i') ← fdata_with_param_names i name params ret;
  prog_new_func i' p d.

(** koopa/src/ir/entities.rs:174-177 [Program::new_func_decl] *)
Definition prog_new_func_decl (i : ids) (p : program) (name : string)
    (params : list ty) (ret : ty) : option (func * ids * program) :=
  d ← fdata_new_decl name params ret;
  prog_new_func i p d.

(** koopa/src/ir/entities.rs:182-188 [Program::remove_func]; panics ([unwrap]) if the
    function is not in the layout. *)
Definition prog_remove_func (p : program) (f : func) : option (option fdata * program) :=
  fl ← remove_first f (p_func_layout p);
  Some (p_funcs p !! f,
        Program (p_values p) (p_inst_layout p) (delete f (p_funcs p))
          (delete f (p_func_tys p)) fl).

(** Replace the data of function [f] (write access through
    [Program::func_mut], koopa/src/ir/entities.rs:221-223). *)
Definition set_func (p : program) (f : func) (d : fdata) : program :=
  Program (p_values p) (p_inst_layout p) (<[f := d]> (p_funcs p))
    (p_func_tys p) (p_func_layout p).

(** Replace the global value map (interior mutability of
    koopa/src/ir/entities.rs:21). *)
Definition set_values (p : program) (gs : gmap N vdata) : program :=
  Program gs (p_inst_layout p) (p_funcs p) (p_func_tys p) (p_func_layout p).

(** Replace the data flow graph of a function
    ([FunctionData::dfg_mut], koopa/src/ir/entities.rs:391-393). *)
Definition set_dfg (d : fdata) (g : dfg) : fdata :=
  FData (f_ty d) (f_name d) (f_params d) g (f_layout d).

(** Replace the layout of a function
    ([FunctionData::layout_mut], koopa/src/ir/entities.rs:401-403). *)
Definition set_layout (d : fdata) (l : layout) : fdata :=
  FData (f_ty d) (f_name d) (f_params d) (f_dfg d) l.
