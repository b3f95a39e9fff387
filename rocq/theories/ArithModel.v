(** Model of 32-bit arithmetic as Rust performs it, of the constant folding example
    (koopa/examples/opt/const_fold.rs) and of parts of the example interpreter
    (koopa/examples/interpreter/interpreter.rs). *)
From Verif Require Import Base IdModel TypeModel IrModel LayoutModel.

(** The range of [i32], the type of the operands
    (koopa/examples/opt/const_fold.rs:30-48, koopa/examples/interpreter/interpreter.rs:310-328) *)
Definition i32_min : Z := -2147483648.
(** As above (koopa/examples/opt/const_fold.rs:30-48) *)
Definition i32_max : Z := 2147483647.

(** Is the number an [i32]? (koopa/examples/opt/const_fold.rs:30-48) *)
Definition in_i32 (z : Z) : bool := (i32_min <=? z)%Z && (z <=? i32_max)%Z.

(** [as i32] (koopa/examples/opt/const_fold.rs:46): the representative modulo 2^32 in the
    range of [i32]. *)
Definition as_i32 (z : Z) : Z := ((z + 2147483648) mod 4294967296 - 2147483648)%Z.

(** [as u32] (koopa/examples/opt/const_fold.rs:46) *)
Definition as_u32 (z : Z) : Z := (z mod 4294967296)%Z.

(** The value of Rust's [==], [<], ... converted with [as i32]
    (koopa/examples/opt/const_fold.rs:31-36). *)
Definition bool_i32 (b : bool) : Z := if b then 1 else 0.

(** Result [z] of [+], [-] or [*]; [checks]: compiled with overflow checks (then a
    panic) or without (then it wraps) (koopa/examples/opt/const_fold.rs:37-39). *)
Definition arith (checks : bool) (z : Z) : option Z :=
  if in_i32 z then Some z else if checks then None else Some (as_i32 z).

(** [l / r] (koopa/examples/opt/const_fold.rs:40): panics on zero and on overflow, in every
    build. *)
Definition rdiv (l r : Z) : option Z :=
  if (r =? 0)%Z then None
  else if ((l =? i32_min) && (r =? -1))%Z then None else Some (Z.quot l r).

(** [l % r] (koopa/examples/opt/const_fold.rs:41) *)
Definition rrem (l r : Z) : option Z :=
  if (r =? 0)%Z then None
  else if ((l =? i32_min) && (r =? -1))%Z then None else Some (Z.rem l r).

(** The shift amount: [i32] on the right of [<<] or [>>]; out of range is a panic with
    overflow checks, else the low five bits count (koopa/examples/opt/const_fold.rs:45-47). *)
Definition shift_amount (checks : bool) (r : Z) : option Z :=
  if ((0 <=? r) && (r <? 32))%Z then Some r
  else if checks then None else Some (r mod 32)%Z.

(** koopa/examples/opt/const_fold.rs:30-48: folding of [l op r].  [None]: panic;
    [Some None]: replaced by [undef]; [Some (Some c)]: replaced by the integer [c]. *)
Definition fold_op (checks : bool) (op : binop) (l r : Z) : option (option Z) :=
  match op with
  | NotEq => Some (Some (bool_i32 (negb (l =? r)%Z)))
  | Eq_ => Some (Some (bool_i32 (l =? r)%Z))
  | Gt_ => Some (Some (bool_i32 (l >? r)%Z))
  | Lt_ => Some (Some (bool_i32 (l <? r)%Z))
  | Ge_ => Some (Some (bool_i32 (l >=? r)%Z))
  | Le_ => Some (Some (bool_i32 (l <=? r)%Z))
  | Add => c ← arith checks (l + r); Some (Some c)
  | Sub => c ← arith checks (l - r); Some (Some c)
  | Mul => c ← arith checks (l * r); Some (Some c)
  | Div => if negb (r =? 0)%Z then c ← rdiv l r; Some (Some c) else Some None
  | Mod_ => if negb (r =? 0)%Z then c ← rrem l r; Some (Some c) else Some None
  | And => Some (Some (Z.land l r))
  | Or => Some (Some (Z.lor l r))
  | Xor => Some (Some (Z.lxor l r))
  | Shl => s ← shift_amount checks r; Some (Some (as_i32 (Z.shiftl l s)))
  | Shr => s ← shift_amount checks r; Some (Some (as_i32 (Z.shiftr (as_u32 l) s)))
  | Sar => s ← shift_amount checks r; Some (Some (Z.shiftr l s))
  end.

(** koopa/examples/interpreter/interpreter.rs:310-328: execution of [l op r]. *)
Definition exec_op (checks : bool) (op : binop) (lv rv : Z) : option Z :=
  match op with
  | NotEq => Some (bool_i32 (negb (lv =? rv)%Z))
  | Eq_ => Some (bool_i32 (lv =? rv)%Z)
  | Gt_ => Some (bool_i32 (lv >? rv)%Z)
  | Lt_ => Some (bool_i32 (lv <? rv)%Z)
  | Ge_ => Some (bool_i32 (lv >=? rv)%Z)
  | Le_ => Some (bool_i32 (lv <=? rv)%Z)
  | Add => arith checks (lv + rv)
  | Sub => arith checks (lv - rv)
  | Mul => arith checks (lv * rv)
  | Div => rdiv lv rv
  | Mod_ => rrem lv rv
  | And => Some (Z.land lv rv)
  | Or => Some (Z.lor lv rv)
  | Xor => Some (Z.lxor lv rv)
  | Shl => s ← shift_amount checks rv; Some (as_i32 (Z.shiftl lv s))
  | Shr => s ← shift_amount checks rv; Some (as_i32 (Z.shiftr (as_u32 lv) s))
  | Sar => s ← shift_amount checks rv; Some (Z.shiftr lv s)
  end.

(** ** The folding pass *)

(** koopa/examples/opt/const_fold.rs:25-56: what one value of the graph is replaced by.
    [Some None]: not evaluable ([continue]). *)
Definition fold_value (checks : bool) (g : dfg) (d : vdata) : option (option (option Z)) :=
  match v_kind d with
  | KBinary op l r =>
      dl ← d_values g !! l;
      dr ← d_values g !! r;
      match v_kind dl, v_kind dr with
      | KInteger a, KInteger b => c ← fold_op checks op a b; Some (Some c)
      | KUndef, _ => None
      | _, KUndef => None
      | _, _ => Some None
      end
  | _ => Some None
  end.

(** koopa/examples/opt/const_fold.rs:24-58: the list [evaluated]; [vs] are the values in
    iteration order. *)
Fixpoint collect_folds (checks : bool) (g : dfg) (l : layout) (vs : list value)
    : option (list (value * option Z * bblock)) :=
  match vs with
  | [] => Some []
  | v :: vs' =>
      d ← d_values g !! v;
      a ← fold_value checks g d;
      match a with
      | None => collect_folds checks g l vs'
      | Some ans =>
          bb ← parent_bb l v;
          rest ← collect_folds checks g l vs';
          Some ((v, ans, bb) :: rest)
      end
  end.

(** koopa/examples/opt/const_fold.rs:62-69: replacement of the evaluated instructions. *)
Fixpoint replace_folds (es : list (value * option Z * bblock)) (gs : gmap N vdata) (g : dfg)
    : option (gmap N vdata * dfg) :=
  match es with
  | [] => Some (gs, g)
  | (v, ans, _) :: es' =>
      '(gs', g') ← dfg_replace_value_with_data gs g v
         (new_vdata TInt32 (match ans with Some c => KInteger c | None => KUndef end));
      replace_folds es' gs' g'
  end.

(** koopa/examples/opt/const_fold.rs:71-73: removal from the layout. *)
Fixpoint remove_folds (es : list (value * option Z * bblock)) (l : layout) : option layout :=
  match es with
  | [] => Some l
  | (v, _, bb) :: es' => l' ← inst_remove bb v l; remove_folds es' l'
  end.

(** koopa/examples/opt/const_fold.rs:21-75 [eval_const]; [order]: iteration order of the
    hash map of values. *)
Definition eval_const (checks : bool) (order : gmap N vdata → list value)
    (gs : gmap N vdata) (d : fdata) : option (bool * gmap N vdata * fdata) :=
  es ← collect_folds checks (f_dfg d) (f_layout d) (order (d_values (f_dfg d)));
  '(gs', g') ← replace_folds es gs (f_dfg d);
  l' ← remove_folds es (f_layout d);
  Some (negb (Nat.eqb (length es) 0), gs',
        FData (f_ty d) (f_name d) (f_params d) g' l').

(** koopa/examples/opt/const_fold.rs:10: [while self.eval_const(data) {}].  The third
    result tells whether the fuel sufficed. *)
Fixpoint fold_loop (fuel : nat) (checks : bool) (order : gmap N vdata → list value)
    (gs : gmap N vdata) (d : fdata) : option (gmap N vdata * fdata * bool) :=
  match fuel with
  | O => Some (gs, d, false)
  | S n =>
      '(changed, gs', d') ← eval_const checks order gs d;
      if (changed : bool) then fold_loop n checks order gs' d' else Some (gs', d', true)
  end.

(** ** Block parameters in the interpreter *)

(** koopa/examples/interpreter/interpreter.rs:414-427 [Val]; addresses are numbers. *)
Inductive val :=
  | VUndef
  | VInt (z : Z)
  | VArray (l : list val)
  | VPointer (ptr : option N) (index len : N)
  | VUnsafe (ptr : option N).

(** koopa/examples/interpreter/interpreter.rs:137-146 [new_zeroinit] *)
Fixpoint new_zeroinit (t : ty) : option val :=
  match t with
  | TInt32 => Some (VInt 0)
  | TArray base len =>
      b ← new_zeroinit base; Some (VArray (replicate (N.to_nat len) b))
  | TPtr _ => Some (VPointer None 0 0)
  | _ => None
  end.

(** koopa/examples/interpreter/interpreter.rs:122-135 [eval_local_const]; fuel bounds the
    nesting of aggregates. *)
Fixpoint eval_local_const (fuel : nat) (g : dfg) (d : vdata) : option val :=
  match fuel with
  | O => None
  | S n =>
      match v_kind d with
      | KInteger z => Some (VInt z)
      | KZeroInit => new_zeroinit (v_ty d)
      | KUndef => Some VUndef
      | KAggregate es =>
          vs ← mapM (λ e, de ← d_values g !! e; eval_local_const n g de) es;
          Some (VArray vs)
      | _ => None
      end
  end.

(** koopa/examples/interpreter/interpreter.rs:363-383 [eval_value]; [gvars]: the global
    variables, [vals]: the local values of the current function. *)
Definition eval_value (fuel : nat) (g : dfg) (gvars vals : gmap N val) (v : value) : option val :=
  if is_global_id v then gvars !! v
  else d ← d_values g !! v;
       if is_const (v_kind d) then eval_local_const fuel g d else vals !! v.

(** koopa/examples/interpreter/interpreter.rs:391-393: the loop of [update_bb_params]. *)
Fixpoint bind_params (fuel : nat) (g : dfg) (gvars : gmap N val) (ps args : list value)
    (vals : gmap N val) : option (gmap N val) :=
  match ps, args with
  | p :: ps', a :: args' =>
      x ← eval_value fuel g gvars vals a;
      bind_params fuel g gvars ps' args' (<[p := x]> vals)
  | _, _ => Some vals
  end.

(** koopa/examples/interpreter/interpreter.rs:389-394 [update_bb_params] *)
Definition update_bb_params (fuel : nat) (g : dfg) (gvars : gmap N val) (bb : bblock)
    (args : list value) (vals : gmap N val) : option (gmap N val) :=
  b ← d_bbs g !! bb; bind_params fuel g gvars (bb_params b) args vals.
