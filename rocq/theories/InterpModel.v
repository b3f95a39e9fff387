(** Model of the example interpreter (koopa/examples/interpreter/interpreter.rs and
    ext_funcs.rs).

    Memory: every box ([Pin<Box<Val>>]) and every array buffer ([Box<[Val]>]) has a number
    that is never used again; a pointer to a [Val] is the number of a box and the way from
    the box to the [Val], through array buffers.  A pointer into a box or a buffer that was
    dropped leads nowhere; using it is undefined behaviour in the code, and [XBeyond] here.

    Simplifications: messages of errors are dropped; foreign functions are given by the
    parameter [c_ext]; the memory of foreign functions is not modelled: to read or write it,
    and to pass it a pointer to a [Val], is [XBeyond]; values are keyed by their handles, not
    by the addresses of their [ValueData]; the stack is unbounded. *)
From Verif Require Import Base IdModel TypeModel IrModel LayoutModel ArithModel.

(** The result of a run: a value, an [io::Error] (koopa/examples/interpreter/interpreter.rs:74),
    a panic, undefined behaviour or foreign memory, or deeper recursion than the fuel. *)
Inductive xres (A : Type) :=
  | XOk (a : A)
  | XErr
  | XPanic
  | XBeyond
  | XDeep.
Arguments XOk {A} a.
Arguments XErr {A}.
Arguments XPanic {A}.
Arguments XBeyond {A}.
Arguments XDeep {A}.
(** The operator [?] (koopa/examples/interpreter/interpreter.rs:207) *)
Global Instance xres_bind : MBind xres := λ A B k m,
  match m with XOk a => k a | XErr => XErr | XPanic => XPanic | XBeyond => XBeyond | XDeep => XDeep end.
(** [unwrap], [expect], indexing (koopa/examples/interpreter/interpreter.rs:47, 59) *)
Definition xneed {A} (o : option A) : xres A := match o with Some a => XOk a | None => XPanic end.
(** Following a pointer, which must not dangle
    (koopa/examples/interpreter/interpreter.rs:238, 251, 287) *)
Definition xmem {A} (o : option A) : xres A := match o with Some a => XOk a | None => XBeyond end.

(** ** Values *)
(** The pointers in koopa/examples/interpreter/interpreter.rs:420: a box, and the buffers on
    the way with the index into each *)
Record xptr := Ptr { pt_box : N; pt_path : list (N * nat) }.
(** koopa/examples/interpreter/interpreter.rs:414-427 [Val]; an array has the number of its
    buffer *)
Inductive xval :=
  | XUndef
  | XInt (z : Z)
  | XArr (id : N) (l : list xval)
  | XPtr (p : option xptr) (index len : N)
  | XRaw (a : option N).

(** [Val::clone] (koopa/examples/interpreter/interpreter.rs:413): arrays get new buffers.
    [n]: the next number *)
Fixpoint xclone (v : xval) (n : N) : xval * N :=
  match v with
  | XArr _ l =>
      let '(l', n') := (fix go (l : list xval) (n : N) : list xval * N :=
        match l with
        | [] => ([], n)
        | x :: l' => let '(y, n1) := xclone x n in let '(ys, n2) := go l' n1 in (y :: ys, n2)
        end) l (n + 1)%N in
      (XArr n l', n')
  | _ => (v, n)
  end.
(** [(0..*len).map(f).collect()] (koopa/examples/interpreter/interpreter.rs:141) *)
Fixpoint x_many (f : N → xres (xval * N)) (k : nat) (n : N) : xres (list xval * N) :=
  match k with
  | O => XOk ([], n)
  | S k' => '(y, n1) ← f n; '(ys, n2) ← x_many f k' n1; XOk (y :: ys, n2)
  end.
(** koopa/examples/interpreter/interpreter.rs:137-146 [new_zeroinit] *)
Fixpoint x_zeroinit (t : ty) (n : N) : xres (xval * N) :=
  match t with
  | TInt32 => XOk (XInt 0, n)
  | TArray base len =>
      '(l, n') ← x_many (x_zeroinit base) (N.to_nat len) (n + 1)%N; XOk (XArr n l, n')
  | TPtr _ => XOk (XPtr None 0 0, n)
  | _ => XPanic
  end.
(** [l.iter().map(f).collect()] (koopa/examples/interpreter/interpreter.rs:128-131, 334) *)
Fixpoint x_each (f : value → N → xres (xval * N)) (l : list value) (n : N) : xres (list xval * N) :=
  match l with
  | [] => XOk ([], n)
  | v :: l' => '(y, n1) ← f v n; '(ys, n2) ← x_each f l' n1; XOk (y :: ys, n2)
  end.
(** koopa/examples/interpreter/interpreter.rs:107-120 [eval_global_const] and 122-135
    [eval_local_const]: [m] is the map of global values, or of the values of the function;
    the fuel bounds the nesting of aggregates. *)
Fixpoint x_const (fuel : nat) (m : gmap N vdata) (v : value) (n : N) : xres (xval * N) :=
  match fuel with
  | O => XDeep
  | S k =>
      d ← xneed (m !! v);
      match v_kind d with
      | KInteger z => XOk (XInt z, n)
      | KZeroInit => x_zeroinit (v_ty d) n
      | KUndef => XOk (XUndef, n)
      | KAggregate es => '(l, n') ← x_each (x_const k m) es (n + 1)%N; XOk (XArr n l, n')
      | _ => XPanic
      end
  end.

(** ** Memory *)
(** From a [Val] along a path (koopa/examples/interpreter/interpreter.rs:238, 287) *)
Fixpoint at_path (v : xval) (p : list (N * nat)) : option xval :=
  match p with
  | [] => Some v
  | (i, k) :: p' =>
      match v with
      | XArr j l => if (i =? j)%N then x ← l !! k; at_path x p' else None
      | _ => None
      end
  end.
(** The assignment of koopa/examples/interpreter/interpreter.rs:251, which drops the old [Val] *)
Fixpoint set_path (v : xval) (p : list (N * nat)) (x : xval) : option xval :=
  match p with
  | [] => Some x
  | (i, k) :: p' =>
      match v with
      | XArr j l =>
          if (i =? j)%N then y ← l !! k; y' ← set_path y p' x; Some (XArr j (<[k := y']> l)) else None
      | _ => None
      end
  end.
(** [p.as_ref()] (koopa/examples/interpreter/interpreter.rs:238, 287) *)
Definition x_read (mem : gmap N xval) (p : xptr) : xres xval :=
  xmem (v ← mem !! pt_box p; at_path v (pt_path p)).
(** [*p.as_ptr() = val] (koopa/examples/interpreter/interpreter.rs:251) *)
Definition x_write (mem : gmap N xval) (p : xptr) (x : xval) : xres (gmap N xval) :=
  xmem (v ← mem !! pt_box p; v' ← set_path v (pt_path p) x; Some (<[pt_box p := v']> mem)).
(** [p.as_ptr().offset(offset)] (koopa/examples/interpreter/interpreter.rs:154): stays in the
    innermost buffer *)
Fixpoint shift_path (p : list (N * nat)) (off : Z) : option (list (N * nat)) :=
  match p with
  | [] => None
  | [(i, k)] => if (0 <=? Z.of_nat k + off)%Z then Some [(i, Z.to_nat (Z.of_nat k + off))] else None
  | x :: p' => p'' ← shift_path p' off; Some (x :: p'')
  end.
(** The address arithmetic of koopa/examples/interpreter/interpreter.rs:166, 293; leaving the
    addresses, or reaching zero, is undefined behaviour *)
Definition shift_raw (a : N) (off : Z) (base_size : N) : xres N :=
  let b := (Z.of_N a + Z.of_N base_size * off)%Z in
  if ((0 <? b) && (b <? Z.of_N two64))%Z then XOk (Z.to_N b) else XBeyond.
(** koopa/examples/interpreter/interpreter.rs:148-170 [get_pointer] *)
Definition x_get_pointer (src : xval) (off : Z) (base_size : N) : xres xval :=
  match src with
  | XPtr p index len =>
      let ni := (Z.of_N index + off)%Z in
      if ((0 <=? ni) && (ni <? Z.of_N len))%Z then
        match p with
        | None => XOk (XPtr None (Z.to_N ni) len)
        | Some q =>
            path ← xmem (shift_path (pt_path q) off);
            XOk (XPtr (Some (Ptr (pt_box q) path)) (Z.to_N ni) len)
        end
      else XErr
  | XRaw None => XOk (XRaw None)
  | XRaw (Some a) => b ← shift_raw a off base_size; XOk (XRaw (Some b))
  | _ => XPanic
  end.

(** ** State *)
(** Foreign functions (koopa/examples/interpreter/ext_funcs.rs:9-11): by name, from the words
    of the arguments and the state of the foreign world to its next state and the word returned;
    whether arithmetic is checked for overflow; the size of pointers *)
Record xconfig (E : Type) := XConfig {
  c_checks : bool;
  c_ptr_size : N;
  c_ext : string → option (list N → E → E * N);
}.
Arguments c_checks {E} _.
Arguments c_ptr_size {E} _.
Arguments c_ext {E} _ _.
(** Boxes (koopa/examples/interpreter/interpreter.rs:39, 399), the next number for boxes and
    buffers, and the foreign world (42) *)
Record xworld (E : Type) := XWorld { x_mem : gmap N xval; x_next : N; x_extern : E }.
Arguments XWorld {E} _ _ _.
Arguments x_mem {E} _.
Arguments x_next {E} _.
Arguments x_extern {E} _.
(** koopa/examples/interpreter/interpreter.rs:397-401 [Environment], without the function *)
Record xframe := XFrame { xf_vals : gmap N xval; xf_allocs : list N }.
(** koopa/examples/interpreter/interpreter.rs:385-387 [insert_val] *)
Definition x_insert (v : value) (x : xval) (F : xframe) : xframe :=
  XFrame (<[v := x]> (xf_vals F)) (xf_allocs F).
(** Values made: the next number changes (koopa/examples/interpreter/interpreter.rs:413) *)
Definition x_upto {E} (W : xworld E) (n : N) : xworld E := XWorld (x_mem W) n (x_extern W).
(** A new box (koopa/examples/interpreter/interpreter.rs:81, 228-230) *)
Definition x_box {E} (x : xval) (W : xworld E) : N * xworld E :=
  (x_next W, XWorld (<[x_next W := x]> (x_mem W)) (x_next W + 1) (x_extern W)).
(** The boxes of an environment are dropped (koopa/examples/interpreter/interpreter.rs:193) *)
Definition x_drop {E} (l : list N) (W : xworld E) : xworld E :=
  XWorld (foldr delete (x_mem W) l) (x_next W) (x_extern W).
(** koopa/examples/interpreter/interpreter.rs:470-472 [as_bool] *)
Definition x_bool (x : xval) : bool := match x with XInt z => negb (z =? 0)%Z | _ => false end.

Section interpreter.
Context {E : Type} (C : xconfig E) (p : program) (vars : gmap N xval).

(** koopa/examples/interpreter/interpreter.rs:363-383 [eval_value] *)
Definition x_value (fuel : nat) (fd : fdata) (vs : gmap N xval) (v : value) (n : N) : xres (xval * N) :=
  if is_global_id v then
    d ← xneed (p_values p !! v);
    if is_const (v_kind d) then XPanic else x ← xneed (vars !! v); XOk (xclone x n)
  else
    d ← xneed (d_values (f_dfg fd) !! v);
    if is_const (v_kind d) then x_const fuel (d_values (f_dfg fd)) v n
    else x ← xneed (match vars !! v with Some x => Some x | None => vs !! v end); XOk (xclone x n).
(** The same, on the current environment (koopa/examples/interpreter/interpreter.rs:363-383) *)
Definition x_eval (fuel : nat) (fd : fdata) (F : xframe) (v : value) (W : xworld E) : xres (xval * xworld E) :=
  '(x, n) ← x_value fuel fd (xf_vals F) v (x_next W); XOk (x, x_upto W n).

(** koopa/examples/interpreter/interpreter.rs:222-234 [eval_alloc] *)
Definition x_alloc (v : value) (d : vdata) (W : xworld E) (F : xframe) : xres (xworld E * xframe) :=
  match v_ty d with
  | TPtr base =>
      '(x, n) ← x_zeroinit base (x_next W);
      let '(b, W1) := x_box x (x_upto W n) in
      XOk (W1, XFrame (<[v := XPtr (Some (Ptr b [])) 0 0]> (xf_vals F)) (xf_allocs F ++ [b]))
  | _ => XPanic
  end.
(** koopa/examples/interpreter/interpreter.rs:236-245 [eval_load] *)
Definition x_load (fuel : nat) (fd : fdata) (v src : value) (W : xworld E) (F : xframe)
    : xres (xworld E * xframe) :=
  '(s, W1) ← x_eval fuel fd F src W;
  match s with
  | XPtr (Some q) _ _ =>
      x ← x_read (x_mem W1) q;
      let '(y, n) := xclone x (x_next W1) in XOk (x_upto W1 n, x_insert v y F)
  | XPtr None _ _ | XRaw None => XErr
  | XRaw (Some _) => XBeyond
  | _ => XPanic
  end.
(** koopa/examples/interpreter/interpreter.rs:247-256 [eval_store], with the cases of
    474-501 [store_to_unsafe_ptr] *)
Definition x_store (fuel : nat) (fd : fdata) (val dest : value) (W : xworld E) (F : xframe)
    : xres (xworld E * xframe) :=
  '(x, W1) ← x_eval fuel fd F val W;
  '(d, W2) ← x_eval fuel fd F dest W1;
  match d with
  | XPtr (Some q) _ _ =>
      m ← x_write (x_mem W2) q x; XOk (XWorld m (x_next W2) (x_extern W2), F)
  | XPtr None _ _ | XRaw None => XErr
  | XRaw (Some _) => match x with XUndef | XPtr _ _ _ => XErr | _ => XBeyond end
  | _ => XPanic
  end.
(** The size of what a pointer type points to
    (koopa/examples/interpreter/interpreter.rs:265-268, 281-284) *)
Definition x_base_size (t : ty) : xres N :=
  match t with TPtr base => XOk (size (c_ptr_size C) base) | _ => XPanic end.
(** koopa/examples/interpreter/interpreter.rs:258-272 [eval_getptr] *)
Definition x_getptr (fuel : nat) (fd : fdata) (v : value) (d : vdata) (src index : value)
    (W : xworld E) (F : xframe) : xres (xworld E * xframe) :=
  '(i, W1) ← x_eval fuel fd F index W;
  match i with
  | XInt off =>
      size ← x_base_size (v_ty d);
      '(s, W2) ← x_eval fuel fd F src W1;
      x ← x_get_pointer s off size;
      XOk (W2, x_insert v x F)
  | _ => XPanic
  end.
(** koopa/examples/interpreter/interpreter.rs:285-296: the pointer to an element;
    [new_array_pointer] is at 438-444 *)
Definition x_elem_pointer (mem : gmap N xval) (s : xval) (off : Z) (size : N) : xres xval :=
  match s with
  | XPtr (Some q) _ _ =>
      a ← x_read mem q;
      match a with
      | XArr id l =>
          x_get_pointer (XPtr (Some (Ptr (pt_box q) (pt_path q ++ [(id, 0)]))) 0 (N.of_nat (length l))) off size
      | _ => XPanic
      end
  | XPtr None _ _ => XErr
  | XRaw None => XOk (XRaw None)
  | XRaw (Some a) => b ← shift_raw a off size; XOk (XRaw (Some b))
  | _ => XPanic
  end.
(** koopa/examples/interpreter/interpreter.rs:274-299 [eval_getelemptr] *)
Definition x_getelemptr (fuel : nat) (fd : fdata) (v : value) (d : vdata) (src index : value)
    (W : xworld E) (F : xframe) : xres (xworld E * xframe) :=
  '(i, W1) ← x_eval fuel fd F index W;
  match i with
  | XInt off =>
      size ← x_base_size (v_ty d);
      '(s, W2) ← x_eval fuel fd F src W1;
      x ← x_elem_pointer (x_mem W2) s off size;
      XOk (W2, x_insert v x F)
  | _ => XPanic
  end.
(** koopa/examples/interpreter/interpreter.rs:301-330 [eval_binary] *)
Definition x_binary (fuel : nat) (fd : fdata) (v : value) (op : binop) (l r : value)
    (W : xworld E) (F : xframe) : xres (xworld E * xframe) :=
  '(x, W1) ← x_eval fuel fd F l W;
  '(y, W2) ← x_eval fuel fd F r W1;
  match x, y with
  | XInt a, XInt b => c ← xneed (exec_op (c_checks C) op a b); XOk (W2, x_insert v (XInt c) F)
  | _, _ => XPanic
  end.
(** koopa/examples/interpreter/interpreter.rs:389-394 [update_bb_params]: the loop *)
Fixpoint x_params (fuel : nat) (fd : fdata) (ps args : list value) (W : xworld E) (F : xframe)
    : xres (xworld E * xframe) :=
  match ps, args with
  | q :: ps', a :: args' =>
      _ ← xneed (d_values (f_dfg fd) !! q);
      '(x, W1) ← x_eval fuel fd F a W;
      x_params fuel fd ps' args' W1 (x_insert q x F)
  | _, _ => XOk (W, F)
  end.
(** koopa/examples/interpreter/ext_funcs.rs:108-118 [val_to_usize] *)
Definition x_word (x : xval) : xres N :=
  match x with
  | XUndef | XPtr None _ _ | XRaw None => XOk 0%N
  | XInt z => XOk (Z.to_N (z mod Z.of_N two64))
  | XPtr (Some _) _ _ => XBeyond
  | XRaw (Some a) => XOk a
  | XArr _ _ => XErr
  end.
(** The arguments, in order (koopa/examples/interpreter/ext_funcs.rs:57-61) *)
Fixpoint x_words (l : list xval) : xres (list N) :=
  match l with
  | [] => XOk []
  | x :: l' => w ← x_word x; ws ← x_words l'; XOk (w :: ws)
  end.
(** koopa/examples/interpreter/ext_funcs.rs:120-127 [usize_to_val] *)
Definition x_of_word (w : N) (t : ty) : xres xval :=
  match t with
  | TInt32 => XOk (XInt (as_i32 (Z.of_N w)))
  | TUnit => XOk XUndef
  | TPtr _ => XOk (XRaw (if (w =? 0)%N then None else Some w))
  | _ => XErr
  end.
(** koopa/examples/interpreter/ext_funcs.rs:23-41 [call], with 43-106 [call_ext_func] *)
Definition x_extern_call (fd : fdata) (args : list xval) (W : xworld E) : xres (xval * xworld E) :=
  match f_name fd, f_ty fd with
  | String _ name, TFun _ ret =>
      if existsb (Ascii.eqb Ascii.zero) (String.list_ascii_of_string name) then XErr
      else
        match c_ext C name with
        | None => XErr
        | Some f =>
            if (28 <? length args)%nat then XErr
            else
              ws ← x_words args;
              let '(e, w) := f ws (x_extern W) in
              x ← x_of_word w ret;
              XOk (x, XWorld (x_mem W) (x_next W) e)
        end
  | _, _ => XPanic
  end.
(** The map of the arguments, by [collect] (koopa/examples/interpreter/interpreter.rs:184-189) *)
Fixpoint x_args (ps : list value) (args : list xval) (m : gmap N xval) : gmap N xval :=
  match ps, args with
  | q :: ps', a :: args' => x_args ps' args' (<[q := a]> m)
  | _, _ => m
  end.
(** The parameters exist (koopa/examples/interpreter/interpreter.rs:187) *)
Definition params_exist (fd : fdata) : bool :=
  forallb (λ q, match d_values (f_dfg fd) !! q with Some _ => true | None => false end) (f_params fd).
(** koopa/examples/interpreter/interpreter.rs:172-199 [eval_func]; [go] is [eval_bb], on the
    instructions of a block *)
Definition x_func (go : fdata → list value → xworld E → xframe → xres (xval * xworld E * xframe))
    (fd : fdata) (args : list xval) (W : xworld E) : xres (xval * xworld E) :=
  match f_ty fd with
  | TFun ps _ =>
      if negb (length ps =? length args)%nat then XPanic
      else
        match l_bbs (f_layout fd) with
        | (_, is) :: _ =>
            if params_exist fd then
              '(x, W1, F1) ← go fd is W (XFrame (x_args (f_params fd) args ∅) []);
              XOk (x, x_drop (xf_allocs F1) W1)
            else XPanic
        | [] => x_extern_call fd args W
        end
  | _ => XPanic
  end.
(** The arguments of a call (koopa/examples/interpreter/interpreter.rs:334) *)
Definition x_evals (fuel : nat) (fd : fdata) (F : xframe) (l : list value) (W : xworld E)
    : xres (list xval * xworld E) :=
  '(xs, n) ← x_each (x_value fuel fd (xf_vals F)) l (x_next W); XOk (xs, x_upto W n).
(** koopa/examples/interpreter/interpreter.rs:332-339 [eval_call] *)
Definition x_call (go : fdata → list value → xworld E → xframe → xres (xval * xworld E * xframe))
    (fuel : nat) (fd : fdata) (v : value) (f : func) (args : list value) (W : xworld E) (F : xframe)
    : xres (xworld E * xframe) :=
  '(xs, W1) ← x_evals fuel fd F args W;
  fd' ← xneed (p_funcs p !! f);
  '(x, W2) ← x_func go fd' xs W1;
  XOk (W2, x_insert v x F).
(** Entering a block: [update_bb_params] and [eval_bb] on the node
    (koopa/examples/interpreter/interpreter.rs:346-347, 349-350, 355-356) *)
Definition x_goto (go : fdata → list value → xworld E → xframe → xres (xval * xworld E * xframe))
    (fuel : nat) (fd : fdata) (b : bblock) (args : list value) (W : xworld E) (F : xframe)
    : xres (xval * xworld E * xframe) :=
  bd ← xneed (d_bbs (f_dfg fd) !! b);
  '(W1, F1) ← x_params fuel fd (bb_params bd) args W F;
  is ← xneed (find_bb b (l_bbs (f_layout fd)));
  go fd is W1 F1.
(** The instructions of koopa/examples/interpreter/interpreter.rs:206-212 *)
Definition x_inst (go : fdata → list value → xworld E → xframe → xres (xval * xworld E * xframe))
    (fuel : nat) (fd : fdata) (v : value) (d : vdata) (W : xworld E) (F : xframe) : xres (xworld E * xframe) :=
  match v_kind d with
  | KAlloc => x_alloc v d W F
  | KLoad src => x_load fuel fd v src W F
  | KStore x dest => x_store fuel fd x dest W F
  | KGetPtr src i => x_getptr fuel fd v d src i W F
  | KGetElemPtr src i => x_getelemptr fuel fd v d src i W F
  | KBinary op l r => x_binary fuel fd v op l r W F
  | KCall f args => x_call go fuel fd v f args W F
  | _ => XPanic
  end.
(** koopa/examples/interpreter/interpreter.rs:201-220 [eval_bb], on the instructions left;
    341-352 [eval_branch], 354-357 [eval_jump], 359-361 [eval_return].  [fuel] bounds the
    nesting of aggregates. *)
Fixpoint x_insts (go : fdata → list value → xworld E → xframe → xres (xval * xworld E * xframe))
    (fuel : nat) (fd : fdata) (is : list value) (W : xworld E) (F : xframe)
    : xres (xval * xworld E * xframe) :=
  match is with
  | [] => XPanic
  | v :: is' =>
      d ← xneed (d_values (f_dfg fd) !! v);
      match v_kind d with
      | KBranch c t f targs fargs =>
          '(x, W1) ← x_eval fuel fd F c W;
          if x_bool x then x_goto go fuel fd t targs W1 F else x_goto go fuel fd f fargs W1 F
      | KJump t args => x_goto go fuel fd t args W F
      | KReturn None => XOk (XUndef, W, F)
      | KReturn (Some r) => '(x, W1) ← x_eval fuel fd F r W; XOk (x, W1, F)
      | _ => '(W1, F1) ← x_inst go fuel fd v d W F; x_insts go fuel fd is' W1 F1
      end
  end.
(** koopa/examples/interpreter/interpreter.rs:201-220 [eval_bb]; the fuel bounds the recursion
    through blocks and calls. *)
Fixpoint x_bb (fuel : nat) (fd : fdata) (is : list value) (W : xworld E) (F : xframe)
    : xres (xval * xworld E * xframe) :=
  match fuel with
  | O => XDeep
  | S k => x_insts (x_bb k) k fd is W F
  end.
End interpreter.

(** koopa/examples/interpreter/interpreter.rs:76-89: the global variables *)
Fixpoint x_globals {E} (fuel : nat) (p : program) (l : list value) (vars : gmap N xval) (W : xworld E)
    : xres (gmap N xval * xworld E) :=
  match l with
  | [] => XOk (vars, W)
  | v :: l' =>
      d ← xneed (p_values p !! v);
      match v_kind d with
      | KGlobalAlloc init =>
          '(x, n) ← x_const fuel (p_values p) init (x_next W);
          let '(b, W1) := x_box x (x_upto W n) in
          x_globals fuel p l' (<[v := XPtr (Some (Ptr b [])) 0 0]> vars) W1
      | _ => XPanic
      end
  end.
(** [funcs().values().find(..)] (koopa/examples/interpreter/interpreter.rs:91-96); [order]: the
    functions in the order of the hash map *)
Fixpoint x_main (p : program) (order : list func) : option fdata :=
  match order with
  | [] => None
  | f :: order' =>
      match p_funcs p !! f with
      | Some fd => if String.eqb (f_name fd) "@main" then Some fd else x_main p order'
      | None => x_main p order'
      end
  end.
(** koopa/examples/interpreter/interpreter.rs:74-105 [interpret]; returns the result and the
    state of the foreign world *)
Definition interpret {E} (C : xconfig E) (fuel : nat) (order : list func) (p : program) (e : E) : xres (Z * E) :=
  '(vars, W) ← x_globals fuel p (p_inst_layout p) ∅ (XWorld ∅ 0 e);
  match x_main p order with
  | None => XErr
  | Some fd =>
      '(x, W1) ← x_func C (x_bb C p vars fuel) fd [] W;
      match x with XInt z => XOk (z, x_extern W1) | _ => XErr end
  end.
