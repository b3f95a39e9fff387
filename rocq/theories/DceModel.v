(** Model of koopa/examples/opt/dce.rs: dead code elimination.

    Simplifications: the iteration orders of hash maps and hash sets are parameters
    ([dce_orders]); the work list, which is empty between two calls of [mark], is a local
    variable of [mark]. *)
From Verif Require Import Base IdModel TypeModel IrModel LayoutModel BuilderModel.

(** A value, a panic, or the model's own out-of-fuel (the loops of
    koopa/examples/opt/dce.rs:14, 39 have no bound in the code). *)
Inductive dres (A : Type) := Dok (a : A) | Dpanic | Dfuel.
Arguments Dok {A} a.
Arguments Dpanic {A}.
Arguments Dfuel {A}.
(** Statements in sequence (koopa/examples/opt/dce.rs:15-17) *)
Definition dthen {A B} (m : dres A) (k : A → dres B) : dres B :=
  match m with Dok a => k a | Dpanic => Dpanic | Dfuel => Dfuel end.
(** A part without loops that need fuel (koopa/examples/opt/dce.rs:50, 84) *)
Definition dopt {A} (o : option A) : dres A :=
  match o with Some a => Dok a | None => Dpanic end.

(** Iteration orders of the hash tables of koopa/examples/opt/dce.rs: of the values (32), of
    the blocks (87-91), of [bbs] (103, 114), of the map of unused parameters (109) and of
    the sets of users and arguments (116, 146) *)
Record dce_orders := DceOrders {
  o_values : gmap N vdata → list value;
  o_bbs : gmap N bbdata → list bblock;
  o_todo1 : list (bblock * list (nat * value)) → list (bblock * list (nat * value));
  o_todo2 : list (bblock * list (nat * value)) → list (bblock * list (nat * value));
  o_unused : list (nat * value) → list (nat * value);
  o_set : gset N → list value;
}.

(** koopa/examples/opt/dce.rs:156-165 [is_critical_inst] *)
Definition is_critical_inst (k : vkind) : bool :=
  match k with
  | KStore _ _ | KCall _ _ | KBranch _ _ _ _ _ | KJump _ _ | KReturn _ => true
  | _ => false
  end.

(** ** [mark] *)

(** koopa/examples/opt/dce.rs:32-37: the critical instructions; the last pushed value is the
    first of the work list *)
Fixpoint mark_critical (vs : gmap N vdata) (order : list value) (live : gset N)
    (work : list value) : option (gset N * list value) :=
  match order with
  | [] => Some (live, work)
  | v :: order' =>
      d ← vs !! v;
      if is_critical_inst (v_kind d) then mark_critical vs order' ({[v]} ∪ live) (v :: work)
      else mark_critical vs order' live work
  end.
(** koopa/examples/opt/dce.rs:41-46: the operands of one instruction;
    [data.dfg().value(u)] panics on a global value *)
Fixpoint mark_operands (vs : gmap N vdata) (us : list value) (live : gset N)
    (work : list value) : option (gset N * list value) :=
  match us with
  | [] => Some (live, work)
  | u :: us' =>
      if decide (u ∈ live) then mark_operands vs us' live work
      else
        d ← vs !! u;
        if is_local_inst (v_kind d) then mark_operands vs us' ({[u]} ∪ live) (u :: work)
        else mark_operands vs us' live work
  end.
(** koopa/examples/opt/dce.rs:39-47 *)
Fixpoint mark_loop (fuel : nat) (vs : gmap N vdata) (live : gset N) (work : list value)
    : dres (gset N) :=
  match work with
  | [] => Dok live
  | v :: work' =>
      match fuel with
      | O => Dfuel
      | S n =>
          dthen (dopt (d ← vs !! v; mark_operands vs (value_uses (v_kind d)) live work'))
            (λ x, mark_loop n vs x.1 x.2)
      end
  end.
(** koopa/examples/opt/dce.rs:30-48 [mark] *)
Definition dce_mark (o : dce_orders) (vs : gmap N vdata) (live : gset N) : dres (gset N) :=
  dthen (dopt (mark_critical vs (o_values o vs) live []))
    (λ x, mark_loop (length x.2 + base.size vs) vs x.1 x.2).

(** ** [sweep] *)

(** koopa/examples/opt/dce.rs:55-63: one block; the instructions removed, and the layout *)
Fixpoint sweep_block (live : gset N) (b : bblock) (is : list value) (l : layout)
    : option (list value * layout) :=
  match is with
  | [] => Some ([], l)
  | v :: is' =>
      if decide (v ∈ live) then sweep_block live b is' l
      else
        l1 ← inst_remove b v l;
        '(r, l2) ← sweep_block live b is' l1;
        Some (v :: r, l2)
  end.
(** koopa/examples/opt/dce.rs:52-65: all blocks *)
Fixpoint sweep_bbs (live : gset N) (bs : list (bblock * list value)) (l : layout)
    : option (list value * layout) :=
  match bs with
  | [] => Some ([], l)
  | (b, is) :: bs' =>
      '(r, l1) ← sweep_block live b is l;
      '(r', l2) ← sweep_bbs live bs' l1;
      Some (r ++ r', l2)
  end.
(** koopa/examples/opt/dce.rs:72-75 *)
Fixpoint sweep_undef (rs : list value) (gs : gmap N vdata) (g : dfg)
    : option (gmap N vdata * dfg) :=
  match rs with
  | [] => Some (gs, g)
  | v :: rs' =>
      d ← d_values g !! v;
      u ← mk_undef (v_ty d);
      '(gs1, g1) ← dfg_replace_value_with_data gs g v u;
      sweep_undef rs' gs1 g1
  end.
(** koopa/examples/opt/dce.rs:77-79 (and 109-111) *)
Fixpoint remove_values (rs : list value) (gs : gmap N vdata) (g : dfg)
    : option (gmap N vdata * dfg) :=
  match rs with
  | [] => Some (gs, g)
  | v :: rs' =>
      '(_, gs1, g1) ← dfg_remove_value gs g v;
      remove_values rs' gs1 g1
  end.
(** koopa/examples/opt/dce.rs:50-82 [sweep] *)
Definition dce_sweep (live : gset N) (gs : gmap N vdata) (d : fdata)
    : option (bool * gmap N vdata * fdata) :=
  '(rs, l) ← sweep_bbs live (l_bbs (f_layout d)) (f_layout d);
  '(gs1, g1) ← sweep_undef rs gs (f_dfg d);
  '(gs2, g2) ← remove_values rs gs1 g1;
  Some (negb (Nat.eqb (length rs) 0), gs2, set_layout (set_dfg d g2) l).

(** ** [opt_bb_params] *)

(** koopa/examples/opt/dce.rs:92-97: the unused parameters of one block, with their index *)
Fixpoint unused_params (vs : gmap N vdata) (i : nat) (ps : list value)
    : option (list (nat * value)) :=
  match ps with
  | [] => Some []
  | p :: ps' =>
      d ← vs !! p;
      r ← unused_params vs (S i) ps';
      Some (if bool_decide (v_used_by d = ∅) then (i, p) :: r else r)
  end.
(** koopa/examples/opt/dce.rs:87-100: [bbs] *)
Fixpoint todo_params (g : dfg) (order : list bblock)
    : option (list (bblock * list (nat * value))) :=
  match order with
  | [] => Some []
  | b :: order' =>
      bd ← d_bbs g !! b;
      m ← unused_params (d_values g) 0 (bb_params bd);
      r ← todo_params g order';
      Some (if Nat.eqb (length m) 0 then r else (b, m) :: r)
  end.
(** koopa/examples/opt/dce.rs:104-108, 133-142: [retain] with an index *)
Fixpoint retain_args {A} (m : list (nat * value)) (i : nat) (l : list A) : list A :=
  match l with
  | [] => []
  | x :: l' =>
      if existsb (λ q, Nat.eqb q.1 i) m then retain_args m (S i) l'
      else x :: retain_args m (S i) l'
  end.
(** koopa/examples/opt/dce.rs:103-112 *)
Fixpoint remove_unused (o : dce_orders) (todo : list (bblock * list (nat * value)))
    (gs : gmap N vdata) (g : dfg) : option (gmap N vdata * dfg) :=
  match todo with
  | [] => Some (gs, g)
  | (b, m) :: todo' =>
      bd ← d_bbs g !! b;
      let g1 := Dfg (d_values g)
        (<[b := BBData (bb_name bd) (retain_args m 0 (bb_params bd)) (bb_used_by bd)]> (d_bbs g)) in
      '(gs2, g2) ← remove_values (map snd (o_unused o m)) gs g1;
      remove_unused o todo' gs2 g2
  end.
(** koopa/examples/opt/dce.rs:120-142: the new kind, and the arguments it keeps (which the
    code records as [removed_args]) *)
Definition trim_inst (b : bblock) (m : list (nat * value)) (k : vkind)
    : option (vkind * list value) :=
  match k with
  | KBranch c t f ta fa =>
      if (t =? b)%N then let a := retain_args m 0 ta in Some (KBranch c t f a fa, a)
      else let a := retain_args m 0 fa in Some (KBranch c t f ta a, a)
  | KJump t args => let a := retain_args m 0 args in Some (KJump t a, a)
  | _ => None
  end.
(** koopa/examples/opt/dce.rs:146-150; [data.dfg().value(v)] panics on a global value *)
Fixpoint remove_if_unused (vs : list value) (gs : gmap N vdata) (g : dfg)
    : option (gmap N vdata * dfg) :=
  match vs with
  | [] => Some (gs, g)
  | v :: vs' =>
      d ← d_values g !! v;
      if bool_decide (v_used_by d = ∅) then
        '(_, gs1, g1) ← dfg_remove_value gs g v;
        remove_if_unused vs' gs1 g1
      else remove_if_unused vs' gs g
  end.
(** koopa/examples/opt/dce.rs:116-151: the users of one block *)
Fixpoint trim_users (o : dce_orders) (b : bblock) (m : list (nat * value)) (us : list value)
    (gs : gmap N vdata) (g : dfg) : option (gmap N vdata * dfg) :=
  match us with
  | [] => Some (gs, g)
  | u :: us' =>
      d ← d_values g !! u;
      '(k, kept) ← trim_inst b m (v_kind d);
      '(gs1, g1) ← dfg_replace_value_with_data gs g u (VData (v_ty d) (v_name d) k ∅);
      '(gs2, g2) ← remove_if_unused (o_set o (list_to_set kept)) gs1 g1;
      trim_users o b m us' gs2 g2
  end.
(** koopa/examples/opt/dce.rs:114-152 *)
Fixpoint trim_all (o : dce_orders) (todo : list (bblock * list (nat * value)))
    (gs : gmap N vdata) (g : dfg) : option (gmap N vdata * dfg) :=
  match todo with
  | [] => Some (gs, g)
  | (b, m) :: todo' =>
      bd ← d_bbs g !! b;
      '(gs1, g1) ← trim_users o b m (o_set o (bb_used_by bd)) gs g;
      trim_all o todo' gs1 g1
  end.
(** koopa/examples/opt/dce.rs:84-154 [opt_bb_params] *)
Definition opt_bb_params (o : dce_orders) (gs : gmap N vdata) (d : fdata)
    : option (bool * gmap N vdata * fdata) :=
  todo ← todo_params (f_dfg d) (o_bbs o (d_bbs (f_dfg d)));
  '(gs1, g1) ← remove_unused o (o_todo1 o todo) gs (f_dfg d);
  '(gs2, g2) ← trim_all o (o_todo2 o todo) gs1 g1;
  Some (negb (Nat.eqb (length todo) 0), gs2, set_dfg d g2).

(** ** [run_on] *)

(** koopa/examples/opt/dce.rs:11-20: the body of the loop; was anything changed? *)
Definition dce_round (o : dce_orders) (live : gset N) (gs : gmap N vdata) (d : fdata)
    : dres (bool * gset N * gmap N vdata * fdata) :=
  dthen (dce_mark o (d_values (f_dfg d)) live) (λ live1,
  dthen (dopt (dce_sweep live1 gs d)) (λ x,
  dthen (dopt (opt_bb_params o x.1.2 x.2)) (λ y,
  Dok (x.1.1 || y.1.1, live1, y.1.2, y.2)))).
(** koopa/examples/opt/dce.rs:11-20 [run_on]; [live]: the field [liveset], which is never
    cleared; the fuel bounds the rounds *)
Fixpoint dce_rounds (fuel : nat) (o : dce_orders) (live : gset N) (gs : gmap N vdata) (d : fdata)
    : dres (gset N * gmap N vdata * fdata) :=
  match fuel with
  | O => Dfuel
  | S n =>
      dthen (dce_round o live gs d) (λ x,
        if x.1.1.1 then dce_rounds n o x.1.1.2 x.1.2 x.2 else Dok (x.1.1.2, x.1.2, x.2))
  end.
(** koopa/examples/opt/dce.rs:11-20 with enough fuel: every round but the last removes a value *)
Definition dce_run_on (o : dce_orders) (live : gset N) (gs : gmap N vdata) (d : fdata)
    : dres (gset N * gmap N vdata * fdata) :=
  dce_rounds (S (base.size (d_values (f_dfg d)))) o live gs d.

(** koopa/src/opt/passman.rs:32-34 for the pass of koopa/examples/opt/dce.rs:11-20:
    [run_on] on the functions in the order in which [funcs_mut] visits them *)
Fixpoint dce_pass (o : dce_orders) (order : list func) (live : gset N) (p : program)
    : dres (gset N * program) :=
  match order with
  | [] => Dok (live, p)
  | f :: order' =>
      dthen (dopt (p_funcs p !! f)) (λ d,
      dthen (dce_run_on o live (p_values p) d) (λ x,
      dce_pass o order' x.1.1
        (set_func (Program x.1.2 (p_inst_layout p) (p_funcs p) (p_func_tys p) (p_func_layout p)) f x.2)))
  end.
