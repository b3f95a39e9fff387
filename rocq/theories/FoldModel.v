(** Model of koopa/examples/opt/const_fold.rs, second part: block parameters, and the pass.
    The first part, [eval_const], is in ArithModel.v.

    Simplifications: the iteration orders of hash maps and hash sets are parameters; the
    recursion of [data_eq] has a bound, and so has the loop over [eval_const]. *)
From Verif Require Import Base IdModel TypeModel IrModel LayoutModel BuilderModel ArithModel DceModel.

(** Iteration orders of the hash tables of koopa/examples/opt/const_fold.rs: of the values
    (24), of the blocks (78) and of the users of a block (85) *)
Record fold_orders := FoldOrders {
  fold_values : gmap N vdata → list value;
  fold_bbs : gmap N bbdata → list bblock;
  fold_users : gset N → list value;
}.

(** koopa/src/ir/dfg.rs:196-241 [data_eq] *)
Definition data_eq (fuel : nat) (gs : gmap N vdata) (g : dfg) (l r : vdata) : eqres :=
  match data_eq_head l r with
  | Some true => EqTrue
  | Some false => EqFalse
  | None => all_eq (value_eq fuel gs g) (value_uses (v_kind l)) (value_uses (v_kind r))
  end.

(** koopa/examples/opt/const_fold.rs:87-97: the argument that the instruction passes *)
Definition user_arg (k : vkind) (b : bblock) (i : nat) : option value :=
  match k with
  | KBranch _ t _ targs fargs => if (t =? b)%N then targs !! i else fargs !! i
  | KJump _ args => args !! i
  | _ => None
  end.

(** koopa/examples/opt/const_fold.rs:85-104: the users [us] of the block [b]; [None] is
    [continue 'outer]. *)
Fixpoint same_args (fuel : nat) (gs : gmap N vdata) (g : dfg) (b : bblock) (i : nat)
    (us : list value) (ans : option vdata) : dres (option (option vdata)) :=
  match us with
  | [] => Dok (Some ans)
  | u :: us' =>
      dthen (dopt (d_values g !! u)) (λ du,
      dthen (dopt (user_arg (v_kind du) b i)) (λ a,
      dthen (dopt (d_values g !! a)) (λ d,
      if negb (is_const (v_kind d)) then Dok None else
      match ans with
      | None => same_args fuel gs g b i us' (Some (clone_vdata d))
      | Some v =>
          match data_eq fuel gs g v d with
          | EqTrue => same_args fuel gs g b i us' (Some (clone_vdata d))
          | EqFalse => Dok None
          | EqPanic => Dpanic
          | EqFuel => Dfuel
          end
      end)))
  end.

(** koopa/examples/opt/const_fold.rs:81-106: the list [evaluated] of a block, from the index
    [i] on, for [n] indices; [ans.unwrap()] panics if the block has no users. *)
Fixpoint eval_params (fuel : nat) (gs : gmap N vdata) (g : dfg) (b : bblock) (us : list value)
    (i n : nat) : dres (list (nat * vdata)) :=
  match n with
  | O => Dok []
  | S n' =>
      dthen (same_args fuel gs g b i us None) (λ ans,
      match ans with
      | None => eval_params fuel gs g b us (S i) n'
      | Some ans =>
          dthen (dopt ans) (λ d,
          dthen (eval_params fuel gs g b us (S i) n') (λ l, Dok ((i, d) :: l)))
      end)
  end.

(** koopa/examples/opt/const_fold.rs:78-110: the list [bb_params]; blocks with nothing
    evaluated are in it too, with an empty list. *)
Fixpoint eval_blocks (fuel : nat) (o : fold_orders) (gs : gmap N vdata) (g : dfg)
    (bbs : list bblock) : dres (list (bblock * list (nat * vdata))) :=
  match bbs with
  | [] => Dok []
  | b :: bbs' =>
      dthen (dopt (d_bbs g !! b)) (λ bd,
      dthen (eval_params fuel gs g b (fold_users o (bb_used_by bd)) 0 (length (bb_params bd))) (λ l,
      dthen (eval_blocks fuel o gs g bbs') (λ rest, Dok ((b, l) :: rest))))
  end.

(** koopa/examples/opt/const_fold.rs:115-119: a parameter becomes a constant, a copy of it
    the new parameter. *)
Definition replace_param (ids : ids) (gs : gmap N vdata) (g : dfg) (b : bblock) (i : nat)
    (d : vdata) : option (IdModel.ids * gmap N vdata * dfg) :=
  bd ← d_bbs g !! b;
  p ← bb_params bd !! i;
  pd ← d_values g !! p;
  '(gs1, g1) ← dfg_replace_value_with_data gs g p d;
  '(q, ids', gs2, g2) ← dfg_new_value_data ids gs1 g1 (clone_vdata pd);
  bd' ← d_bbs g2 !! b;
  Some (ids', gs2, Dfg (d_values g2)
    (<[b := BBData (bb_name bd') (<[i := q]> (bb_params bd')) (bb_used_by bd')]> (d_bbs g2))).
(** koopa/examples/opt/const_fold.rs:114-120: those of one block *)
Fixpoint replace_params (ids : ids) (gs : gmap N vdata) (g : dfg) (b : bblock)
    (evals : list (nat * vdata)) : option (IdModel.ids * gmap N vdata * dfg) :=
  match evals with
  | [] => Some (ids, gs, g)
  | (i, d) :: evals' =>
      '(ids', gs', g') ← replace_param ids gs g b i d; replace_params ids' gs' g' b evals'
  end.
(** koopa/examples/opt/const_fold.rs:112-121: those of all blocks *)
Fixpoint replace_blocks (ids : ids) (gs : gmap N vdata) (g : dfg)
    (l : list (bblock * list (nat * vdata))) : option (IdModel.ids * gmap N vdata * dfg) :=
  match l with
  | [] => Some (ids, gs, g)
  | (b, evals) :: l' =>
      '(ids', gs', g') ← replace_params ids gs g b evals; replace_blocks ids' gs' g' l'
  end.

(** koopa/examples/opt/const_fold.rs:76-122 [eval_bb_params] *)
Definition eval_bb_params (fuel : nat) (o : fold_orders) (ids : ids) (gs : gmap N vdata)
    (d : fdata) : dres (IdModel.ids * gmap N vdata * fdata) :=
  dthen (eval_blocks fuel o gs (f_dfg d) (fold_bbs o (d_bbs (f_dfg d)))) (λ l,
  dthen (dopt (replace_blocks ids gs (f_dfg d) l)) (λ x,
  Dok (x.1.1, x.1.2, FData (f_ty d) (f_name d) (f_params d) x.2 (f_layout d)))).

(** koopa/examples/opt/const_fold.rs:8-13 [run_on] *)
Definition fold_run_on (fuel : nat) (checks : bool) (o : fold_orders) (ids : ids)
    (gs : gmap N vdata) (d : fdata) : dres (IdModel.ids * gmap N vdata * fdata) :=
  dthen (dopt (fold_loop fuel checks (fold_values o) gs d)) (λ x,
  if (x.2 : bool) then eval_bb_params fuel o ids x.1.1 x.1.2 else Dfuel).

(** koopa/src/opt/passman.rs:32-34 for the pass of koopa/examples/opt/const_fold.rs:7-14:
    [run_on] on the functions in the order in which [funcs_mut] visits them *)
Fixpoint fold_pass (fuel : nat) (checks : bool) (o : fold_orders) (order : list func)
    (ids : ids) (p : program) : dres (IdModel.ids * program) :=
  match order with
  | [] => Dok (ids, p)
  | f :: order' =>
      dthen (dopt (p_funcs p !! f)) (λ d,
      dthen (fold_run_on fuel checks o ids (p_values p) d) (λ x,
      fold_pass fuel checks o order' x.1.1
        (set_func (Program x.1.2 (p_inst_layout p) (p_funcs p) (p_func_tys p) (p_func_layout p)) f x.2)))
  end.
