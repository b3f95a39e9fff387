(** Model of koopa/src/front/builder.rs: building the IR from syntax trees.

    Simplifications: spans and message texts are dropped; an error is counted in [b_errs]
    and a warning in [b_warns] (see LexerModel); [HashMap]s and [HashSet]s are finite maps
    and sets, whose iteration order matters nowhere in this file (the two iterations, lines
    291-295 and 339, only count warnings and fill a set).  The tree types of ParserModel
    only have shapes the parser can build, so the [panic!("invalid ..")] arms for other
    shapes (lines 49, 90, 108, 286, 398, 570, 585) have no counterpart, except line 286. *)
From Verif Require Import Base IdModel TypeModel IrModel LayoutModel BuilderModel WorldModel
  LexerModel ParserModel.

(** koopa/src/front/builder.rs:12-16 [BasicBlockInfo] *)
Record bbinfo := BbInfo {
  bi_bb : bblock;
  bi_preds : list string;
  bi_defs : gmap string value;
}.

(** koopa/src/front/builder.rs:33-39 [Builder], plus the counters of
    koopa/src/front/span.rs:463-467 [GlobalState] and the process-wide id counters
    (in [b_world]) *)
Record bstate := BState {
  b_world : world;
  b_gvars : gmap string value;
  b_gfuncs : gmap string func;
  b_bbs : gmap string bbinfo;
  b_syms : gset string;
  b_errs : N;
  b_warns : N;
}.

(** koopa/src/front/builder.rs:97-99 [Builder::new], with the counters of the caller *)
Definition bstate0 (i : ids) (e w : N) : bstate :=
  BState (World i program0) ∅ ∅ ∅ ∅ e w.

(** Field updates (fields of koopa/src/front/builder.rs:33-39; counters of
    koopa/src/front/span.rs:113-121) *)
Definition set_world (w : world) (s : bstate) : bstate :=
  BState w (b_gvars s) (b_gfuncs s) (b_bbs s) (b_syms s) (b_errs s) (b_warns s).
(** koopa/src/front/builder.rs:35 *)
Definition set_gvars (m : gmap string value) (s : bstate) : bstate :=
  BState (b_world s) m (b_gfuncs s) (b_bbs s) (b_syms s) (b_errs s) (b_warns s).
(** koopa/src/front/builder.rs:36 *)
Definition set_gfuncs (m : gmap string func) (s : bstate) : bstate :=
  BState (b_world s) (b_gvars s) m (b_bbs s) (b_syms s) (b_errs s) (b_warns s).
(** koopa/src/front/builder.rs:37 *)
Definition set_bbs (m : gmap string bbinfo) (s : bstate) : bstate :=
  BState (b_world s) (b_gvars s) (b_gfuncs s) m (b_syms s) (b_errs s) (b_warns s).
(** koopa/src/front/builder.rs:38 *)
Definition set_syms (m : gset string) (s : bstate) : bstate :=
  BState (b_world s) (b_gvars s) (b_gfuncs s) (b_bbs s) m (b_errs s) (b_warns s).
(** koopa/src/front/span.rs:113-121 [err_num] *)
Definition set_errs (n : N) (s : bstate) : bstate :=
  BState (b_world s) (b_gvars s) (b_gfuncs s) (b_bbs s) (b_syms s) n (b_warns s).
(** koopa/src/front/span.rs:113-121 [warn_num] *)
Definition set_warns (n : N) (s : bstate) : bstate :=
  BState (b_world s) (b_gvars s) (b_gfuncs s) (b_bbs s) (b_syms s) (b_errs s) n.

(** ** Effects.  Methods of [Builder] are functions in the monad [M bstate] of LexerModel;
    every error is [Error::Normal]. *)
Notation F := (M bstate).

(** [log_error!] without leaving the function (koopa/src/front/span.rs:243-252) *)
Definition b_log : F unit := λ s, (Rok tt, set_errs (b_errs s + 1) s).
(** [return_error!] (koopa/src/front/span.rs:538-543) *)
Definition b_error {A} : F A := λ s, (Rerr false, set_errs (b_errs s + 1) s).
(** [log_warning!] (koopa/src/front/span.rs:272-282) *)
Definition b_warn (n : N) : F unit := λ s, (Rok tt, set_warns (b_warns s + n) s).
(** An [unwrap], index or assertion that panics on [None]
    (e.g. koopa/src/front/builder.rs:244, 262, 322, 351) *)
Definition b_some {A} (o : option A) : F A := λ s,
  match o with Some a => (Rok a, s) | None => (Rpanic, s) end.
(** An operation on [self.program] (koopa/src/front/builder.rs:34) that panics on [None] *)
Definition b_prog {A} (f : world → option (A * world)) : F A := λ s,
  match f (b_world s) with
  | Some (a, w) => (Rok a, set_world w s)
  | None => (Rpanic, s)
  end.
(** The same without a result (koopa/src/front/builder.rs:34) *)
Definition b_prog_ (f : world → option world) : F unit := λ s,
  match f (b_world s) with
  | Some w => (Rok tt, set_world w s)
  | None => (Rpanic, s)
  end.
(** Assignments to the fields of koopa/src/front/builder.rs:33-39 *)
Definition b_upd (f : bstate → bstate) : F unit := λ s, (Rok tt, f s).
(** [if let Ok(x) = m { k(x) }]: a normal error is dropped
    (koopa/src/front/builder.rs:151, 370); the model has no fatal errors here *)
Definition b_ok {A} (m : F A) (k : A → F unit) : F unit := λ s,
  match m s with
  | (Rok a, s') => k a s'
  | (Rerr _, s') => (Rok tt, s')
  | (Rpanic, s') => (Rpanic, s')
  | (Rfuel, s') => (Rfuel, s')
  end.
(** [for x in l { f(x) }] (koopa/src/front/builder.rs:189, 211, 303, 345, 369) *)
Fixpoint b_each {A} (f : A → F unit) (l : list A) : F unit :=
  match l with
  | [] => mok tt
  | x :: l' => f x;; b_each f l'
  end.
(** [iter.map(f).collect::<Result<Vec<_>, _>>()?] (koopa/src/front/builder.rs:87, 521): stops
    at the first error *)
Definition b_map {A B} (f : A → F B) : list A → F (list B) :=
  fix go l :=
    match l with
    | [] => mok []
    | x :: l' => y <- f x;; ys <- go l';; mok (y :: ys)
    end.

(** ** Names and types *)

(** koopa/src/front/builder.rs:796-800 [Symbol::is_temp]: [c == '%' || c.is_numeric()] for
    all characters.  The name is in UTF-8; the lexer only makes characters below U+0100,
    and those from U+0080 to U+00BF, which include all the non-ASCII numeric ones, are
    encoded as the byte 0xC2 followed by the byte of their code. *)
Fixpoint is_temp (s : string) : bool :=
  match s with
  | EmptyString => true
  | String c s' =>
      if (N_of_ascii c <? 128)%N then (Ascii.eqb c "%" || is_ascii_digit c) && is_temp s'
      else
        match s' with
        | EmptyString => false
        | String d s'' => (N_of_ascii c =? 194)%N && is_numeric d && is_temp s''
        end
  end.
(** [(!n.is_temp()).then(|| n.clone())] (koopa/src/front/builder.rs:183, 308, 314) *)
Definition opt_name (n : string) : option string := if is_temp n then None else Some n.

(** koopa/src/front/builder.rs:386-400 [generate_type]; panics on arrays of length 0 *)
Fixpoint gen_type (t : aty) : option ty :=
  match t with
  | AInt => Some TInt32
  | AArr b n => b' ← gen_type b; get_array b' n
  | APtr b => b' ← gen_type b; Some (TPtr b')
  | AFun ps r =>
      ps' ← (fix go (l : list aty) : option (list ty) :=
               match l with
               | [] => Some []
               | x :: l' => y ← gen_type x; ys ← go l'; Some (y :: ys)
               end) ps;
      r' ← match r with None => Some TUnit | Some r => gen_type r end;
      Some (TFun ps' r')
  end.
(** [.map(Self::generate_type).collect()] (koopa/src/front/builder.rs:221) *)
Fixpoint gen_types (l : list aty) : option (list ty) :=
  match l with
  | [] => Some []
  | x :: l' => y ← gen_type x; ys ← gen_types l'; Some (y :: ys)
  end.
(** [map_or_else(Type::get_unit, Self::generate_type)]
    (koopa/src/front/builder.rs:173-176, 222-225) *)
Definition gen_ret (r : option aty) : option ty :=
  match r with None => Some TUnit | Some t => gen_type t end.
(** koopa/src/front/builder.rs:180-184, 305-309 *)
Fixpoint gen_params (l : list (string * aty)) : option (list (option string * ty)) :=
  match l with
  | [] => Some []
  | (n, t) :: l' => t' ← gen_type t; ps ← gen_params l'; Some ((opt_name n, t') :: ps)
  end.

(** ** Access to the program *)

(** koopa/src/front/builder.rs:126-132 [value_ty] *)
Definition value_ty (f : func) (v : value) : F ty := λ s,
  b_some
    (if is_global_id v then v_ty <$> p_values (w_prog (b_world s)) !! v
     else fd ← p_funcs (w_prog (b_world s)) !! f; v_ty <$> d_values (f_dfg fd) !! v) s.
(** koopa/src/front/builder.rs:135-145 [bb_params_ty] *)
Definition bb_params_ty (f : func) (b : bblock) : F (list ty) := λ s,
  b_some
    (fd ← p_funcs (w_prog (b_world s)) !! f;
     bd ← d_bbs (f_dfg fd) !! b;
     mapM (λ p, v_ty <$> d_values (f_dfg fd) !! p) (bb_params bd)) s.

(** [self.dfg_mut(func).new_value().<method>(..)] (koopa/src/front/builder.rs:418, 592-787) *)
Definition new_local (f : func) (r : breq) : F value := b_prog (w_new_local f r).
(** [self.program.new_value().<method>(..)] (koopa/src/front/builder.rs:152, 407) *)
Definition new_global (r : breq) : F value := b_prog (w_new_global r).

(** [self.program.func_mut(f).layout_mut().bbs_mut().push_key_back(b).unwrap()]
    (koopa/src/front/builder.rs:316-322) *)
Definition w_push_bb (f : func) (b : bblock) (w : world) : option world :=
  fd ← p_funcs (w_prog w) !! f;
  r ← bb_insert Back b (f_layout fd);
  match r with
  | Inserted l => Some (World (w_ids w) (set_func (w_prog w) f (set_layout fd l)))
  | Duplicate => None
  end.
(** [self.program.func_mut(f).layout_mut().bb_mut(b).insts_mut().push_key_back(v).unwrap()]
    (koopa/src/front/builder.rs:373-380) *)
Definition w_push_inst (f : func) (b : bblock) (v : value) (w : world) : option world :=
  fd ← p_funcs (w_prog w) !! f;
  r ← inst_insert Back b v (f_layout fd);
  match r with
  | Inserted l => Some (World (w_ids w) (set_func (w_prog w) f (set_layout fd l)))
  | Duplicate => None
  end.

(** ** Initializers *)

(** koopa/src/front/builder.rs:56-93 macro [generate_init!]; [new] is the builder *)
Fixpoint gen_init (new : breq → F value) (t : ty) (i : ainit) {struct i} : F value :=
  match i with
  | IUndef => new (BUndef t)
  | IZero => new (BZeroInit t)
  | IInt z => if is_i32 t then new (BInteger z) else b_error
  | IAggr elems =>
      match t with
      | TArray base len =>
          (if (len =? N.of_nat (length elems))%N then mok tt else b_log);;
          vs <- b_map (gen_init new base) elems;;
          new (BAggregate vs)
      | TPtr base =>
          vs <- b_map (gen_init new base) elems;;
          new (BAggregate vs)
      | _ => b_error
      end
  end.
(** koopa/src/front/builder.rs:403-411 [generate_global_init] *)
Definition gen_global_init : ty → ainit → F value := gen_init new_global.
(** koopa/src/front/builder.rs:414-422 [generate_local_init] *)
Definition gen_local_init (f : func) : ty → ainit → F value := gen_init (new_local f).

(** ** Symbols *)

(** koopa/src/front/builder.rs:466-485 [generate_local_symbol]; returns the result and the
    visited blocks.  The recursion is bounded by the number of blocks, see
    FrontProofs.local_symbol_fuel. *)
Fixpoint local_symbol (fuel : nat) (bbs : gmap string bbinfo) (visited : gset string)
    (bb : string) (sym : string) : res (option value * gset string) :=
  match fuel with
  | O => Rfuel
  | S fuel' =>
      if decide (bb ∈ visited) then Rok (None, visited)
      else
        let visited := {[bb]} ∪ visited in
        match bbs !! bb with
        | None => Rpanic
        | Some info =>
            match bi_defs info !! sym with
            | Some v => Rok (Some v, visited)
            | None =>
                (fix go (ps : list string) (visited : gset string)
                    : res (option value * gset string) :=
                   match ps with
                   | [] => Rok (None, visited)
                   | p :: ps' =>
                       match local_symbol fuel' bbs visited p sym with
                       | Rok (Some v, visited') => Rok (Some v, visited')
                       | Rok (None, visited') => go ps' visited'
                       | Rerr f => Rerr f
                       | Rpanic => Rpanic
                       | Rfuel => Rfuel
                       end
                   end) (bi_preds info) visited
            end
        end
  end.
(** koopa/src/front/builder.rs:453-463 [generate_symbol] *)
Definition gen_symbol (bb sym : string) : F value := λ s,
  match b_gvars s !! sym with
  | Some v => (Rok v, s)
  | None =>
      match local_symbol (S (base.size (b_bbs s))) (b_bbs s) ∅ bb sym with
      | Rok (Some v, _) => (Rok v, s)
      | Rok (None, _) => b_error s
      | Rerr f => (Rerr f, s)
      | Rpanic => (Rpanic, s)
      | Rfuel => (Rfuel, s)
      end
  end.

(** koopa/src/front/builder.rs:425-450 [generate_value], at a symbol *)
Definition gen_sym_value (f : func) (bb : string) (t : ty) (sym : string) : F value :=
  v <- gen_symbol bb sym;;
  t' <- value_ty f v;;
  if ty_eqb t' t then mok v else b_error.
(** koopa/src/front/builder.rs:425-450 [generate_value], on what [parse_value] returns *)
Definition gen_value (f : func) (bb : string) (t : ty) (v : aval) : F value :=
  match v with
  | VSym sym => gen_sym_value f bb t sym
  | VInt z => gen_local_init f t (IInt z)
  | VUndef => gen_local_init f t IUndef
  end.
(** koopa/src/front/builder.rs:425-450 [generate_value], on the value of a store *)
Definition gen_store_value (f : func) (bb : string) (t : ty) (v : astore) : F value :=
  match v with
  | SvSym sym => gen_sym_value f bb t sym
  | SvInit i => gen_local_init f t i
  end.

(** koopa/src/front/builder.rs:488-494 [generate_bb] *)
Definition gen_bb (name : string) : F bblock := λ s,
  match b_bbs s !! name with
  | Some info => (Rok (bi_bb info), s)
  | None => b_error s
  end.

(** koopa/src/front/builder.rs:497-522 [generate_args]; the test of lines 506-515 compares
    the number of arguments with itself, so it never fails *)
Definition gen_args (f : func) (bb : string) (args : list aval) (tys : list ty)
    : F (list value) :=
  b_map (λ p, gen_value f bb p.2 p.1) (zip args tys).

(** ** Instructions *)

(** koopa/src/front/builder.rs:596-611 [generate_load] *)
Definition gen_load (f : func) (bb sym : string) : F value :=
  src <- gen_symbol bb sym;;
  t <- value_ty f src;;
  match t with TPtr _ => new_local f (BLoad src) | _ => b_error end.
(** koopa/src/front/builder.rs:635-651 [generate_get_pointer] *)
Definition gen_get_ptr (f : func) (bb sym : string) (i : aval) : F value :=
  src <- gen_symbol bb sym;;
  t <- value_ty f src;;
  match t with
  | TPtr _ =>
      idx <- gen_value f bb TInt32 i;;
      new_local f (BGetPtr src idx)
  | _ => b_error
  end.
(** koopa/src/front/builder.rs:654-670 [generate_get_element_pointer] *)
Definition gen_get_elem_ptr (f : func) (bb sym : string) (i : aval) : F value :=
  src <- gen_symbol bb sym;;
  t <- value_ty f src;;
  match t with
  | TPtr (TArray _ _) =>
      idx <- gen_value f bb TInt32 i;;
      new_local f (BGetElemPtr src idx)
  | _ => b_error
  end.
(** koopa/src/front/builder.rs:673-684 [generate_binary_expr] *)
Definition gen_binary (f : func) (bb : string) (op : binop) (l r : aval) : F value :=
  lhs <- gen_value f bb TInt32 l;;
  rhs <- gen_value f bb TInt32 r;;
  new_local f (BBinary op lhs rhs).
(** koopa/src/front/builder.rs:737-756 [generate_fun_call] *)
Definition gen_call (f : func) (bb callee : string) (args : list aval) : F value := λ s,
  match b_gfuncs s !! callee with
  | None => b_error s
  | Some c =>
      (tys <- b_some (fd ← p_funcs (w_prog (b_world s)) !! c;
                      match f_ty fd with TFun ps _ => Some ps | _ => None end);;
       vs <- gen_args f bb args tys;;
       new_local f (BCall c vs)) s
  end.
(** koopa/src/front/builder.rs:575-587 [generate_inst], with [generate_mem_decl] (590-593) *)
Definition gen_inst (f : func) (bb : string) (e : aexpr) : F value :=
  match e with
  | EMemDecl t => t' <- b_some (gen_type t);; new_local f (BAlloc t')
  | ELoad sym => gen_load f bb sym
  | EGetPtr sym i => gen_get_ptr f bb sym i
  | EGetElemPtr sym i => gen_get_elem_ptr f bb sym i
  | EBin op l r => gen_binary f bb op l r
  | ECall c args => gen_call f bb c args
  end.

(** koopa/src/front/builder.rs:614-632 [generate_store] *)
Definition gen_store (f : func) (bb : string) (v : astore) (dest : string) : F value :=
  d <- gen_symbol bb dest;;
  t <- value_ty f d;;
  match t with
  | TPtr base =>
      x <- gen_store_value f bb base v;;
      new_local f (BStore x d)
  | _ => b_error
  end.
(** koopa/src/front/builder.rs:687-718 [generate_branch] *)
Definition gen_branch (f : func) (bb : string) (c : aval) (tbb : string) (targs : list aval)
    (fbb : string) (fargs : list aval) : F value :=
  cond <- gen_value f bb TInt32 c;;
  t <- gen_bb tbb;;
  tt <- bb_params_ty f t;;
  tas <- gen_args f bb targs tt;;
  e <- gen_bb fbb;;
  et <- bb_params_ty f e;;
  fas <- gen_args f bb fargs et;;
  if (t =? e)%N && negb (match tas, fas with [], [] => true | _, _ => false end) then b_error
  else new_local f (BBranchArgs cond t e tas fas).
(** koopa/src/front/builder.rs:721-734 [generate_jump] *)
Definition gen_jump (f : func) (bb : string) (target : string) (args : list aval) : F value :=
  t <- gen_bb target;;
  ty <- bb_params_ty f t;;
  vs <- gen_args f bb args ty;;
  new_local f (BJumpArgs t vs).
(** koopa/src/front/builder.rs:759-788 [generate_return] *)
Definition gen_return (f : func) (bb : string) (ret : ty) (v : option aval) : F value :=
  match v with
  | None => if is_unit ret then new_local f (BRet None) else b_error
  | Some v =>
      if is_unit ret then b_error
      else x <- gen_value f bb ret v;; new_local f (BRet (Some x))
  end.

(** koopa/src/front/builder.rs:540-544 the check of a new local symbol *)
Definition def_symbol (n : string) : F unit := λ s,
  if decide (is_Some (b_gvars s !! n)) then b_log s
  else if decide (n ∈ b_syms s) then b_log s
  else (Rok tt, set_syms ({[n]} ∪ b_syms s) s).
(** koopa/src/front/builder.rs:561-567: [local_bbs.get_mut(bb).unwrap().local_defs.insert] *)
Definition add_def (bb n : string) (v : value) : F unit := λ s,
  match b_bbs s !! bb with
  | Some info =>
      (Rok tt, set_bbs (<[bb := BbInfo (bi_bb info) (bi_preds info)
                           (<[n := v]> (bi_defs info))]> (b_bbs s)) s)
  | None => (Rpanic, s)
  end.
(** koopa/src/front/builder.rs:525-572 [generate_stmt] *)
Definition gen_stmt (f : func) (bb : string) (ret : ty) (st : astmt) : F value :=
  match st with
  | SStore v d => gen_store f bb v d
  | SBr c t ta e ea => gen_branch f bb c t ta e ea
  | SJump t a => gen_jump f bb t a
  | SCall c a => gen_call f bb c a
  | SRet v => gen_return f bb ret v
  | SErr => λ s, (Rerr false, s)
  | SDef n e =>
      def_symbol n;;
      inst <- gen_inst f bb e;;
      t <- value_ty f inst;;
      if is_unit t then b_error
      else
        (if is_temp n then mok tt else b_prog_ (w_name_local f inst (Some n)));;
        add_def bb n inst;;
        mok inst
  end.

(** koopa/src/front/builder.rs:367-383 [build_on_block] *)
Definition build_block (f : func) (ret : ty) (b : ablock) : F unit :=
  b_each (λ st,
    b_ok (gen_stmt f (b_name b) ret st) (λ v s,
      match b_bbs s !! b_name b with
      | None => (Rpanic, s)
      | Some info => b_prog_ (w_push_inst f (bi_bb info) v) s
      end)) (b_stmts b).

(** ** Functions *)

(** koopa/src/front/builder.rs:246-257: the map of blocks *)
Fixpoint block_map (l : list ablock) (m : gmap string ablock) : F (gmap string ablock) :=
  match l with
  | [] => mok m
  | b :: l' =>
      (if decide (is_Some (m !! b_name b)) then b_log else mok tt);;
      block_map l' (<[b_name b := b]> m)
  end.
(** The names of the targets of a block, [None] if its last statement is not one that ends
    a block (the [match] of koopa/src/front/builder.rs:279-287) *)
Definition targets (b : ablock) : option (list string) :=
  st ← list.last (b_stmts b);
  match st with
  | SBr _ t _ f _ => Some [t; f]
  | SJump t _ => Some [t]
  | SRet _ | SErr => Some []
  | _ => None
  end.
(** koopa/src/front/builder.rs:267-278: the closure [add_target] for a list of targets;
    returns what is pushed to the queue *)
Fixpoint add_targets (entry : string) (m : gmap string ablock) (ts : list string)
    : F (list string) :=
  match ts with
  | [] => mok []
  | t :: ts' =>
      if String.eqb t entry then b_log;; add_targets entry m ts'
      else if decide (is_Some (m !! t)) then q <- add_targets entry m ts';; mok (t :: q)
      else b_log;; add_targets entry m ts'
  end.
(** koopa/src/front/builder.rs:258-289: the loop over the queue; returns the list of blocks
    and the visited names.  The fuel bounds the number of pops, see
    FrontProofs.bfs_fuel. *)
Fixpoint bfs (fuel : nat) (entry : string) (m : gmap string ablock) (queue : list string)
    (visited : gset string) : F (list ablock * gset string) :=
  match fuel with
  | O => λ s, (Rfuel, s)
  | S fuel' =>
      match queue with
      | [] => mok ([], visited)
      | n :: queue' =>
          if decide (n ∈ visited) then bfs fuel' entry m queue' visited
          else
            b <- b_some (m !! n);;
            ts <- b_some (targets b);;
            q <- add_targets entry m ts;;
            '(bs, visited') <- bfs fuel' entry m (queue' ++ q) ({[n]} ∪ visited);;
            mok (b :: bs, visited')
      end
  end.
(** koopa/src/front/builder.rs:240-297 [get_block_list] *)
Definition get_block_list (bbs : list ablock) : F (list ablock) :=
  first <- b_some (head bbs);;
  m <- block_map bbs ∅;;
  '(l, visited) <- bfs (S (S (2 * base.size m))) (b_name first) m [b_name first] ∅;;
  b_warn (N.of_nat (base.size (dom m ∖ visited)));;
  mok l.

(** koopa/src/front/builder.rs:325-334: the parameters of a block as local definitions *)
Fixpoint param_defs (ps : list (string * value)) (defs : gmap string value)
    : F (gmap string value) :=
  match ps with
  | [] => mok defs
  | (n, v) :: ps' =>
      def_symbol n;;
      param_defs ps' (<[n := v]> defs)
  end.
(** koopa/src/front/builder.rs:303-337: the body of the first loop of [init_local_bbs] *)
Definition init_bb (f : func) (b : ablock) : F unit :=
  ps <- b_some (gen_params (b_params b));;
  bb <- b_prog (w_new_bb f (opt_name (b_name b)) ps);;
  b_prog_ (w_push_bb f bb);;
  s <- mget;;
  vs <- b_some (fd ← p_funcs (w_prog (b_world s)) !! f;
                bb_params <$> d_bbs (f_dfg fd) !! bb);;
  defs <- param_defs (zip (map fst (b_params b)) vs) ∅;;
  b_upd (λ s, set_bbs (<[b_name b := BbInfo bb [] defs]> (b_bbs s)) s).
(** koopa/src/front/builder.rs:347-354: the closure [add_pred] *)
Definition add_pred (from to : string) : F unit := λ s,
  match b_bbs s !! to with
  | Some info =>
      (Rok tt, set_bbs (<[to := BbInfo (bi_bb info) (bi_preds info ++ [from])
                           (bi_defs info)]> (b_bbs s)) s)
  | None => (Rpanic, s)
  end.
(** koopa/src/front/builder.rs:300-364 [init_local_bbs] *)
Definition init_local_bbs (f : func) (args : gmap string value) (bbs : list ablock) : F unit :=
  b_upd (set_bbs ∅);;
  b_each (init_bb f) bbs;;
  b_upd (λ s, set_syms (b_syms s ∪ dom args) s);;
  entry <- b_some (head bbs);;
  (λ s, match b_bbs s !! b_name entry with
        | Some info =>
            (Rok tt, set_bbs (<[b_name entry := BbInfo (bi_bb info) (bi_preds info) args]>
                                (b_bbs s)) s)
        | None => (Rpanic, s)
        end);;
  b_each (λ b,
    match list.last (b_stmts b) with
    | None => λ s, (Rpanic, s)
    | Some (SBr _ t _ e _) => add_pred (b_name b) t;; add_pred (b_name b) e
    | Some (SJump t _) => add_pred (b_name b) t
    | Some _ => mok tt
    end) bbs.

(** koopa/src/front/builder.rs:187-193: the map of arguments *)
Fixpoint arg_map (ps : list (string * value)) (m : gmap string value) : F (gmap string value) :=
  match ps with
  | [] => mok m
  | (n, v) :: ps' =>
      (if decide (is_Some (m !! n)) then b_log else mok tt);;
      arg_map ps' (<[n := v]> m)
  end.
(** koopa/src/front/builder.rs:194-203, 227-236: registering a function *)
Definition def_func (n : string) (f : func) : F unit := λ s,
  if decide (is_Some (b_gvars s !! n)) then b_log s
  else if decide (is_Some (b_gfuncs s !! n)) then b_log (set_gfuncs (<[n := f]> (b_gfuncs s)) s)
  else (Rok tt, set_gfuncs (<[n := f]> (b_gfuncs s)) s).
(** koopa/src/front/builder.rs:157-166: registering a global variable *)
Definition def_gvar (n : string) (v : value) : F unit := λ s,
  if decide (is_Some (b_gfuncs s !! n)) then b_log s
  else if decide (is_Some (b_gvars s !! n)) then b_log (set_gvars (<[n := v]> (b_gvars s)) s)
  else (Rok tt, set_gvars (<[n := v]> (b_gvars s)) s).

(** koopa/src/front/builder.rs:148-168 [build_on_global_def] *)
Definition build_global (n : string) (t : aty) (i : ainit) : F unit :=
  t' <- b_some (gen_type t);;
  b_ok (gen_global_init t' i) (λ init,
    v <- new_global (BGlobalAlloc init);;
    (if is_temp n then mok tt else b_prog_ (w_name_global v (Some n)));;
    def_gvar n v).
(** koopa/src/front/builder.rs:171-214 [build_on_fun_def] *)
Definition build_fun_def (n : string) (ps : list (string * aty)) (r : option aty)
    (bbs : list ablock) : F unit :=
  ret <- b_some (gen_ret r);;
  ps' <- b_some (gen_params ps);;
  f <- b_prog (w_new_func_def n ps' ret);;
  s <- mget;;
  vs <- b_some (f_params <$> p_funcs (w_prog (b_world s)) !! f);;
  args <- arg_map (zip (map fst ps) vs) ∅;;
  def_func n f;;
  b_upd (set_syms ∅);;
  l <- get_block_list bbs;;
  init_local_bbs f args l;;
  b_each (build_block f ret) l.
(** koopa/src/front/builder.rs:217-237 [build_on_fun_decl] *)
Definition build_fun_decl (n : string) (ps : list aty) (r : option aty) : F unit :=
  ps' <- b_some (gen_types ps);;
  ret <- b_some (gen_ret r);;
  f <- b_prog (w_new_func_decl n ps' ret);;
  def_func n f.

(** koopa/src/front/builder.rs:102-110 [build_on] *)
Definition build_on (t : atop) : F unit :=
  match t with
  | TGlobal n t i => build_global n t i
  | TFunDef n ps r bbs => build_fun_def n ps r bbs
  | TFunDecl n ps r => build_fun_decl n ps r
  | TEnd | TErr => mok tt
  end.
