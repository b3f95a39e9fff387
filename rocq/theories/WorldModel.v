(** Histories of API calls on one program: the union of the public operations of
    koopa/src/ir/{entities,dfg,builder}.rs that create, change or remove values,
    blocks and functions. *)
From Verif Require Import Base IdModel TypeModel IrModel LayoutModel BuilderModel.

(** A program (koopa/src/ir/entities.rs:20-26) together with the process-wide id counters
    (koopa/src/ir/idman.rs:44-75). *)
Record world := World { w_ids : ids; w_prog : program }.

(** koopa/src/ir/entities.rs:42-44 [Program::new], in a fresh process *)
Definition world0 : world := World ids0 program0.

(** Run an operation on the data flow graph of function [f]: [Program::func_mut]
    then [FunctionData::dfg_mut] (koopa/src/ir/entities.rs:221-223,391-393);
    panics if the function does not exist. *)
Definition on_dfg {A} (w : world) (f : func)
    (op : ids → gmap N vdata → dfg → option (A * ids * gmap N vdata * dfg))
    : option (A * world) :=
  fd ← p_funcs (w_prog w) !! f;
  '(a, i', gs', g') ← op (w_ids w) (p_values (w_prog w)) (f_dfg fd);
  Some (a, World i' (set_func (set_values (w_prog w) gs') f (set_dfg fd g'))).

(** [program.func_mut(f).dfg_mut().new_value().raw(data)]
    (koopa/src/ir/builder.rs:59-61,523-527) *)
Definition w_new_local_data (f : func) (data : vdata) (w : world) : option (value * world) :=
  on_dfg w f (λ i gs g, dfg_new_value_data i gs g data).

(** [program.func_mut(f).dfg_mut().new_value().<method>(..)]
    (koopa/src/ir/builder.rs:523-530) *)
Definition w_new_local (f : func) (r : breq) (w : world) : option (value * world) :=
  on_dfg w f (λ i gs g,
    data ← build (local_querier gs (p_func_tys (w_prog w)) g) r;
    dfg_new_value_data i gs g data).

(** [program.func_mut(f).dfg_mut().replace_value_with(v).raw(data)]
    (koopa/src/ir/builder.rs:59-61,567-572) *)
Definition w_replace_data (f : func) (v : value) (data : vdata) (w : world)
    : option world :=
  '(_, w') ← on_dfg w f (λ i gs g,
    '(gs', g') ← dfg_replace_value_with_data gs g v data;
    Some (tt, i, gs', g'));
  Some w'.

(** [program.func_mut(f).dfg_mut().replace_value_with(v).<method>(..)]
    (koopa/src/ir/builder.rs:567-575) *)
Definition w_replace (f : func) (v : value) (r : breq) (w : world) : option world :=
  '(_, w') ← on_dfg w f (λ i gs g,
    data ← build (local_querier gs (p_func_tys (w_prog w)) g) r;
    '(gs', g') ← dfg_replace_value_with_data gs g v data;
    Some (tt, i, gs', g'));
  Some w'.

(** [program.func_mut(f).dfg_mut().update_value(v, closure)]
    (koopa/src/ir/dfg.rs:123-142) *)
Definition w_update (f : func) (v : value) (h : vdata → vdata) (w : world)
    : option world :=
  '(_, w') ← on_dfg w f (λ i gs g,
    '(gs', g') ← dfg_update_value gs g v h;
    Some (tt, i, gs', g'));
  Some w'.

(** [program.func_mut(f).dfg_mut().remove_value(v)] (koopa/src/ir/dfg.rs:150-160) *)
Definition w_remove_local (f : func) (v : value) (w : world) : option (vdata * world) :=
  on_dfg w f (λ i gs g,
    '(d, gs', g') ← dfg_remove_value gs g v;
    Some (d, i, gs', g')).

(** [program.func_mut(f).dfg_mut().set_value_name(v, n)]
    (koopa/src/ir/dfg.rs:168-174) *)
Definition w_name_local (f : func) (v : value) (n : option string) (w : world)
    : option world :=
  '(_, w') ← on_dfg w f (λ i gs g,
    g' ← dfg_set_value_name g v n;
    Some (tt, i, gs, g'));
  Some w'.

(** [program.func_mut(f).dfg_mut().new_bb().basic_block_with_param_names(..)]
    (koopa/src/ir/builder.rs:388-408) *)
Definition w_new_bb (f : func) (n : option string) (ps : list (option string * ty))
    (w : world) : option (bblock * world) :=
  on_dfg w f (λ i gs g, basic_block_with_param_names i gs g n ps).

(** [program.func_mut(f).dfg_mut().remove_bb(b)] (koopa/src/ir/dfg.rs:268-282) *)
Definition w_remove_bb (f : func) (b : bblock) (w : world) : option (bbdata * world) :=
  on_dfg w f (λ i gs g,
    '(d, g') ← dfg_remove_bb g b;
    Some (d, i, gs, g')).

(** [program.new_value().raw(data)] (koopa/src/ir/builder.rs:59-61,617-626) *)
Definition w_new_global_data (data : vdata) (w : world) : option (value * world) :=
  '(v, i', p') ← global_insert_value (w_ids w) (w_prog w) data;
  Some (v, World i' p').

(** [program.new_value().<method>(..)] (koopa/src/ir/builder.rs:617-629) *)
Definition w_new_global (r : breq) (w : world) : option (value * world) :=
  data ← build (global_querier (w_prog w)) r;
  w_new_global_data data w.

(** [program.remove_value(v)] (koopa/src/ir/entities.rs:74-90) *)
Definition w_remove_global (v : value) (w : world) : option (vdata * world) :=
  '(d, p') ← prog_remove_value (w_prog w) v;
  Some (d, World (w_ids w) p').

(** [program.set_value_name(v, n)] (koopa/src/ir/entities.rs:98-105) *)
Definition w_name_global (v : value) (n : option string) (w : world) : option world :=
  p' ← prog_set_value_name (w_prog w) v n;
  Some (World (w_ids w) p').

(** [program.new_func_def_with_param_names(..)] (koopa/src/ir/entities.rs:158-166) *)
Definition w_new_func_def (name : string) (ps : list (option string * ty)) (ret : ty)
    (w : world) : option (func * world) :=
  '(f, i', p') ← prog_new_func_def (w_ids w) (w_prog w) name ps ret;
  Some (f, World i' p').

(** [program.new_func_decl(..)] (koopa/src/ir/entities.rs:174-177) *)
Definition w_new_func_decl (name : string) (ps : list ty) (ret : ty) (w : world)
    : option (func * world) :=
  '(f, i', p') ← prog_new_func_decl (w_ids w) (w_prog w) name ps ret;
  Some (f, World i' p').

(** [program.remove_func(f)] (koopa/src/ir/entities.rs:182-188) *)
Definition w_remove_func (f : func) (w : world) : option (option fdata * world) :=
  '(d, p') ← prog_remove_func (w_prog w) f;
  Some (d, World (w_ids w) p').

(** An API call (the union of the functions above, koopa/src/ir/entities.rs:48-232,
    koopa/src/ir/dfg.rs:40-190). *)
Inductive op :=
  | ONewLocal (f : func) (r : breq)
  | ONewLocalRaw (f : func) (t : ty) (n : option string) (k : vkind)
  | OReplace (f : func) (v : value) (r : breq)
  | OReplaceRaw (f : func) (v : value) (t : ty) (n : option string) (k : vkind)
  | OUpdate (f : func) (v : value) (h : vkind → vkind)
  | ORemoveLocal (f : func) (v : value)
  | ONameLocal (f : func) (v : value) (n : option string)
  | ONewBB (f : func) (n : option string) (ps : list (option string * ty))
  | ORemoveBB (f : func) (b : bblock)
  | ONewGlobal (r : breq)
  | ONewGlobalRaw (t : ty) (n : option string) (k : vkind)
  | ORemoveGlobal (v : value)
  | ONameGlobal (v : value) (n : option string)
  | ONewFuncDef (name : string) (ps : list (option string * ty)) (ret : ty)
  | ONewFuncDecl (name : string) (ps : list ty) (ret : ty)
  | ORemoveFunc (f : func).

(** Run one API call; [None] = the call panics.  [raw] data is given without users
    (a [ValueData] owned by a client comes from [clone], koopa/src/ir/entities.rs:
    548-558, or from a removal, where the set is empty). *)
Definition step (o : op) (w : world) : option world :=
  match o with
  | ONewLocal f r => snd <$> w_new_local f r w
  | ONewLocalRaw f t n k => snd <$> w_new_local_data f (VData t n k ∅) w
  | OReplace f v r => w_replace f v r w
  | OReplaceRaw f v t n k => w_replace_data f v (VData t n k ∅) w
  | OUpdate f v h => w_update f v (kind_mut h) w
  | ORemoveLocal f v => snd <$> w_remove_local f v w
  | ONameLocal f v n => w_name_local f v n w
  | ONewBB f n ps => snd <$> w_new_bb f n ps w
  | ORemoveBB f b => snd <$> w_remove_bb f b w
  | ONewGlobal r => snd <$> w_new_global r w
  | ONewGlobalRaw t n k => snd <$> w_new_global_data (VData t n k ∅) w
  | ORemoveGlobal v => snd <$> w_remove_global v w
  | ONameGlobal v n => w_name_global v n w
  | ONewFuncDef n ps r => snd <$> w_new_func_def n ps r w
  | ONewFuncDecl n ps r => snd <$> w_new_func_decl n ps r w
  | ORemoveFunc f => snd <$> w_remove_func f w
  end.

(** Run a history of API calls (sequence of the calls above,
    koopa/src/ir/entities.rs, koopa/src/ir/dfg.rs). *)
Fixpoint run (os : list op) (w : world) : option world :=
  match os with
  | [] => Some w
  | o :: os' => w' ← step o w; run os' w'
  end.
