(** Model of the example that translates brainfuck to Koopa IR
    (koopa/examples/brainfuck/main.rs).

    Simplifications: reading the input does not fail; the command line and the writing of the
    program (koopa/examples/brainfuck/main.rs:9-87, 114-121) are left out, the generators are
    modelled elsewhere. *)
From Verif Require Import Base IdModel TypeModel IrModel LayoutModel BuilderModel WorldModel FrontModel.
From Coq Require Import Ascii.

(** The result of a step that can fail: a value, [Error::Parse]
    (koopa/examples/brainfuck/main.rs:41-46), or a panic *)
Inductive bfres (A : Type) :=
  | BfOk (a : A)
  | BfParse
  | BfPanic.
Arguments BfOk {A} a.
Arguments BfParse {A}.
Arguments BfPanic {A}.
(** [unwrap], and the panics of the builders (koopa/examples/brainfuck/main.rs:148, 159) *)
Definition bf_need {A} (o : option A) : bfres A :=
  match o with Some a => BfOk a | None => BfPanic end.
(** The operator [?] (koopa/examples/brainfuck/main.rs:110, 212) *)
Definition bf_then {A B} (m : bfres A) (k : A → bfres B) : bfres B :=
  match m with BfOk a => k a | BfParse => BfParse | BfPanic => BfPanic end.

(** koopa/examples/brainfuck/main.rs:127-132 [Environment]; the function is its handle *)
Record bfenv := BfEnv { bf_ptr : value; bf_putchar : func; bf_getchar : func; bf_main : func }.

(** A new value, and [add_inst!] of it (koopa/examples/brainfuck/main.rs:152-161) *)
Definition bf_inst (env : bfenv) (bb : bblock) (r : breq) (w : world) : option (value * world) :=
  '(v, w1) ← w_new_local (bf_main env) r w;
  w2 ← w_push_inst (bf_main env) bb v w1;
  Some (v, w2).
(** koopa/examples/brainfuck/main.rs:217-227 [generate_ptr_op] *)
Definition bf_ptr_op (env : bfenv) (bb : bblock) (i : Z) (w : world) : option world :=
  '(load, w) ← bf_inst env bb (BLoad (bf_ptr env)) w;
  '(index, w) ← w_new_local (bf_main env) (BInteger i) w;
  '(gp, w) ← bf_inst env bb (BGetPtr load index) w;
  '(_, w) ← bf_inst env bb (BStore gp (bf_ptr env)) w;
  Some w.
(** koopa/examples/brainfuck/main.rs:229-241 [generate_data_op] *)
Definition bf_data_op (env : bfenv) (bb : bblock) (i : Z) (w : world) : option world :=
  '(load, w) ← bf_inst env bb (BLoad (bf_ptr env)) w;
  '(data, w) ← bf_inst env bb (BLoad load) w;
  '(rhs, w) ← w_new_local (bf_main env) (BInteger i) w;
  '(add, w) ← bf_inst env bb (BBinary Add data rhs) w;
  '(_, w) ← bf_inst env bb (BStore add load) w;
  Some w.
(** koopa/examples/brainfuck/main.rs:243-271 [generate_start]: the block of the body, and the
    blocks of the condition and after the loop *)
Definition bf_start (env : bfenv) (bb : bblock) (w : world)
    : option (bblock * (bblock * bblock) * world) :=
  let f := bf_main env in
  '(cond_bb, w) ← w_new_bb f (Some "%while_cond") [] w;
  w ← w_push_bb f cond_bb w;
  '(_, w) ← bf_inst env bb (BJump cond_bb) w;
  '(load, w) ← bf_inst env cond_bb (BLoad (bf_ptr env)) w;
  '(data, w) ← bf_inst env cond_bb (BLoad load) w;
  '(zero, w) ← w_new_local f (BInteger 0) w;
  '(cmp, w) ← bf_inst env cond_bb (BBinary NotEq data zero) w;
  '(body_bb, w) ← w_new_bb f (Some "%while_body") [] w;
  '(end_bb, w) ← w_new_bb f (Some "%while_end") [] w;
  '(_, w) ← bf_inst env cond_bb (BBranch cmp body_bb end_bb) w;
  w ← w_push_bb f body_bb w;
  Some (body_bb, (cond_bb, end_bb), w).
(** koopa/examples/brainfuck/main.rs:273-283 [generate_end], after the [pop] *)
Definition bf_end (env : bfenv) (bb : bblock) (info : bblock * bblock) (w : world) : option world :=
  '(_, w) ← bf_inst env bb (BJump info.1) w;
  w_push_bb (bf_main env) info.2 w.
(** koopa/examples/brainfuck/main.rs:285-294 [generate_put] *)
Definition bf_put (env : bfenv) (bb : bblock) (w : world) : option world :=
  '(load, w) ← bf_inst env bb (BLoad (bf_ptr env)) w;
  '(data, w) ← bf_inst env bb (BLoad load) w;
  '(_, w) ← bf_inst env bb (BCall (bf_putchar env) [data]) w;
  Some w.
(** koopa/examples/brainfuck/main.rs:296-305 [generate_get] *)
Definition bf_get (env : bfenv) (bb : bblock) (w : world) : option world :=
  '(call, w) ← bf_inst env bb (BCall (bf_getchar env) []) w;
  '(load, w) ← bf_inst env bb (BLoad (bf_ptr env)) w;
  '(_, w) ← bf_inst env bb (BStore call load) w;
  Some w.

(** The current block, [loop_info], and the program
    (koopa/examples/brainfuck/main.rs:196-200) *)
Record bfstate := BfState { bf_bb : bblock; bf_loops : list (bblock * bblock); bf_world : world }.
(** The steps that stay in the block (koopa/examples/brainfuck/main.rs:203-211) *)
Definition bf_stay (s : bfstate) (o : option world) : bfres bfstate :=
  match o with Some w => BfOk (BfState (bf_bb s) (bf_loops s) w) | None => BfPanic end.
(** koopa/examples/brainfuck/main.rs:202-212: one byte *)
Definition bf_byte (env : bfenv) (c : ascii) (s : bfstate) : bfres bfstate :=
  let bb := bf_bb s in
  let w := bf_world s in
  if Ascii.eqb c ">" then bf_stay s (bf_ptr_op env bb 1 w)
  else if Ascii.eqb c "<" then bf_stay s (bf_ptr_op env bb (-1) w)
  else if Ascii.eqb c "+" then bf_stay s (bf_data_op env bb 1 w)
  else if Ascii.eqb c "-" then bf_stay s (bf_data_op env bb (-1) w)
  else if Ascii.eqb c "[" then
    match bf_start env bb w with
    | Some (body, info, w') => BfOk (BfState body (info :: bf_loops s) w')
    | None => BfPanic
    end
  else if Ascii.eqb c "]" then
    match bf_loops s with
    | [] => BfParse
    | info :: loops =>
        match bf_end env bb info w with
        | Some w' => BfOk (BfState info.2 loops w')
        | None => BfPanic
        end
    end
  else if Ascii.eqb c "." then bf_stay s (bf_put env bb w)
  else if Ascii.eqb c "," then bf_stay s (bf_get env bb w)
  else BfOk s.
(** koopa/examples/brainfuck/main.rs:201-213: the loop *)
Fixpoint bf_bytes (env : bfenv) (input : list ascii) (s : bfstate) : bfres bfstate :=
  match input with
  | [] => BfOk s
  | c :: input' => bf_then (bf_byte env c s) (bf_bytes env input')
  end.
(** koopa/examples/brainfuck/main.rs:195-200: the first steps of [generate_bbs] *)
Definition bf_first (env : bfenv) (entry : bblock) (w : world) : option bfstate :=
  '(bb, w) ← w_new_bb (bf_main env) None [] w;
  w ← w_push_bb (bf_main env) bb w;
  '(_, w) ← bf_inst env entry (BJump bb) w;
  Some (BfState bb [] w).
(** koopa/examples/brainfuck/main.rs:163-176: [generate_main] up to [generate_bbs]; the entry,
    the pointer variable, the number zero *)
Definition bf_prologue (env : bfenv) (w : world) : option (bblock * value * value * world) :=
  let f := bf_main env in
  '(entry, w) ← w_new_bb f (Some "%entry") [] w;
  w ← w_push_bb f entry w;
  '(ptr, w) ← w_new_local f (BAlloc (TPtr TInt32)) w;
  w ← w_name_local f ptr (Some "%ptr") w;
  w ← w_push_inst f entry ptr w;
  '(zero, w) ← w_new_local f (BInteger 0) w;
  '(data_ptr, w) ← bf_inst env entry (BGetElemPtr (bf_ptr env) zero) w;
  '(_, w) ← bf_inst env entry (BStore data_ptr ptr) w;
  Some (entry, ptr, zero, w).
(** koopa/examples/brainfuck/main.rs:179-187: the end of [generate_main] *)
Definition bf_epilogue (env : bfenv) (bb : bblock) (zero : value) (w : world) : option world :=
  let f := bf_main env in
  '(last, w) ← w_new_bb f (Some "%end") [] w;
  w ← w_push_bb f last w;
  '(_, w) ← bf_inst env bb (BJump last) w;
  '(_, w) ← bf_inst env last (BRet (Some zero)) w;
  Some w.
(** koopa/examples/brainfuck/main.rs:163-188 [generate_main], with 190-215 [generate_bbs] *)
Definition bf_generate (env : bfenv) (input : list ascii) (w : world) : bfres world :=
  bf_then (bf_need (bf_prologue env w)) (λ '(entry, ptr, zero, w),
  let env := BfEnv ptr (bf_putchar env) (bf_getchar env) (bf_main env) in
  bf_then (bf_need (bf_first env entry w)) (λ s,
  bf_then (bf_bytes env input s) (λ s,
  bf_need (bf_epilogue env (bf_bb s) zero (bf_world s))))).
(** koopa/examples/brainfuck/main.rs:89-101: [build_program] up to the main function *)
Definition bf_globals (w : world) : option (bfenv * world) :=
  '(zero, w) ← w_new_global (BZeroInit (TArray TInt32 65536)) w;
  '(ptr, w) ← w_new_global (BGlobalAlloc zero) w;
  w ← w_name_global ptr (Some "@data_arr") w;
  '(putchar, w) ← w_new_func_decl "@putchar" [TInt32] TInt32 w;
  '(getchar, w) ← w_new_func_decl "@getchar" [] TInt32 w;
  '(main, w) ← w_new_func_def "@main" [] TInt32 w;
  Some (BfEnv ptr putchar getchar main, w).
(** koopa/examples/brainfuck/main.rs:89-112 [build_program], in a fresh process *)
Definition bf_build (input : list ascii) : bfres world :=
  bf_then (bf_need (bf_globals world0)) (λ '(env, w), bf_generate env input w).
