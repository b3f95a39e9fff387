(** Model of koopa/src/ir/idman.rs. *)
From Verif Require Import Base.

(** koopa/src/ir/idman.rs:16 [GLOBAL_VALUE_ID_STARTS_FROM] *)
Definition global_value_id_starts_from : N := 1.
(** koopa/src/ir/idman.rs:21 [LOCAL_VALUE_ID_STARTS_FROM] (0x40000000) *)
Definition local_value_id_starts_from : N := 1073741824.
(** koopa/src/ir/idman.rs:31 [BB_ID_STARTS_FROM] *)
Definition bb_id_starts_from : N := 1.
(** koopa/src/ir/idman.rs:41 [FUNC_ID_STARTS_FROM] *)
Definition func_id_starts_from : N := 1.

(** The four process-wide atomic counters (statics in
    koopa/src/ir/idman.rs:45,52,64,71). *)
Record ids := Ids {
  next_gv : N;
  next_lv : N;
  next_bb : N;
  next_fn : N;
}.

(** Initial values of the statics, koopa/src/ir/idman.rs:45,52,64,71. *)
Definition ids0 : ids :=
  Ids global_value_id_starts_from local_value_id_starts_from bb_id_starts_from
    func_id_starts_from.

(** [AtomicU32::fetch_add(1)] returns the old value and stores old+1 modulo 2^32
    (koopa/src/ir/idman.rs:46,53,65,72). *)
Definition fetch_add1 (c : N) : N * N := (c, (c + 1) `mod` two32)%N.

(** [NonZeroU32::new_unchecked(id)] is undefined behaviour for 0
    (koopa/src/ir/idman.rs:47,54,66,73); modelled as a panic. *)
Definition new_unchecked (id : N) : option N := if (id =? 0)%N then None else Some id.

(** koopa/src/ir/idman.rs:44-48 [next_global_value_id] *)
Definition next_global_value_id (i : ids) : option (N * ids) :=
  let '(id, c) := fetch_add1 (next_gv i) in
  v ← new_unchecked id;
  Some (v, Ids c (next_lv i) (next_bb i) (next_fn i)).

(** koopa/src/ir/idman.rs:51-55 [next_local_value_id] *)
Definition next_local_value_id (i : ids) : option (N * ids) :=
  let '(id, c) := fetch_add1 (next_lv i) in
  v ← new_unchecked id;
  Some (v, Ids (next_gv i) c (next_bb i) (next_fn i)).

(** koopa/src/ir/idman.rs:63-67 [next_bb_id] *)
Definition next_bb_id (i : ids) : option (N * ids) :=
  let '(id, c) := fetch_add1 (next_bb i) in
  v ← new_unchecked id;
  Some (v, Ids (next_gv i) (next_lv i) c (next_fn i)).

(** koopa/src/ir/idman.rs:70-74 [next_func_id] *)
Definition next_func_id (i : ids) : option (N * ids) :=
  let '(id, c) := fetch_add1 (next_fn i) in
  v ← new_unchecked id;
  Some (v, Ids (next_gv i) (next_lv i) (next_bb i) c).

(** koopa/src/ir/idman.rs:58-60 [is_global_id]; also [Value::is_global],
    koopa/src/ir/entities.rs:479-481. *)
Definition is_global_id (v : N) : bool :=
  (global_value_id_starts_from <=? v)%N && (v <? local_value_id_starts_from)%N.

(** One request to the id manager, as issued by some thread; a list of requests is
    an interleaving (each request is a single atomic [fetch_add],
    koopa/src/ir/idman.rs:44-75). *)
Inductive id_req := ReqGlobal | ReqLocal | ReqBB | ReqFunc.

(** Serve one request: result handle and new counters
    (dispatch over koopa/src/ir/idman.rs:44-74). *)
Definition serve (r : id_req) (i : ids) : option (N * ids) :=
  match r with
  | ReqGlobal => next_global_value_id i
  | ReqLocal => next_local_value_id i
  | ReqBB => next_bb_id i
  | ReqFunc => next_func_id i
  end.

(** Serve a whole schedule; collects the handles together with the request
    (repeated koopa/src/ir/idman.rs:44-74). *)
Fixpoint serve_all (rs : list id_req) (i : ids) : option (list (id_req * N) * ids) :=
  match rs with
  | [] => Some ([], i)
  | r :: rs' =>
      '(v, i') ← serve r i;
      '(vs, i'') ← serve_all rs' i';
      Some ((r, v) :: vs, i'')
  end.
