(** Vocabulary for statements about handles. *)
From Verif Require Import Base IdModel.

Global Instance id_req_eq_dec : EqDecision id_req.
Proof. solve_decision. Defined.

(** The counter of a sort. *)
Definition counter (r : id_req) (i : ids) : N :=
  match r with
  | ReqGlobal => next_gv i
  | ReqLocal => next_lv i
  | ReqBB => next_bb i
  | ReqFunc => next_fn i
  end.

(** The handles of sort [r] among the answers, in order. *)
Definition handles_of (r : id_req) (l : list (id_req * N)) : list N :=
  snd <$> filter (λ p, p.1 = r) l.

(** Number of requests of a sort. *)
Definition count_req (r : id_req) (rs : list id_req) : nat :=
  length (filter (λ x, x = r) rs).
