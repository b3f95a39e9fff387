(** Observing a run of the pass manager: every pass is wrapped so that it writes down
    that it was called, on what, what the argument was and what it made of it. *)
From Verif Require Import Base IdModel TypeModel IrModel PassModel.

(** A recorded call: number of the pass in registration order, and the target. *)
Inductive target := TProgram (p p' : program) | TFunction (f : func) (d d' : fdata).
Definition call : Type := nat * target.

Definition record_fn {S} (i : nat) (r : S → func → fdata → option (S * fdata))
    (sl : S * list call) (f : func) (d : fdata) : option (S * list call * fdata) :=
  '(s', d') ← r sl.1 f d; Some ((s', sl.2 ++ [(i, TFunction f d d')]), d').

Definition recording {S} (i : nat) (p : pass S) : pass (S * list call) :=
  match p with
  | PModule r => PModule (λ '(s, l) p,
      '(s', p') ← r s p; Some ((s', l ++ [(i, TProgram p p')]), p'))
  | PFunction r => PFunction (record_fn i r)
  end.

Fixpoint recording_all {S} (i : nat) (ps : list (pass S)) : list (pass (S * list call)) :=
  match ps with [] => [] | p :: ps' => recording i p :: recording_all (1 + i) ps' end.

(** An iteration order lists every key once. *)
Definition is_order (order : gmap N fdata → list func) : Prop :=
  ∀ m, NoDup (order m) ∧ ∀ f, f ∈ order m ↔ is_Some (m !! f).

(** [schedule i ps p calls p']: the calls are what the documentation asks for: the passes
    one after the other; a module pass is called once on the whole program as left by the
    previous pass; a function pass is called once on every function of that program, on
    its data as left by the previous pass; what it makes of it is the function's data seen
    by the next pass, and nothing but the data of functions changes. *)
Inductive schedule {S} : nat → list (pass S) → program → list call → program → Prop :=
  | sched_nil i p : schedule i [] p [] p
  | sched_module i r ps p p1 calls p' :
      schedule (1 + i) ps p1 calls p' →
      schedule i (PModule r :: ps) p ((i, TProgram p p1) :: calls) p'
  | sched_function i r ps p p1 now calls p' :
      NoDup (map (λ x, x.1.1) now) →
      (∀ f d, (∃ d', (f, d, d') ∈ now) ↔ p_funcs p !! f = Some d) →
      (∀ f d', (∃ d, (f, d, d') ∈ now) ↔ p_funcs p1 !! f = Some d') →
      p_values p1 = p_values p → p_inst_layout p1 = p_inst_layout p →
      p_func_tys p1 = p_func_tys p → p_func_layout p1 = p_func_layout p →
      schedule (1 + i) ps p1 calls p' →
      schedule i (PFunction r :: ps) p (map (λ x, (i, TFunction x.1.1 x.1.2 x.2)) now ++ calls) p'.
