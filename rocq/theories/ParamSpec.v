(** What creating parameters means (C45): the parameters of a new block or function are new
    values, one per requested name and type, in that order, each knowing its position. *)
From Verif Require Import Base IdModel TypeModel IrModel.

(** [vs] are the parameters requested by [ps] among the values [m], made by [arg] from their
    position; nothing uses them. *)
Definition params_created (m : gmap N vdata) (arg : N → vkind)
    (ps : list (option string * ty)) (vs : list value) : Prop :=
  NoDup vs ∧ length vs = length ps ∧
  ∀ (j : nat) n t, ps !! j = Some (n, t) →
    ∃ v, vs !! j = Some v ∧ m !! v = Some (VData t n (arg (N.of_nat j)) ∅).
(** The values [m'] are the values [m] and the new values [vs]. *)
Definition adds (m m' : gmap N vdata) (vs : list value) : Prop :=
  ∀ x, (x ∈ vs → m !! x = None) ∧ (x ∉ vs → m' !! x = m !! x).
