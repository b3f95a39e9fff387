(** What programs that run alike have to be like (C63). *)
From Verif Require Import Base IdModel TypeModel IrModel DfgSpec UsesSpec RawModel RawSpec.

(** Handles tell global values from values of functions. *)
Definition apart (p : program) : Prop :=
  (∀ v, is_Some (p_values p !! v) → is_global_id v = true) ∧
  (∀ f fd v, p_funcs p !! f = Some fd → is_Some (vals fd !! v) → is_global_id v = false).
(** At most one function is called [@main]. *)
Definition one_main (p : program) : Prop :=
  ∀ f g fd gd, p_funcs p !! f = Some fd → p_funcs p !! g = Some gd →
    f_name fd = "@main"%string → f_name gd = "@main"%string → f = g.
(** The functions of a program, in any order. *)
Definition all_functions (p : program) (order : list func) : Prop :=
  ∀ f, f ∈ order ↔ is_Some (p_funcs p !! f).
(** [bs] are the blocks of a function in some order, of which the first one is the same. *)
Definition same_entry (bs bs' : list bblock) : Prop := bs ≡ₚ bs' ∧ head bs = head bs'.
