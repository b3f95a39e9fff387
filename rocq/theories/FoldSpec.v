(** Vocabulary for C55: constant folding does not change what programs do. *)
From Verif Require Import Base IdModel TypeModel IrModel LayoutModel DfgSpec ArithModel ArithSpec FoldModel.

(** Iterating over a hash table visits every entry once, in some order. *)
Record fair_fold (o : fold_orders) : Prop := {
  ff_values : is_value_order (fold_values o);
  ff_bbs : ∀ m, NoDup (fold_bbs o m) ∧ ∀ b, b ∈ fold_bbs o m ↔ is_Some (m !! b);
  ff_set : ∀ s, NoDup (fold_users o s) ∧ ∀ v, v ∈ fold_users o s ↔ v ∈ s;
}.
(** The numbers of local values that are given next are not in use. *)
Definition numbers_unused (i : ids) (p : program) : Prop :=
  next_lv i = 0%N ∨ (next_lv i < two32)%N ∧
  ∀ v, is_Some (p_values p !! v) ∨ (∃ f fd, p_funcs p !! f = Some fd ∧ (is_Some (vals fd !! v) ∨ v ∈ f_params fd)) →
    (v < next_lv i)%N.
