(** The variables that are there before and after a call (C67). *)
From Verif Require Import Base IdModel InterpModel.

(** The numbers of the boxes are used up. *)
Definition numbered {E} (W : xworld E) : Prop := ∀ b, is_Some (x_mem W !! b) → (b < x_next W)%N.
(** The same boxes are there; what is in them may have changed. *)
Definition same_boxes {E} (W W' : xworld E) : Prop := ∀ b, is_Some (x_mem W' !! b) ↔ is_Some (x_mem W !! b).
