(** Pointers to elements of arrays (C70). *)
From Verif Require Import Base IdModel TypeModel InterpModel.

(** [x] is a pointer to element [k] of an array in memory, whose elements are [l]; the array is
    at [a], and its buffer has the number [i]. *)
Definition elem_ptr (mem : gmap N xval) (a : xptr) (i : N) (l : list xval) (k : nat) (x : xval) : Prop :=
  x_read mem a = XOk (XArr i l) ∧ (k < length l)%nat ∧
  x = XPtr (Some (Ptr (pt_box a) (pt_path a ++ [(i, k)]))) (N.of_nat k) (N.of_nat (length l)).
