(** Places in memory (C69). *)
From Verif Require Import Base IdModel TypeModel InterpModel.

(** Two places of which neither is in the other: in different boxes, or on ways that part *)
Definition apart (q q' : xptr) : Prop :=
  pt_box q ≠ pt_box q' ∨
  ∃ π a a' ρ ρ', pt_path q = π ++ a :: ρ ∧ pt_path q' = π ++ a' :: ρ' ∧ a ≠ a'.
(** The same value, in buffers with numbers from [b] on, which no buffer had before *)
Inductive copy (b : N) : xval → xval → Prop :=
  | cp_undef : copy b XUndef XUndef
  | cp_int z : copy b (XInt z) (XInt z)
  | cp_arr i i' l l' : (b ≤ i')%N → Forall2 (copy b) l l' → copy b (XArr i l) (XArr i' l')
  | cp_ptr p i n : copy b (XPtr p i n) (XPtr p i n)
  | cp_raw a : copy b (XRaw a) (XRaw a).
(** The zero of a type *)
Inductive zero_of : ty → xval → Prop :=
  | zo_int : zero_of TInt32 (XInt 0)
  | zo_arr t n i l : length l = N.to_nat n → Forall (zero_of t) l → zero_of (TArray t n) (XArr i l)
  | zo_ptr t : zero_of (TPtr t) (XPtr None 0 0).
