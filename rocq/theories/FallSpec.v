(** Programs without loops and recursion (C68). *)
From Verif Require Import Base IdModel TypeModel IrModel LayoutModel UsesSpec.

(** There is a rank of blocks that falls along every jump and branch, and from the block of a
    call to the first block of the function that is called. *)
Definition falls (p : program) (rank : func → bblock → nat) : Prop :=
  ∀ f fd b is v d, p_funcs p !! f = Some fd → (b, is) ∈ l_bbs (f_layout fd) → v ∈ is → d_values (f_dfg fd) !! v = Some d →
    (∀ c, c ∈ targets (v_kind d) → (rank f c < rank f b)%nat) ∧
    (∀ g args gd c is' bs, v_kind d = KCall g args → p_funcs p !! g = Some gd → l_bbs (f_layout gd) = (c, is') :: bs →
       (rank g c < rank f b)%nat).
