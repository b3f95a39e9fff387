(** C58: a program that is read has nothing but what is listed, and is regular. *)
From Verif Require Import Base IdModel TypeModel IrModel LayoutModel LexerModel LexerProofs
  ParserModel ParserSpec FrontModel DriverModel DriverSpec DriverProperties UsesSpec DfgSpec FaithSpec TypingSpec
  DceProperties CompleteSpec CompleteProofs RawSpec RegularProofs.

(** Functions, blocks and values of the programs of accepted texts are exactly those that are
    listed: all functions are in the layout, blocks are exactly those in the layout, values are
    parameters, listed instructions, and constants that those are written with.  Parameters are
    numbered in order and have the types of the signature. *)
Theorem C58_complete : ∀ r p, returned r p → complete p.
Proof.
  intros r p (n & b & s & ts & s' & H1 & H2 & H3 & H4).
  exact (proj1 (read_complete _ _ _ _ _ _ _ H1 H2 H3 H4)).
Qed.
Print Assumptions C58_complete.

(** The programs of accepted texts are regular: the hypothesis of the round trip over raw
    programs (C40) and of building them (C53) holds. *)
Theorem C58_regular : ∀ r p, returned r p → regular p.
Proof.
  intros r p (n & b & s & ts & s' & H1 & H2 & H3 & H4).
  exact (front_regular _ (read_front _ _ _ _ _ _ _ H1 H2 H3 H4)).
Qed.
Print Assumptions C58_regular.

(** A text with a block that cannot be reached, and with constants in instructions and in an
    initializer. *)
Definition spare_text : string :=
  "global @g = alloc [i32, 2], {1, zeroinit} decl @p(i32)
   fun @f(@n: i32): i32 {
   %entry: %a = add @n, 7 jump %out(%a)
   %spare: %s = mul @n, 3 jump %out(%s)
   %out(%x: i32): call @p(5) ret %x
   }".
Definition sizes (p : program) : list (nat * nat) * nat :=
  ((λ f, match p_funcs p !! f with Some fd => (base.size (blks fd), base.size (vals fd)) | None => (0, 0) end) <$> p_func_layout p,
   base.size (p_values p)).
(** The function has two of the three blocks, and 8 values: the parameters [@n] and [%x], the
    four instructions, and 7 and 5; there are 4 global values. *)
Example C58_example : ∃ p, returned (RByte <$> String.list_ascii_of_string spare_text) p ∧
  complete p ∧ regular p ∧ sizes p = ([(0, 0); (2, 8)], 4).
Proof.
  destruct (returned_check spare_text) as [p Hr]; [vm_compute; reflexivity..|].
  pose proof (program_of_ok _ _ _ eq_refl Hr) as E.
  assert (HS : sizes p = ([(0, 0); (2, 8)], 4)) by (rewrite E; vm_compute; reflexivity).
  exists p. split; [exact Hr|]. split; [exact (C58_complete _ _ Hr)|]. split; [exact (C58_regular _ _ Hr)|exact HS].
Qed.
