(** What a program needs so that its raw form can be made and read back (C40). *)
From Verif Require Import Base IdModel TypeModel IrModel LayoutModel BuilderModel WorldModel UsesSpec DfgSpec
  TypingSpec AcceptSpec RawModel RawSpec.

(** A name that can be written as a C string and set on a value. *)
Definition c_name_ok (s : string) : Prop := well_named s ∧ Ascii.zero ∉ String.list_ascii_of_string s.
(** [o] is what a walk through the program meets. *)
Record buildable (p : program) (o : list task) : Prop := {
  (** the users of values and blocks are recorded, and are met *)
  bu_users : use_lists_exact p;
  bu_met : ∀ u d, value_of p u d → refs (v_kind d) ≠ [] → TVal u ∈ o;
  (** global values are constants and global variables *)
  bu_global : ∀ v d, p_values p !! v = Some d → is_const (v_kind d) = true ∨ ∃ i, v_kind d = KGlobalAlloc i;
  (** names *)
  bu_vname : ∀ v d s, value_of p v d → v_name d = Some s → c_name_ok s;
  bu_bname : ∀ f fd b d s, p_funcs p !! f = Some fd → blks fd !! b = Some d → bb_name d = Some s → c_name_ok s;
  bu_fname : ∀ f fd, p_funcs p !! f = Some fd → c_name_ok (f_name fd);
  (** an instruction is listed once in its block, and functions have no parameters of type unit *)
  bu_insts : ∀ f fd b is, p_funcs p !! f = Some fd → (b, is) ∈ l_bbs (f_layout fd) → NoDup is;
  bu_unit : ∀ f fd ts r, p_funcs p !! f = Some fd → f_ty fd = TFun ts r → TUnit ∉ ts;
}.
(** [k] more values, blocks and functions can be made. *)
Definition numbers_left (k : N) (i : ids) : Prop :=
  (0 < next_lv i ∧ next_lv i + k < two32 ∧ 0 < next_bb i ∧ next_bb i + k < two32 ∧
   0 < next_fn i ∧ next_fn i + k < two32)%N.
(** [ord] lists the elements of a set, in some order. *)
Definition lists_sets (ord : gset N → list N) : Prop := ∀ s x, x ∈ ord s ↔ x ∈ s.
