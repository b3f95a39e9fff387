(** Definitions that dominate their uses (C59), on programs. *)
From Verif Require Import Base IdModel TypeModel IrModel LayoutModel DfgSpec UsesSpec ScopeSpec.

Section domin.
Context (fd : fdata).
(** Control gets from the start of the function to the block [b], through the blocks [l], the
    last of which comes first. *)
Inductive gets_to : list bblock → bblock → Prop :=
  | gt_first b : first_block fd b → gets_to [b] b
  | gt_next l b c : gets_to l b → flows_to fd b c → gets_to (c :: l) c.
(** Whenever control gets to [b], it has come through [c]. *)
Definition dominates (c b : bblock) : Prop := ∀ l, gets_to l b → c ∈ l.
(** The value [u] is a parameter or an instruction of the block [c]. *)
Definition defined_at (u : value) (c : bblock) : Prop :=
  (∃ d, blks fd !! c = Some d ∧ u ∈ bb_params d) ∨ ∃ insts, (c, insts) ∈ l_bbs (f_layout fd) ∧ u ∈ insts.
(** What an instruction uses is defined in a block that dominates the block of the instruction. *)
Definition dominated : Prop :=
  ∀ b insts v d u c, (b, insts) ∈ l_bbs (f_layout fd) → v ∈ insts → vals fd !! v = Some d →
    u ∈ operands (v_kind d) → defined_at u c → dominates c b.
End domin.
(** How many values, blocks and functions a program has. *)
Definition parts (p : program) : nat :=
  base.size (p_values p) +
  sum_list ((λ e : func * fdata, 1 + base.size (vals e.2) + base.size (blks e.2)) <$> map_to_list (p_funcs p)).
