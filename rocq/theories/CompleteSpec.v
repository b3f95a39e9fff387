(** What it means that a program has nothing but what is listed (C58): no block that is not in a
    layout, and no value that is not a parameter, an instruction of a listed block, or a constant
    that such an instruction is written with. *)
From Verif Require Import Base IdModel TypeModel IrModel LayoutModel UsesSpec DfgSpec FaithSpec.

(** The constant [u] is [v], or part of the aggregate [v]. *)
Inductive part_of (D : gmap N (ty * vkind)) : value → value → Prop :=
  | po_self v : part_of D v v
  | po_elem v t vs e u : D !! v = Some (t, KAggregate vs) → e ∈ vs → part_of D e u → part_of D v u.

(** The values [ps] are the parameters number 0, 1, ... *)
Definition numbered (D : gmap N (ty * vkind)) (arg : N → vkind) (ps : list value) (ts : list ty) : Prop :=
  NoDup ps ∧ length ps = length ts ∧
  ∀ (j : nat) v t, ps !! j = Some v → ts !! j = Some t → D !! v = Some (t, arg (N.of_nat j)).

(** The value [u] of the function [fd]. *)
Inductive belongs (fd : fdata) (u : value) : Prop :=
  | be_arg : u ∈ f_params fd → belongs fd u
  | be_param b d : blks fd !! b = Some d → u ∈ bb_params d → belongs fd u
  | be_inst b is : (b, is) ∈ l_bbs (f_layout fd) → u ∈ is → belongs fd u
  | be_const b is v d r : (b, is) ∈ l_bbs (f_layout fd) → v ∈ is → vals fd !! v = Some d →
      r ∈ operands (v_kind d) → part_of (datas (vals fd)) r u → belongs fd u.
Record complete_fun (fd : fdata) : Prop := {
  cf_blocks : ∀ b, is_Some (blks fd !! b) ↔ b ∈ (l_bbs (f_layout fd)).*1;
  cf_values : ∀ u, is_Some (vals fd !! u) → belongs fd u;
  cf_args : ∃ ts r, f_ty fd = TFun ts r ∧
    (blks fd ≠ ∅ → numbered (datas (vals fd)) KFuncArg (f_params fd) ts) ∧ (blks fd = ∅ → f_params fd = []);
  cf_params : ∀ b d, blks fd !! b = Some d → ∃ ts, numbered (datas (vals fd)) KBlockArg (bb_params d) ts;
}.
Record complete (p : program) : Prop := {
  cp_funcs : ∀ f fd, p_funcs p !! f = Some fd → f ∈ p_func_layout p ∧ complete_fun fd;
  cp_values : ∀ u, is_Some (p_values p !! u) → u ∈ p_inst_layout p ∨
    ∃ v d init, v ∈ p_inst_layout p ∧ p_values p !! v = Some d ∧ v_kind d = KGlobalAlloc init ∧
      part_of (datas (p_values p)) init u;
}.
