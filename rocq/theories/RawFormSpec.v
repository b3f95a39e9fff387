(** What the raw form of a program says about the program (C53). *)
From Verif Require Import Base IdModel TypeModel IrModel LayoutModel BuilderModel WorldModel UsesSpec DfgSpec
  RawModel RawSpec.

(** The pointers of the raw form lead somewhere: to a structure that is filled in. *)
Definition there (h : heap) (t : task) : Prop :=
  match t with
  | TVal v => ∃ x, h_vals h !! v = Some (Some x)
  | TBlk b => ∃ x, h_bbs h !! b = Some (Some x)
  | TFunc f => ∃ x, h_funcs h !! f = Some (Some x)
  end.
(** [u] has [v] as an operand; [u] jumps to [b]. *)
Definition user_of (p : program) (u v : value) : Prop := ∃ d, value_of p u d ∧ v ∈ operands (v_kind d).
Definition jump_of (p : program) (u : value) (b : bblock) : Prop := ∃ d, value_of p u d ∧ b ∈ targets (v_kind d).

Record raw_value_of (p : program) (h : heap) (v : value) (x : rvalue) (d : vdata) : Prop := {
  ra_value : value_of p v d;
  ra_ty : rv_ty x = v_ty d;
  ra_name : rv_name x = v_name d;
  ra_kind : rv_kind x = v_kind d;
  ra_users : ∀ u, u ∈ rv_used_by x ↔ user_of p u v;
  ra_refs : ∀ t, t ∈ refs (v_kind d) → there h t;
  ra_users_there : ∀ u, u ∈ rv_used_by x → there h (TVal u);
}.
Record raw_block_of (p : program) (h : heap) (b : bblock) (x : rblock) (d : bbdata) (is : list value) : Prop := {
  ra_block : block_of p b d is;
  ra_bb_name : rb_name x = bb_name d;
  ra_bb_params : rb_params x = bb_params d;
  ra_bb_insts : rb_insts x = is;
  ra_jumps : ∀ u, u ∈ rb_used_by x ↔ jump_of p u b;
  ra_params_there : ∀ v, v ∈ bb_params d → there h (TVal v);
  ra_insts_there : ∀ v, v ∈ is → there h (TVal v);
  ra_jumps_there : ∀ u, u ∈ rb_used_by x → there h (TVal u);
}.
Record raw_func_of (p : program) (h : heap) (f : func) (x : rfunc) (fd : fdata) : Prop := {
  ra_func : p_funcs p !! f = Some fd;
  ra_f_ty : rf_ty x = f_ty fd;
  ra_f_name : rf_name x = f_name fd;
  ra_f_params : rf_params x = f_params fd;
  ra_f_bbs : rf_bbs x = (l_bbs (f_layout fd)).*1;
  ra_f_params_there : ∀ v, v ∈ f_params fd → there h (TVal v);
  ra_f_bbs_there : ∀ b, b ∈ (l_bbs (f_layout fd)).*1 → there h (TBlk b);
}.
(** The raw program [r], in the memory [h], is [p]: it lists the global variables and functions
    of [p], every structure in [h] is filled in with the data of the program, with the users that
    values and blocks have in the program, and all pointers lead to structures in [h]. *)
Record raw_form (p : program) (r : rprogram) (h : heap) : Prop := {
  ra_values : r_values r = p_inst_layout p;
  ra_funcs : r_funcs r = p_func_layout p;
  ra_values_there : ∀ v, v ∈ p_inst_layout p → there h (TVal v);
  ra_funcs_there : ∀ f, f ∈ p_func_layout p → there h (TFunc f);
  ra_each_value : ∀ v e, h_vals h !! v = Some e → ∃ x d, e = Some x ∧ raw_value_of p h v x d;
  ra_each_block : ∀ b e, h_bbs h !! b = Some e → ∃ x d is, e = Some x ∧ raw_block_of p h b x d is;
  ra_each_func : ∀ f e, h_funcs h !! f = Some e → ∃ x fd, e = Some x ∧ raw_func_of p h f x fd;
}.
