(** What dead code elimination has to keep: independent vocabulary for C42. *)
From Verif Require Import Base TypeModel IrModel LayoutModel UsesSpec DfgSpec LayoutSpec DceModel.

(** Instructions with an effect: they write memory, call, or pass control. *)
Definition effectful (k : vkind) : Prop :=
  match k with
  | KStore _ _ | KCall _ _ | KBranch _ _ _ _ _ | KJump _ _ | KReturn _ => True
  | _ => False
  end.
(** Operands that are used as such, that is, all but the arguments passed to a block. *)
Definition direct (k : vkind) : list value :=
  match k with
  | KBranch c _ _ _ _ => [c]
  | KJump _ _ => []
  | _ => operands k
  end.
(** [k] passes [a] as argument number [i] to block [b]. *)
Definition passes (k : vkind) (b : bblock) (i : nat) (a : value) : Prop :=
  match k with
  | KJump t args => t = b ∧ args !! i = Some a
  | KBranch _ t f ta fa => (t = b ∧ ta !! i = Some a) ∨ (f = b ∧ fa !! i = Some a)
  | _ => False
  end.

(** What an execution can depend on: instructions with an effect, their operands, the
    operands of what is needed, and the arguments passed for needed parameters. *)
Inductive needed (vs : gmap N vdata) (bs : gmap N bbdata) : value → Prop :=
  | N_effect v d : vs !! v = Some d → effectful (v_kind d) → needed vs bs v
  | N_operand u d v : needed vs bs u → vs !! u = Some d → v ∈ direct (v_kind d) →
      is_Some (vs !! v) → needed vs bs v
  | N_argument b bd i p u d a : needed vs bs p → bs !! b = Some bd → bb_params bd !! i = Some p →
      vs !! u = Some d → passes (v_kind d) b i a → is_Some (vs !! a) → needed vs bs a.

(** The values that exist in [m]. *)
Definition alive (m : gmap N vdata) (v : value) : Prop := is_Some (m !! v).
(** The members of [l] whose parameter, the one at the same position of [ps], exists. *)
Fixpoint still {A} (m : gmap N vdata) (ps : list value) (l : list A) : list A :=
  match ps, l with
  | p :: ps', x :: l' => if decide (alive m p) then x :: still m ps' l' else still m ps' l'
  | _, _ => l
  end.
(** The arguments passed to block [b], without those whose parameter does not exist. *)
Definition still_passed (m : gmap N vdata) (bs : gmap N bbdata) (b : bblock) (args : list value)
    : list value :=
  match bs !! b with Some bd => still m (bb_params bd) args | None => args end.
Definition trimmed (m : gmap N vdata) (bs : gmap N bbdata) (k : vkind) : vkind :=
  match k with
  | KJump b args => KJump b (still_passed m bs b args)
  | KBranch c t f ta fa => KBranch c t f (still_passed m bs t ta) (still_passed m bs f fa)
  | _ => k
  end.

(** The values and blocks of [fd'] are those of [fd], without some values, and with the
    arguments dropped whose parameter is gone. *)
Definition shrunk (vs : gmap N vdata) (bs : gmap N bbdata) (vs' : gmap N vdata)
    (bs' : gmap N bbdata) : Prop :=
  (∀ v x', vs' !! v = Some x' → ∃ x, vs !! v = Some x ∧ v_ty x' = v_ty x ∧
     v_name x' = v_name x ∧ v_kind x' = trimmed vs' bs (v_kind x)) ∧
  (∀ b, (λ d, (bb_name d, bb_params d)) <$> bs' !! b =
        (λ d, (bb_name d, filter (alive vs') (bb_params d))) <$> bs !! b).
(** The layout [l'] lists what [l] lists and still exists. *)
Definition relisted (m : gmap N vdata) (l l' : layout) : Prop :=
  l_bbs l' = map (λ x, (x.1, filter (alive m) x.2)) (l_bbs l) ∧
  ∀ v, l_inst_bb l' !! v = if decide (alive m v) then l_inst_bb l !! v else None.

(** The use lists of one function within a program with the global values [gs], where [E v u]
    says that [u], outside of the function, uses the global value [v]. *)
Record graph_ok (E : value → value → Prop) (gs vs : gmap N vdata) (bs : gmap N bbdata) : Prop := {
  go_glob : ∀ v d, gs !! v = Some d → ∀ u, u ∈ v_used_by d ↔ E v u ∨ uses vs u v;
  go_loc : ∀ v d, vs !! v = Some d → ∀ u, u ∈ v_used_by d ↔ uses vs u v;
  go_bb : ∀ b d, bs !! b = Some d → ∀ u, u ∈ bb_used_by d ↔ jumps_to vs u b;
  go_ex : ∀ u v, uses vs u v → is_Some (gs !! v) ∨ is_Some (vs !! v);
  go_bex : ∀ u b, jumps_to vs u b → is_Some (bs !! b);
  go_disj : ∀ v, is_Some (gs !! v) → vs !! v = None;
  go_irr : ∀ v, ¬ uses vs v v;
  go_out : ∀ v u, E v u → vs !! u = None;
}.

(** The shape of a function in which dead code is eliminated: parameters of blocks are
    parameters, a branch to one block in both cases passes nothing, blocks and instructions
    are listed once, and what is listed are instructions. *)
Record shape_ok (vs : gmap N vdata) (bs : gmap N bbdata) (l : layout) : Prop := {
  so_param : ∀ b bd p, bs !! b = Some bd → p ∈ bb_params bd →
    ∃ d i, vs !! p = Some d ∧ v_kind d = KBlockArg i;
  so_apart : ∀ v d c t ta fa, vs !! v = Some d → v_kind d = KBranch c t t ta fa →
    ta = [] ∧ fa = [];
  so_once : no_duplicates l;
  so_listed : ∀ v b, in_block l v b → ∃ d, vs !! v = Some d ∧ is_local_inst (v_kind d) = true;
  so_parent : ∀ v b, l_inst_bb l !! v = Some b ↔ in_block l v b;
}.

(** What dead code elimination needs in order not to panic: no value of the function uses a
    global value (or anything else from outside), every instruction is in a block, only
    instructions use instructions, the result of an instruction without effect can be
    [undef], and no value is the parameter of two blocks, or twice of one. *)
Record tame (vs : gmap N vdata) (bs : gmap N bbdata) (l : layout) : Prop := {
  ta_local : ∀ u v, uses vs u v → is_Some (vs !! v);
  ta_all : ∀ v d, vs !! v = Some d → is_local_inst (v_kind d) = true → ∃ b, in_block l v b;
  ta_inst : ∀ u d v d', vs !! u = Some d → v ∈ operands (v_kind d) → vs !! v = Some d' →
    is_local_inst (v_kind d') = true → is_local_inst (v_kind d) = true;
  ta_value : ∀ v d, vs !! v = Some d → is_local_inst (v_kind d) = true →
    effectful (v_kind d) ∨ v_ty d ≠ TUnit;
  ta_once : ∀ b bd, bs !! b = Some bd → NoDup (bb_params bd);
  ta_apart : ∀ b bd c cd p, bs !! b = Some bd → bs !! c = Some cd → p ∈ bb_params bd →
    p ∈ bb_params cd → b = c;
}.
(** The marks left by earlier functions do not concern the function. *)
Definition foreign (live : gset N) (vs : gmap N vdata) : Prop := ∀ v, v ∈ live → vs !! v = None.

(** Iterating over a hash table visits every entry once, in some order. *)
Record fair (o : dce_orders) : Prop := {
  fo_values : ∀ m, NoDup (o_values o m) ∧ ∀ v, v ∈ o_values o m ↔ is_Some (m !! v);
  fo_bbs : ∀ m, NoDup (o_bbs o m) ∧ ∀ b, b ∈ o_bbs o m ↔ is_Some (m !! b);
  fo_todo1 : ∀ l, o_todo1 o l ≡ₚ l;
  fo_todo2 : ∀ l, o_todo2 o l ≡ₚ l;
  fo_unused : ∀ l, o_unused o l ≡ₚ l;
  fo_set : ∀ s, NoDup (o_set o s) ∧ ∀ v, v ∈ o_set o s ↔ v ∈ s;
}.

(** Global values, and the values of every function, are different values; nothing is its
    own operand. *)
Record separated (p : program) : Prop := {
  sp_global : ∀ f fd v, p_funcs p !! f = Some fd → is_Some (p_values p !! v) → vals fd !! v = None;
  sp_local : ∀ f f' fd fd' v, p_funcs p !! f = Some fd → p_funcs p !! f' = Some fd' → f ≠ f' →
    is_Some (vals fd !! v) → vals fd' !! v = None;
  sp_self : ∀ f fd v, p_funcs p !! f = Some fd → ¬ uses (vals fd) v v;
}.
(** Functions of the shape above. *)
Definition shapes_ok (p : program) : Prop :=
  ∀ f fd, p_funcs p !! f = Some fd → shape_ok (vals fd) (blks fd) (f_layout fd).
Definition all_tame (p : program) : Prop :=
  ∀ f fd, p_funcs p !! f = Some fd → tame (vals fd) (blks fd) (f_layout fd).

(** What can be removed: instructions and parameters of blocks. *)
Definition removable (k : vkind) : Prop := is_local_inst k = true ∨ ∃ i, k = KBlockArg i.
(** [fd'] is [fd] without dead code: the values that remain are unchanged but for the
    arguments of dropped parameters, what is needed remains, and the blocks list what they
    listed and remains; only instructions and parameters of blocks are removed. *)
Record cleaned (fd fd' : fdata) : Prop := {
  cl_shrunk : shrunk (vals fd) (blks fd) (vals fd') (blks fd');
  cl_needed : ∀ v, needed (vals fd) (blks fd) v → alive (vals fd') v;
  cl_listed : relisted (vals fd') (f_layout fd) (f_layout fd');
  cl_ty : f_ty fd' = f_ty fd;
  cl_name : f_name fd' = f_name fd;
  cl_params : f_params fd' = f_params fd;
  cl_kept : ∀ v x, vals fd !! v = Some x → alive (vals fd') v ∨ removable (v_kind x);
}.
(** Programs whose global values differ in their use lists only, with the same functions in
    the same order, each without dead code. *)
Record cleaned_program (p p' : program) : Prop := {
  cp_values : ∀ v, clone_vdata <$> p_values p' !! v = clone_vdata <$> p_values p !! v;
  cp_inst : p_inst_layout p' = p_inst_layout p;
  cp_tys : p_func_tys p' = p_func_tys p;
  cp_layout : p_func_layout p' = p_func_layout p;
  cp_funcs : ∀ f, match p_funcs p !! f, p_funcs p' !! f with
    | Some fd, Some fd' => cleaned fd fd'
    | None, None => True
    | _, _ => False
    end;
}.

(** No function of the program uses a global value. *)
Definition no_globals_used (p : program) : Prop :=
  ∀ f fd u v, p_funcs p !! f = Some fd → uses (vals fd) u v → p_values p !! v = None.
