(** Where the operands of instructions come from (C50): a value is only used where it has been
    computed before in the order of the layout, in a block from which control can get to the
    use.  Nothing here mentions the front end or names. *)
From Verif Require Import Base IdModel TypeModel IrModel LayoutModel DfgSpec UsesSpec TypingSpec.

Section scope.
Context (p : program) (fd : fdata).
(** The block [b] ends with a jump or branch that can go to [c]. *)
Definition flows_to (b c : bblock) : Prop :=
  ∃ insts v d, (b, insts) ∈ l_bbs (f_layout fd) ∧ list.last insts = Some v ∧
    vals fd !! v = Some d ∧ c ∈ targets (v_kind d).
Definition first_block (b : bblock) : Prop := head (map fst (l_bbs (f_layout fd))) = Some b.
Definition has_result (u : value) : Prop := ∃ d, vals fd !! u = Some d ∧ v_ty d ≠ TUnit.
(** [u] can be used in the block [b] after the instructions [before] of [b], where the blocks
    [front] are before [b]: it is a parameter of the function; a parameter of a block, but not
    of the first one; the result of an instruction of a block of [front]; or of one of
    [before].  Instructions whose type is the unit type have no result. *)
Inductive available (front : list (bblock * list value)) (b : bblock) (before : list value)
    (u : value) : Prop :=
  | av_arg : u ∈ f_params fd → available front b before u
  | av_param c d : rtc flows_to c b → ¬ first_block c → blks fd !! c = Some d →
      u ∈ bb_params d → available front b before u
  | av_earlier c insts : rtc flows_to c b → (c, insts) ∈ front → u ∈ insts →
      has_result u → available front b before u
  | av_here : u ∈ before → has_result u → available front b before u.
(** Global variables and constants can be used everywhere. *)
Definition anywhere (u : value) : Prop :=
  u ∈ p_inst_layout p ∨ ∃ e, vals fd !! u = Some e ∧ is_const (v_kind e) = true.
Definition scoped : Prop :=
  (∀ front b before v after rest d u,
     l_bbs (f_layout fd) = front ++ (b, before ++ v :: after) :: rest →
     vals fd !! v = Some d → u ∈ operands (v_kind d) → anywhere u ∨ available front b before u) ∧
  (∀ b c, flows_to b c → ¬ first_block c).
(** Functions whose result type is the unit type return nothing; the others return values of
    the result type. *)
Definition returns_fit : Prop :=
  ∃ ts t, f_ty fd = TFun ts t ∧
    ∀ b insts v d, (b, insts) ∈ l_bbs (f_layout fd) → v ∈ insts → vals fd !! v = Some d →
      match v_kind d with
      | KReturn None => t = TUnit
      | KReturn (Some u) => t ≠ TUnit ∧ e_ty (local_env p fd) u = Some t
      | _ => True
      end.
End scope.
