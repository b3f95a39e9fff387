(** Programs that keep their pointers to themselves (C66). *)
From Verif Require Import Base IdModel TypeModel IrModel LayoutModel ArithModel DfgSpec UsesSpec TypingSpec.

Record keeping (p : program) : Prop := {
  (** Integers are stored anywhere, pointers only in what the function itself allocated, and
      arrays are not stored. *)
  kp_store : ∀ f fd v d x dest t, p_funcs p !! f = Some fd → vals fd !! v = Some d → v_kind d = KStore x dest →
    e_ty (local_env p fd) x = Some t →
    t = TInt32 ∨ ∃ t' e, t = TPtr t' ∧ vals fd !! dest = Some e ∧ v_kind e = KAlloc;
  (** Functions return integers or nothing. *)
  kp_return : ∀ f fd ts t, p_funcs p !! f = Some fd → f_ty fd = TFun ts t → t = TInt32 ∨ t = TUnit;
  (** Foreign functions get integers. *)
  kp_foreign : ∀ f fd ts t, p_funcs p !! f = Some fd → l_bbs (f_layout fd) = [] → f_ty fd = TFun ts t →
    Forall (λ t, t = TInt32) ts;
}.
