(** Programs that do not go wrong in the interpreter (C65). *)
From Verif Require Import Base IdModel TypeModel IrModel LayoutModel ArithModel DfgSpec UsesSpec.

(** The types of what can be in memory: integers, pointers and arrays of these. *)
Fixpoint data_ty (t : ty) : Prop :=
  match t with
  | TInt32 | TPtr _ => True
  | TArray base _ => data_ty base
  | _ => False
  end.
(** All values of a program, global ones and those of functions *)
Definition every_value (p : program) (P : vdata → Prop) : Prop :=
  (∀ v d, p_values p !! v = Some d → P d) ∧
  ∀ f fd v d, p_funcs p !! f = Some fd → vals fd !! v = Some d → P d.
(** Nothing is undefined. *)
Definition no_undef (p : program) : Prop := every_value p (λ d, v_kind d ≠ KUndef).
(** What is allocated or filled with zeros is data. *)
Definition only_data (p : program) : Prop :=
  every_value p (λ d, match v_kind d with
                      | KZeroInit => data_ty (v_ty d)
                      | KAlloc => match v_ty d with TPtr t => data_ty t | _ => True end
                      | _ => True
                      end).
(** The operators that the program uses work on all integers: neither do they divide, nor are
    there checks for overflow. *)
Definition no_traps (checks : bool) (p : program) : Prop :=
  every_value p (λ d, ∀ op l r, v_kind d = KBinary op l r →
    match op with
    | Div | Mod_ => False
    | Add | Sub | Mul | Shl | Shr | Sar => checks = false
    | _ => True
    end).
(** Functions that are called [@main] have no parameters. *)
Definition plain_main (p : program) : Prop :=
  ∀ f fd, p_funcs p !! f = Some fd → f_name fd = "@main"%string → ∃ t, f_ty fd = TFun [] t.
