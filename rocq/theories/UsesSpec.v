(** What the operands of a value are: independent of the iterator machinery. *)
From Verif Require Import Base TypeModel IrModel.

(** Operands of a value kind, in the order documented for each instruction. *)
Definition operands (k : vkind) : list value :=
  match k with
  | KAggregate l => l
  | KGlobalAlloc v => [v]
  | KLoad v => [v]
  | KStore v d => [v; d]
  | KGetPtr s i => [s; i]
  | KGetElemPtr s i => [s; i]
  | KBinary _ l r => [l; r]
  | KBranch c _ _ ta fa => c :: ta ++ fa
  | KJump _ a => a
  | KCall _ a => a
  | KReturn (Some v) => [v]
  | _ => []
  end.

(** Target blocks of a value kind. *)
Definition targets (k : vkind) : list bblock :=
  match k with
  | KBranch _ t f _ _ => [t; f]
  | KJump t _ => [t]
  | _ => []
  end.
