(** What structural equality of values means: equality of their unfoldings into trees
    (C12). *)
From Verif Require Import Base TypeModel IrModel BuilderModel WorldModel UsesSpec DfgSpec.

(** A value kind with the identity of its operands forgotten. *)
Definition shape (k : vkind) : vkind :=
  match k with
  | KInteger z => KInteger z
  | KZeroInit => KZeroInit
  | KUndef => KUndef
  | KAggregate l => KAggregate (map (λ _, 0%N) l)
  | KFuncArg i => KFuncArg i
  | KBlockArg i => KBlockArg i
  | KAlloc => KAlloc
  | KGlobalAlloc _ => KGlobalAlloc 0
  | KLoad _ => KLoad 0
  | KStore _ _ => KStore 0 0
  | KGetPtr _ _ => KGetPtr 0 0
  | KGetElemPtr _ _ => KGetElemPtr 0 0
  | KBinary op _ _ => KBinary op 0 0
  | KBranch _ t f ta fa => KBranch 0 t f (map (λ _, 0%N) ta) (map (λ _, 0%N) fa)
  | KJump t a => KJump t (map (λ _, 0%N) a)
  | KCall c a => KCall c (map (λ _, 0%N) a)
  | KReturn v => KReturn ((λ _, 0%N) <$> v)
  end.

(** The expression denoted by a value: type, shape, and the expressions of the operands
    (names and handles are forgotten). *)
Inductive tree := Node (t : ty) (k : vkind) (ts : list tree).

(** [v] unfolds to the (finite) tree. *)
Inductive unfolds (m : gmap N vdata) : N → tree → Prop :=
  | unfolds_node v d ts :
      m !! v = Some d → Forall2 (unfolds m) (operands (v_kind d)) ts →
      unfolds m v (Node (v_ty d) (shape (v_kind d)) ts).

(** Calls that change an existing value. *)
Definition rewrites (o : op) : bool :=
  match o with OReplace _ _ _ | OReplaceRaw _ _ _ _ _ | OUpdate _ _ _ => true | _ => false end.
