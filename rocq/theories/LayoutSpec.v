(** What a layout should be: independent vocabulary for C13 and C14. *)
From Verif Require Import Base IrModel LayoutModel.

(** [l'] is [l] with [x] put exactly at the requested place. *)
Definition placed {A} (key : A → N) (pl : place) (x : A) (l l' : list A) : Prop :=
  match pl with
  | Front => l' = x :: l
  | Back => l' = l ++ [x]
  | Before k => ∃ l1 y l2, l = l1 ++ y :: l2 ∧ key y = k ∧ l' = l1 ++ x :: y :: l2
  | After k => ∃ l1 y l2, l = l1 ++ y :: l2 ∧ key y = k ∧ l' = l1 ++ y :: x :: l2
  end.

(** The place exists. *)
Definition place_ok (pl : place) (keys : list N) : Prop :=
  match pl with Front | Back => True | Before k | After k => k ∈ keys end.

(** The blocks in order. *)
Definition blocks (l : layout) : list N := map fst (l_bbs l).

(** Instruction [v] is currently in the instruction list of block [b]. *)
Definition in_block (l : layout) (v b : N) : Prop := ∃ is, (b, is) ∈ l_bbs l ∧ v ∈ is.

(** The order in which a program is read off a layout never lists anything twice. *)
Definition no_duplicates (l : layout) : Prop :=
  NoDup (blocks l) ∧ ∀ b is, (b, is) ∈ l_bbs l → NoDup is.

(** [l'] differs from [l] only in the instruction list of block [b], which went from
    [is] to [is']. *)
Definition only_block (b : N) (is is' : list N) (l l' : layout) : Prop :=
  ∃ l1 l2, l_bbs l = l1 ++ (b, is) :: l2 ∧ l_bbs l' = l1 ++ (b, is') :: l2.

(** The discipline of C14: an instruction is inserted only while it is in no block;
    an instruction list is cleared, and a block removed, only when it is empty. *)
Definition disciplined (o : lop) (l : layout) : Prop :=
  match o with
  | LInsert _ _ v => ∀ b, ¬ in_block l v b
  | LClear b | LBbRemove b => ∀ v, ¬ in_block l v b
  | LBbClear => ∀ v b, ¬ in_block l v b
  | _ => True
  end.

(** Every operation of a history is performed under the discipline. *)
Fixpoint all_disciplined (os : list lop) (l : layout) : Prop :=
  match os with
  | [] => True
  | o :: os' => disciplined o l ∧ ∀ l', lstep o l = Some l' → all_disciplined os' l'
  end.
