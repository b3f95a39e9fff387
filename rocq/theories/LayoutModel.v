(** Model of koopa/src/ir/layout.rs.

    [KeyNodeList] is an external crate (key-node-list 0.0.6) whose source is not in
    /repo.  We model a [KeyNodeList<K, N, M>] as the list of its (key, node) pairs in
    order; its operations call [Map::insert], [Map::remove_entry] and [Map::clear],
    which /repo implements, and relink the neighbours. *)
From Verif Require Import Base IdModel TypeModel IrModel.

(** Result of an insertion: new state, or [Err((k, v))] with the state unchanged
    (Result of [Map::insert], koopa/src/ir/layout.rs:125,244). *)
Inductive ins_res (A : Type) := Inserted (a : A) | Duplicate.
Arguments Inserted {A}. Arguments Duplicate {A}.

(** Where a key is inserted ([push_key_front], [push_key_back],
    [CursorMut::insert_key_before], [CursorMut::insert_key_after]; listed in
    koopa/src/ir/layout.rs:76-80,195-199). *)
Inductive place := Front | Back | Before (at_ : N) | After (at_ : N).

(** Insert [x] relative to the element with key [k]; [None] if there is no such
    element (a client cannot obtain a cursor at it).  The crate key_node_list, as used by
    koopa/src/ir/layout.rs:71-85, 189-202. *)
Fixpoint insert_at {A} (key : A → N) (after : bool) (k : N) (x : A) (l : list A)
    : option (list A) :=
  match l with
  | [] => None
  | y :: l' =>
      if (key y =? k)%N
      then Some (if after then y :: x :: l' else x :: y :: l')
      else r ← insert_at key after k x l'; Some (y :: r)
  end.

(** The position of a new key in the order of a [KeyNodeList]
    (koopa/src/ir/layout.rs:71-85, 189-202). *)
Definition place_in {A} (key : A → N) (pl : place) (x : A) (l : list A)
    : option (list A) :=
  match pl with
  | Front => Some (x :: l)
  | Back => Some (l ++ [x])
  | Before k => insert_at key false k x l
  | After k => insert_at key true k x l
  end.

(** Key lookup in the underlying maps (koopa/src/ir/layout.rs:109-115,228-234). *)
Definition has_key {A} (key : A → N) (k : N) (l : list A) : bool :=
  existsb (λ x, (key x =? k)%N) l.

(** Remove the entry with key [k] and relink ([KeyNodeList::remove] through
    [Map::remove_entry], koopa/src/ir/layout.rs:138-144,263-279). *)
Definition remove_key {A} (key : A → N) (k : N) (l : list A) : list A :=
  filter (λ x, negb (key x =? k)%N) l.

(** The instruction list of block [b] (koopa/src/ir/layout.rs:109-115). *)
Fixpoint find_bb (b : bblock) (l : list (bblock * list value)) : option (list value) :=
  match l with
  | [] => None
  | (b', is) :: l' => if (b' =? b)%N then Some is else find_bb b l'
  end.

(** Replace the instruction list of block [b] ([node_mut],
    koopa/src/ir/layout.rs:43-45,117-123,172-174). *)
Fixpoint set_bb (b : bblock) (is : list value) (l : list (bblock * list value))
    : list (bblock * list value) :=
  match l with
  | [] => []
  | (b', is') :: l' =>
      if (b' =? b)%N then (b', is) :: l' else (b', is') :: set_bb b is l'
  end.

(** Insertion of a block, koopa/src/ir/layout.rs:125-136 [BasicBlockMap::insert]:
    the new node has an empty instruction list (158-164). *)
Definition bb_insert (pl : place) (b : bblock) (l : layout) : option (ins_res layout) :=
  if has_key fst b (l_bbs l) then Some Duplicate
  else bs ← place_in fst pl (b, []) (l_bbs l); Some (Inserted (Layout bs (l_inst_bb l))).

(** Removal of a block, koopa/src/ir/layout.rs:138-144
    [BasicBlockMap::remove_entry]: [inst_bb] is not touched. *)
Definition bb_remove (b : bblock) (l : layout) : layout :=
  Layout (remove_key fst b (l_bbs l)) (l_inst_bb l).

(** [bbs_mut().clear()], koopa/src/ir/layout.rs:105-107 [BasicBlockMap::clear]:
    [inst_bb] is not touched. *)
Definition bb_clear (l : layout) : layout := Layout [] (l_inst_bb l).

(** Insertion of an instruction into block [b], koopa/src/ir/layout.rs:244-261
    [InstMap::insert]; only duplicates in the same block are detected; [inst_bb] is
    overwritten.  Panics if [b] is not in the layout (43-45). *)
Definition inst_insert (pl : place) (b : bblock) (v : value) (l : layout)
    : option (ins_res layout) :=
  is ← find_bb b (l_bbs l);
  if has_key id v is then Some Duplicate
  else is' ← place_in id pl v is;
       Some (Inserted (Layout (set_bb b is' (l_bbs l)) (<[v := b]> (l_inst_bb l)))).

(** Removal of an instruction from block [b], koopa/src/ir/layout.rs:263-279
    [InstMap::remove_entry] *)
Definition inst_remove (b : bblock) (v : value) (l : layout) : option layout :=
  is ← find_bb b (l_bbs l);
  Some (if has_key id v is
        then Layout (set_bb b (remove_key id v is) (l_bbs l)) (delete v (l_inst_bb l))
        else l).

(** [insts_mut().clear()], koopa/src/ir/layout.rs:224-226 [InstMap::clear]:
    [inst_bb] is not touched. *)
Definition inst_clear (b : bblock) (l : layout) : option layout :=
  is ← find_bb b (l_bbs l);
  Some (Layout (set_bb b [] (l_bbs l)) (l_inst_bb l)).

(** koopa/src/ir/layout.rs:49-51 [Layout::entry_bb] *)
Definition entry_bb (l : layout) : option bblock := fst <$> head (l_bbs l).

(** koopa/src/ir/layout.rs:55-57 [Layout::parent_bb] *)
Definition parent_bb (l : layout) (v : value) : option bblock := l_inst_bb l !! v.

(** The operations a client can perform on a layout (koopa/src/ir/layout.rs:21-58, 157-175). *)
Inductive lop :=
  | LBbInsert (pl : place) (b : bblock)
  | LBbRemove (b : bblock)
  | LBbClear
  | LInsert (pl : place) (b : bblock) (v : value)
  | LRemove (b : bblock) (v : value)
  | LClear (b : bblock).

(** One operation (dispatch over the functions above,
    koopa/src/ir/layout.rs:105-144,224-279). *)
Definition lstep (o : lop) (l : layout) : option layout :=
  match o with
  | LBbInsert pl b =>
      r ← bb_insert pl b l; Some (match r with Inserted l' => l' | Duplicate => l end)
  | LBbRemove b => Some (bb_remove b l)
  | LBbClear => Some (bb_clear l)
  | LInsert pl b v =>
      r ← inst_insert pl b v l; Some (match r with Inserted l' => l' | Duplicate => l end)
  | LRemove b v => inst_remove b v l
  | LClear b => inst_clear b l
  end.

(** A history of operations (koopa/src/ir/layout.rs:105-144,224-279). *)
Fixpoint lrun (os : list lop) (l : layout) : option layout :=
  match os with
  | [] => Some l
  | o :: os' => l' ← lstep o l; lrun os' l'
  end.
