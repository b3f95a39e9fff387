(** Model of koopa/src/ir/types.rs. *)
From Verif Require Import Base.

(** Structural view of types: koopa/src/ir/types.rs:15-26 [TypeKind].
    [Type] is an interned [Rc<TypeKind>] compared by pointer; that comparing interned
    pointers is the same as comparing this structural view is theorem C03, about the
    pool model at the end of this file.  Array lengths are [usize]. *)
Inductive ty : Type :=
  | TInt32
  | TUnit
  | TArray (base : ty) (len : N)
  | TPtr (base : ty)
  | TFun (params : list ty) (ret : ty).

(** Structural equality test (derived [PartialEq] of [TypeKind],
    koopa/src/ir/types.rs:14, through [Type::eq], 137-141). *)
Fixpoint ty_eqb (a b : ty) : bool :=
  match a, b with
  | TInt32, TInt32 => true
  | TUnit, TUnit => true
  | TArray x n, TArray y m => ty_eqb x y && (n =? m)%N
  | TPtr x, TPtr y => ty_eqb x y
  | TFun ps r, TFun qs s =>
      (fix go (l1 l2 : list ty) : bool :=
         match l1, l2 with
         | [], [] => true
         | x :: l1', y :: l2' => ty_eqb x y && go l1' l2'
         | _, _ => false
         end) ps qs && ty_eqb r s
  | _, _ => false
  end.

(** koopa/src/ir/types.rs:117-119 [is_i32] *)
Definition is_i32 (t : ty) : bool := match t with TInt32 => true | _ => false end.
(** koopa/src/ir/types.rs:122-124 [is_unit] *)
Definition is_unit (t : ty) : bool := match t with TUnit => true | _ => false end.

(** koopa/src/ir/types.rs:91-94 [Type::get_array] (asserts a non-zero length) *)
Definition get_array (base : ty) (len : N) : option ty :=
  if (len =? 0)%N then None else Some (TArray base len).

(** koopa/src/ir/types.rs:127-134 [Type::size]; usize multiplication, wrapping
    modulo 2^64 (release build; a debug build panics instead). *)
Fixpoint size (ptr_size : N) (t : ty) : N :=
  match t with
  | TInt32 => 4
  | TUnit => 0
  | TArray b len => (size ptr_size b * len) `mod` two64
  | TPtr _ => ptr_size
  | TFun _ _ => ptr_size
  end%N.

(** Decimal printing of [usize]/[i32] (Rust [Display] for integers, used by
    koopa/src/ir/types.rs:28-53, koopa/src/back/koopa.rs). *)
Definition digit_ascii (d : N) : Ascii.ascii := Ascii.ascii_of_N (48 + d)%N.

(** As above (koopa/src/ir/types.rs:28-53) *)
Fixpoint dec_aux (fuel : nat) (n : N) (acc : string) : string :=
  match fuel with
  | O => acc
  | S f =>
      let acc' := String (digit_ascii (n `mod` 10)%N) acc in
      if (n <? 10)%N then acc' else dec_aux f (n / 10)%N acc'
  end.

(** Rust [Display] for unsigned integers (used at koopa/src/ir/types.rs:33 and
    koopa/src/back/generator.rs:132,139,144,169); fuel = number of bits suffices. *)
Definition show_N (n : N) : string := dec_aux (S (N.to_nat (N.size n))) n EmptyString.

(** Rust [Display] for signed integers (used at koopa/src/back/koopa.rs:313 for
    integer constants). *)
Definition show_Z (z : Z) : string :=
  if (z <? 0)%Z then String "-"%char (show_N (Z.to_N (- z))) else show_N (Z.to_N z).

(** Comma separated printing shared by koopa/src/ir/types.rs:36-44 and
    koopa/src/back/koopa.rs argument lists. *)
Fixpoint sep_comma (l : list string) : string :=
  match l with
  | [] => EmptyString
  | [x] => x
  | x :: l' => (x ++ ", " ++ sep_comma l')%string
  end.

(** koopa/src/ir/types.rs:28-53,143-147 [Display] for [TypeKind]/[Type] *)
Fixpoint show_ty (t : ty) : string :=
  match t with
  | TInt32 => "i32"
  | TUnit => "unit"
  | TArray b len => "[" ++ show_ty b ++ ", " ++ show_N len ++ "]"
  | TPtr b => "*" ++ show_ty b
  | TFun ps r =>
      "(" ++ sep_comma (map show_ty ps) ++
      (if is_unit r then ")" else "): " ++ show_ty r)
  end%string.

(** ** The interning pool *)

(** A type handle is the address of its [Rc] allocation. *)
Notation addr := N (only parsing).

(** koopa/src/ir/types.rs:15-26: [TypeKind], whose components are handles. *)
Inductive tkind :=
  | KInt32
  | KUnit
  | KArray (base : addr) (len : N)
  | KPtr (base : addr)
  | KFun (params : list addr) (ret : addr).

Global Instance tkind_eq_dec : EqDecision tkind.
Proof. solve_decision. Defined.

(** koopa/src/ir/types.rs:62-65: thread-local [POOL], a [HashMap<TypeKind, Type>].
    [HashMap] lookup is by [Hash]+[Eq] of [TypeKind] whose components are compared
    by pointer (137-141) and hashed by content; since equal pointers have equal
    content this is lookup by [tkind] equality.  Pool entries are never removed, so
    no address is ever freed and [heap_next] models fresh allocation. *)
Record pool := Pool {
  pool_map : list (tkind * addr);
  heap : gmap N tkind;
  heap_next : N;
}.

(** koopa/src/ir/types.rs:64: initially empty. *)
Definition pool0 : pool := Pool [] ∅ 0.

(** HashMap lookup in the pool (koopa/src/ir/types.rs:72 [pool.get]). *)
Fixpoint pool_find (k : tkind) (l : list (tkind * addr)) : option addr :=
  match l with
  | [] => None
  | (k', a) :: l' => if decide (k = k') then Some a else pool_find k l'
  end.

(** koopa/src/ir/types.rs:69-78 [Type::get] *)
Definition type_get (k : tkind) (p : pool) : addr * pool :=
  match pool_find k (pool_map p) with
  | Some a => (a, p)
  | None =>
      let a := heap_next p in
      (a, Pool ((k, a) :: pool_map p) (<[a := k]> (heap p)) (a + 1)%N)
  end.

(** A client's sequence of [Type::get] calls: each request may mention handles
    obtained before, by their index in the list of results
    (calls of koopa/src/ir/types.rs:69-104). *)
Inductive treq :=
  | RInt32
  | RUnit
  | RArray (base : nat) (len : N)
  | RPtr (base : nat)
  | RFun (params : list nat) (ret : nat).

(** Turn a request into a [TypeKind] over handles (koopa/src/ir/types.rs:81-104);
    [None] if it mentions a handle the client does not have, or a zero array length
    (assert in line 92). *)
Definition resolve (hs : list addr) (r : treq) : option tkind :=
  match r with
  | RInt32 => Some KInt32
  | RUnit => Some KUnit
  | RArray b n => a ← hs !! b; if (n =? 0)%N then None else Some (KArray a n)
  | RPtr b => a ← hs !! b; Some (KPtr a)
  | RFun ps r => l ← mapM (λ i, hs !! i) ps; a ← hs !! r; Some (KFun l a)
  end.

(** Run a sequence of requests (koopa/src/ir/types.rs:69-104). *)
Fixpoint run_treqs (rs : list treq) (hs : list addr) (p : pool)
    : option (list addr * pool) :=
  match rs with
  | [] => Some (hs, p)
  | r :: rs' =>
      k ← resolve hs r;
      let '(a, p') := type_get k p in
      run_treqs rs' (hs ++ [a]) p'
  end.
