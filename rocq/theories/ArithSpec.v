(** What folding should do: independent vocabulary for C41 and C43. *)
From Verif Require Import Base IdModel TypeModel IrModel LayoutModel LayoutSpec ArithModel.

(** The range of 32-bit integers. *)
Definition i32 (z : Z) : Prop := (-2147483648 ≤ z < 2147483648)%Z.

(** Equal modulo 2^32. *)
Definition same32 (a b : Z) : Prop := ∃ k, (a = b + k * 4294967296)%Z.

(** The mathematical meaning of the operators on 32-bit integers: [c] is the meaning of
    [l op r].  Division truncates; [Shr] shifts the unsigned, [Sar] the signed number;
    shift amounts count modulo 32. *)
Definition meaning (op : binop) (l r c : Z) : Prop :=
  match op with
  | NotEq => (l ≠ r ∧ c = 1%Z) ∨ (l = r ∧ c = 0%Z)
  | Eq_ => (l = r ∧ c = 1%Z) ∨ (l ≠ r ∧ c = 0%Z)
  | Gt_ => (r < l ∧ c = 1)%Z ∨ (l ≤ r ∧ c = 0)%Z
  | Lt_ => (l < r ∧ c = 1)%Z ∨ (r ≤ l ∧ c = 0)%Z
  | Ge_ => (r ≤ l ∧ c = 1)%Z ∨ (l < r ∧ c = 0)%Z
  | Le_ => (l ≤ r ∧ c = 1)%Z ∨ (r < l ∧ c = 0)%Z
  | Add => same32 c (l + r)
  | Sub => same32 c (l - r)
  | Mul => same32 c (l * r)
  | Div => ∃ m, (l = r * c + m ∧ Z.abs m < Z.abs r ∧ 0 ≤ m * l)%Z
  | Mod_ => ∃ q, (l = r * q + c ∧ Z.abs c < Z.abs r ∧ 0 ≤ c * l)%Z
  | And => ∀ i, (0 ≤ i)%Z → Z.testbit c i = Z.testbit l i && Z.testbit r i
  | Or => ∀ i, (0 ≤ i)%Z → Z.testbit c i = Z.testbit l i || Z.testbit r i
  | Xor => ∀ i, (0 ≤ i)%Z → Z.testbit c i = xorb (Z.testbit l i) (Z.testbit r i)
  | Shl => same32 c (l * 2 ^ (r mod 32))
  | Shr => ∃ u, (0 ≤ u < 4294967296)%Z ∧ same32 l u ∧ same32 c (u / 2 ^ (r mod 32))
  | Sar => (c * 2 ^ (r mod 32) ≤ l < (c + 1) * 2 ^ (r mod 32))%Z
  end.

(** Is the instruction a binary operation on two integer constants? *)
Definition foldable (g : dfg) (d : vdata) (op : binop) (a b : Z) : Prop :=
  ∃ l r dl dr, v_kind d = KBinary op l r ∧
    d_values g !! l = Some dl ∧ v_kind dl = KInteger a ∧
    d_values g !! r = Some dr ∧ v_kind dr = KInteger b.

(** An iteration order of the values lists every key once. *)
Definition is_value_order (order : gmap N vdata → list N) : Prop :=
  ∀ m, NoDup (order m) ∧ ∀ v, v ∈ order m ↔ is_Some (m !! v).

(** Every instruction of the layout is in exactly the block the reverse map says. *)
Definition layout_exact (l : layout) : Prop :=
  no_duplicates l ∧ ∀ v b, in_block l v b ↔ l_inst_bb l !! v = Some b.
