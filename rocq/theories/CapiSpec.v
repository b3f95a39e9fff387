(** What the C interface is about: UTF-8, strings in memory (C60). *)
From Verif Require Import Base.

(** ** UTF-8 *)
(** Unicode scalar values: no surrogates. *)
Definition scalar (n : N) : Prop := (n < 1114112 ∧ ¬ (55296 ≤ n < 57344))%N.
(** The bytes of a scalar value: the shortest encoding. *)
Definition encoding (n : N) : list N :=
  if decide (n < 128)%N then [n]
  else if decide (n < 2048)%N then [192 + n / 64; 128 + n mod 64]%N
  else if decide (n < 65536)%N then [224 + n / 4096; 128 + n / 64 mod 64; 128 + n mod 64]%N
  else [240 + n / 262144; 128 + n / 4096 mod 64; 128 + n / 64 mod 64; 128 + n mod 64]%N.
Definition is_utf8 (l : list ascii) : Prop :=
  ∃ ns, Forall scalar ns ∧ Ascii.N_of_ascii <$> l = ns ≫= encoding.

(** ** Memory *)
(** The bytes [l] are in memory at [a]. *)
Definition in_memory (m : gmap N ascii) (a : N) (l : list ascii) : Prop :=
  ∀ (j : nat) c, l !! j = Some c → m !! (a + N.of_nat j)%N = Some c.
(** The C string [l] is in memory at [a]. *)
Definition c_text (m : gmap N ascii) (a : N) (l : list ascii) : Prop :=
  Ascii.zero ∉ l ∧ in_memory m a (l ++ [Ascii.zero]).
(** There are [n] bytes of memory at [a]. *)
Definition mapped (m : gmap N ascii) (a n : N) : Prop := ∀ x, (a ≤ x < a + n)%N → is_Some (m !! x).
(** An allocator gives out pointers that are not null and not in use. *)
Definition allocator (alloc : gset N → N) : Prop := ∀ s, alloc s ∉ s ∧ alloc s ≠ 0%N.
