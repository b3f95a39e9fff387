(** Shared preliminaries: nothing in this file models a particular /repo
    function; it only fixes representations used by all models. *)
From Coq Require Export Ascii String.
From stdpp Require Export base list gmap strings option numbers.
From Coq Require Export ZArith NArith.

(** Handles.  In Rust, [Value], [BasicBlock] and [Function] wrap a [NonZeroU32]
    (koopa/src/ir/entities.rs:240, 411, 475; koopa/src/ir/idman.rs:11,26,36).
    We use [N]; that they are non-zero and below 2^32 is a theorem (C01). *)
Notation value := N (only parsing).
Notation bblock := N (only parsing).
Notation func := N (only parsing).

(** 2^32 and 2^64: ranges of u32 and usize (64-bit target). *)
Definition two32 : N := 4294967296.
Definition two64 : N := 18446744073709551616.

(** Panics are modelled by [None] in the IR core. *)
Definition panic {A} : option A := None.

(** [assert!(b)] *)
Definition assert_ (b : bool) : option unit := if b then Some tt else None.
