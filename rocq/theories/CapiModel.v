(** The C interface of libkoopa: strings, buffers and programs that belong to C.

    libkoopa/src/driver.rs, libkoopa/src/back.rs, libkoopa/src/raw/ffi.rs, libkoopa/src/errors.rs,
    libkoopa/src/utils.rs.  The memory of the C program is a finite map from addresses to bytes;
    programs live in a table keyed by their pointers; a pointer to anything else is undefined
    behaviour, and so is reading or writing bytes that are not mapped.  A panic ends the
    process, because the functions are [extern "C"] (libkoopa/src/utils.rs:37,48).
    Not modelled: files, file descriptors, standard input and output (the functions
    [*_to_file], [*_to_stdout], [*_to_raw], [*_from_file], [*_from_stdin], [*_from_raw], which
    differ in the reader or writer only), the header file, and references that alias. *)
From Verif Require Import Base IdModel TypeModel IrModel LayoutModel BuilderModel WorldModel LexerModel ParserModel FrontModel
  DriverModel KoopaModel LlvmModel RawModel.

(** libkoopa/src/errors.rs:3-26 [ErrorCode], the codes that are returned here *)
Inductive code := CSuccess | CInvalidUtf8String | CInvalidKoopaProgram | CIoError | CNullByteError | CInsufficientBufferLength
  | CTypeMismatch | CFuncParamNumMismatch.
(** The numbers of the codes (libkoopa/src/errors.rs:2-26, [repr(i32)]) *)
Definition code_number (c : code) : Z :=
  match c with
  | CSuccess => 0 | CInvalidUtf8String => 1 | CInvalidKoopaProgram => 3 | CIoError => 4 | CNullByteError => 5
  | CInsufficientBufferLength => 6 | CTypeMismatch => 9 | CFuncParamNumMismatch => 10
  end.
(** How a call ends; [Unbounded] if the fuel of the model is too small
    (libkoopa/src/utils.rs:27-52: [extern "C"] functions) *)
Inductive call (A : Type) := Returns (a : A) | Aborts | Undefined | Unbounded.
Arguments Returns {A} a.
Arguments Aborts {A}.
Arguments Undefined {A}.
Arguments Unbounded {A}.

(** The memory that C strings are in (libkoopa/src/driver.rs:38, libkoopa/src/back.rs:44);
    nothing is at address 0 *)
Notation cmem := (gmap N ascii).
(** [CStr::from_ptr] (libkoopa/src/driver.rs:38): the bytes up to the first zero byte; the fuel
    bounds the number of bytes in memory *)
Fixpoint cstr_from (fuel : nat) (m : cmem) (a : N) : option (list ascii) :=
  match fuel with
  | O => None
  | S f => c ← m !! a; if bool_decide (c = Ascii.zero) then Some [] else l ← cstr_from f m (a + 1)%N; Some (c :: l)
  end.
(** The same for a pointer (libkoopa/src/driver.rs:38) *)
Definition cstr (m : cmem) (a : N) : option (list ascii) := cstr_from (S (base.size m)) m a.
(** [copy_from_slice] into [from_raw_parts_mut] (libkoopa/src/back.rs:44-45) *)
Fixpoint copy_to (m : cmem) (a : N) (l : list ascii) : option cmem :=
  match l with
  | [] => Some m
  | c :: l' => _ ← m !! a; copy_to (<[a := c]> m) (a + 1)%N l'
  end.
(** Is a number in a range?  (patterns of the validation below, libkoopa/src/driver.rs:38) *)
Definition within (lo hi n : N) : bool := (lo <=? n)%N && (n <=? hi)%N.
(** [CStr::to_str] (libkoopa/src/driver.rs:38), the validation of UTF-8 of the standard library:
    the ranges of the second byte depend on the first one *)
Fixpoint valid_utf8 (l : list N) : bool :=
  match l with
  | [] => true
  | a :: l1 =>
      if (a <? 128)%N then valid_utf8 l1 else
      match l1 with
      | [] => false
      | b :: l2 =>
          if within 194 223 a then within 128 191 b && valid_utf8 l2 else
          match l2 with
          | [] => false
          | c :: l3 =>
              if within 224 239 a then
                within (if (a =? 224)%N then 160 else 128) (if (a =? 237)%N then 159 else 191) b &&
                within 128 191 c && valid_utf8 l3 else
              match l3 with
              | [] => false
              | d :: l4 =>
                  within 240 244 a &&
                  within (if (a =? 240)%N then 144 else 128) (if (a =? 244)%N then 143 else 191) b &&
                  within 128 191 c && within 128 191 d && valid_utf8 l4
              end
          end
      end
  end.

(** The process: C memory, the programs that C has pointers to, the counters of identifiers
    (libkoopa/src/utils.rs:4-15, koopa/src/ir/idman.rs) *)
Record lib := Lib { c_mem : cmem; c_progs : gmap N program; c_ids : ids }.
(** [new_pointer] (libkoopa/src/utils.rs:4-6); [alloc] is the allocator *)
Definition new_pointer (alloc : gset N → N) (p : program) (i : ids) (s : lib) : N * lib :=
  let a := alloc (dom (c_progs s)) in (a, Lib (c_mem s) (<[a := p]> (c_progs s)) i).
(** [koopa_parse_from_string] (libkoopa/src/driver.rs:37-43): the code, what is stored to
    [*program] if anything is *)
Definition parse_from_string (alloc : gset N → N) (a : N) (s : lib) : call (code * option N * lib) :=
  match cstr (c_mem s) a with
  | None => Undefined
  | Some l =>
      if negb (valid_utf8 (Ascii.N_of_ascii <$> l)) then Returns (CInvalidUtf8String, None, s) else
      let '(d, e) := driver_new (RByte <$> l) in
      match generate (c_ids s) d e 0 with
      | (Rok p, _, b) => let '(x, s') := new_pointer alloc p (w_ids (b_world b)) s in Returns (CSuccess, Some x, s')
      | (Rerr _, _, b) => Returns (CInvalidKoopaProgram, None, Lib (c_mem s) (c_progs s) (w_ids (b_world b)))
      | (Rpanic, _, _) => Aborts
      | (Rfuel, _, _) => Unbounded
      end
  end.
(** [koopa_delete_program] (libkoopa/src/driver.rs:78-80), [drop_pointer]
    (libkoopa/src/utils.rs:13-15) *)
Definition delete_program (x : N) (s : lib) : call lib :=
  match c_progs s !! x with
  | Some _ => Returns (Lib (c_mem s) (delete x (c_progs s)) (c_ids s))
  | None => Undefined
  end.
(** [dump_to_string] (libkoopa/src/back.rs:31-48): the code, [*len], the memory; writing to a
    [Vec] does not fail, so that errors are those of the visitor *)
Definition dump_to_string (print : program → res string) (x buffer len : N) (s : lib) : call (code * N * lib) :=
  match c_progs s !! x with
  | None => Undefined
  | Some p =>
      match print p with
      | Rok u =>
          let text := String.list_ascii_of_string u in
          if bool_decide (Ascii.zero ∈ text) then Returns (CNullByteError, len, s) else
          let bytes := text ++ [Ascii.zero] in
          if (buffer =? 0)%N then Returns (CSuccess, (N.of_nat (length bytes) - 1)%N, s)
          else if (len <? N.of_nat (length bytes))%N then Returns (CInsufficientBufferLength, len, s)
          else match copy_to (c_mem s) buffer bytes with
               | Some m => Returns (CSuccess, len, Lib m (c_progs s) (c_ids s))
               | None => Undefined
               end
      | Rerr _ => Returns (CIoError, len, s)
      | Rpanic => Aborts
      | Rfuel => Unbounded
      end
  end.
(** libkoopa/src/back.rs:88-90 [koopa_dump_to_string] *)
Definition koopa_dump_to_string := dump_to_string print_program.
(** libkoopa/src/back.rs:119-121 [koopa_dump_llvm_to_string] *)
Definition koopa_dump_llvm_to_string (ord : gset value → list value) := dump_to_string (llvm_program ord).

(** [RawProgramBuilder::build_on] (libkoopa/src/raw/builder.rs:32-61) for a builder with the
    tables [h]: the users of values that are in a table already are not looked up again
    (libkoopa/src/raw/builder.rs:269-271) *)
Definition build_with (ord : gset N → list N) (n : nat) (h : heap) (p : program) : rr (rprogram * heap) :=
  s1 ← each (raw_build ord p n None) (TVal <$> p_inst_layout p) (h, ∅);
  s2 ← each (raw_build ord p n None) (TFunc <$> p_func_layout p) s1;
  h' ← fill_used_by s2;
  Done (RProgram (p_inst_layout p) (p_func_layout p), h').
(** [koopa_build_raw_program] (libkoopa/src/raw/ffi.rs:27-32) *)
Definition build_raw_program (ord : gset N → list N) (n : nat) (h : heap) (x : N) (s : lib) : call (rprogram * heap) :=
  match c_progs s !! x with
  | None => Undefined
  | Some p =>
      match build_with ord n h p with
      | Done r => Returns r
      | Fails _ | Panics => Aborts
      | Deep => Unbounded
      end
  end.
(** [koopa_generate_raw_to_koopa] (libkoopa/src/raw/ffi.rs:38-46); simplified: the counters of
    identifiers are only kept on success *)
Definition generate_raw_to_koopa (alloc : gset N → N) (n : nat) (r : rprogram) (h : heap) (s : lib) : call (code * option N * lib) :=
  match generate_program (c_ids s) n r h with
  | Done (p, i) => let '(x, s') := new_pointer alloc p i s in Returns (CSuccess, Some x, s')
  | Fails ETypeMismatch => Returns (CTypeMismatch, None, s)
  | Fails EFuncParamNumMismatch => Returns (CFuncParamNumMismatch, None, s)
  | Panics => Aborts
  | Deep => Unbounded
  end.
