(** Model of libkoopa/src/back.rs:31-48 [dump_to_string]. *)
From Verif Require Import Base.

(** libkoopa/src/errors.rs:3-26 [ErrorCode] (the codes used here) *)
Inductive error_code := Success | IoError | NullByteError | InsufficientBufferLength.

(** [CString::new] (libkoopa/src/back.rs:37): fails on interior NUL bytes; the bytes
    with the final NUL. *)
Definition cstring_new (text : list ascii) : option (list ascii) :=
  if existsb (Ascii.eqb "000"%char) text then None else Some (text ++ ["000"%char]).

(** [buffer.copy_from_slice(bytes)] through a pointer (libkoopa/src/back.rs:44-45): the
    first bytes of the memory behind the pointer are overwritten; [None] (undefined
    behaviour) if the memory is shorter. *)
Fixpoint copy_into (bytes mem : list ascii) : option (list ascii) :=
  match bytes, mem with
  | [], _ => Some mem
  | b :: bytes', _ :: mem' => m ← copy_into bytes' mem'; Some (b :: m)
  | _ :: _, [] => None
  end.

(** libkoopa/src/back.rs:31-48 [dump_to_string].  [text]: what [generate_on] writes, or
    [None] if it fails; [buffer]: [None] for the null pointer, else the memory behind it;
    [len]: the announced length.  Result: code, new length, memory afterwards. *)
Definition dump_to_string (text : option (list ascii)) (buffer : option (list ascii)) (len : N)
    : option (error_code * N * option (list ascii)) :=
  match text with
  | None => Some (IoError, len, buffer)
  | Some t =>
      match cstring_new t with
      | None => Some (NullByteError, len, buffer)
      | Some bytes =>
          match buffer with
          | None => Some (Success, (N.of_nat (length bytes) - 1)%N, None)
          | Some mem =>
              if (len <? N.of_nat (length bytes))%N
              then Some (InsufficientBufferLength, len, Some mem)
              else m ← copy_into bytes mem; Some (Success, len, Some m)
          end
      end
  end.
