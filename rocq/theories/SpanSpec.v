(** What excerpts of the source are about: the lines of a file (C62). *)
From Verif Require Import Base LexerSpec.
From Coq Require Import Ascii.

Definition newline : ascii := "010"%char.
Definition return_char : ascii := "013"%char.
Definition tab_char : ascii := "009"%char.
(** Lines end with a newline, before which there may be a carriage return; the last one may also
    end with the file. *)
Inductive in_lines : list ascii → list (list ascii) → Prop :=
  | il_nil : in_lines [] []
  | il_last l : l ≠ [] → newline ∉ l → in_lines l [l]
  | il_line l e text ls : newline ∉ l →
      e = [newline] ∧ list.last l ≠ Some return_char ∨ e = [return_char; newline] →
      in_lines text ls → in_lines (l ++ e ++ text) (l :: ls).
(** The character [c] before [r] belongs to a line, and not to the end of a line. *)
Definition inside_line (c : ascii) (r : list ascii) : Prop :=
  c ≠ newline ∧ ¬ (c = return_char ∧ head r = Some newline).
Definition one_byte (c : ascii) : Prop := (N_of_ascii c < 128)%N.
