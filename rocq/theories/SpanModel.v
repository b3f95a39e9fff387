(** The excerpts of the source that are printed with errors and warnings
    (koopa/src/front/span.rs:77-106, 323-410), for a front end with its logger.

    The output is a list of rows; [None] is a panic.  Simplifications: colors are left out; the
    width of the column of line numbers, which is computed with floating point numbers
    ([log10], koopa/src/front/span.rs:353, 373), is a parameter; the file is there and still
    is the text that was read; [usize] has enough bits for columns. *)
From Verif Require Import Base TypeModel LexerModel CapiModel.
From Coq Require Import Ascii.

(** koopa/src/front/span.rs:470-477 [FileType], with what is in the file *)
Inductive ftype := FFile (path text : list ascii) | FStdin | FBuffer.
(** koopa/src/front/span.rs:479-487 [Display] of it *)
Definition show_file (f : ftype) : list ascii :=
  match f with
  | FFile path _ => path
  | FStdin => String.list_ascii_of_string "<stdin>"
  | FBuffer => String.list_ascii_of_string "<buffer>"
  end.
(** Numbers in messages (koopa/src/front/span.rs:358, 457) *)
Definition show_num (n : N) : list ascii := String.list_ascii_of_string (show_N n).
(** koopa/src/front/span.rs:455-459 [Display] of positions *)
Definition show_pos (p : pos) : list ascii := show_num (line p) ++ [":"%char] ++ show_num (col p).

(** What [BufRead::lines] strips from a line that ends with a newline
    (koopa/src/front/span.rs:332) *)
Fixpoint strip_cr (l : list ascii) : list ascii :=
  match l with
  | [] => []
  | c :: l' => match l' with [] => if Ascii.eqb c "013" then [] else [c] | _ => c :: strip_cr l' end
  end.
(** The lines of a file (koopa/src/front/span.rs:332); [cur] is the part of the line that
    was read *)
Fixpoint raw_lines (cur l : list ascii) : list (list ascii) :=
  match l with
  | [] => match cur with [] => [] | _ => [cur] end
  | c :: l' => if Ascii.eqb c "010" then strip_cr cur :: raw_lines [] l' else raw_lines (cur ++ [c]) l'
  end.
(** [BufReader::lines] (koopa/src/front/span.rs:332): a line that is not UTF-8 is an error *)
Definition file_lines (text : list ascii) : list (option (list ascii)) :=
  (λ l, if valid_utf8 (Ascii.N_of_ascii <$> l) then Some l else None) <$> raw_lines [] text.
(** [$line.map_or("".into(), |r| r.unwrap())] (koopa/src/front/span.rs:82, 86, 95) *)
Definition get_line (o : option (option (list ascii))) : option (list ascii) :=
  match o with None => Some [] | Some r => r end.

(** [is_char_boundary] of the standard library, which slices of strings check
    (koopa/src/front/span.rs:88, 98, 99) *)
Definition char_boundary (l : list ascii) (i : nat) : bool :=
  match i with
  | O => true
  | _ => match l !! i with
         | Some c => negb (within 128 191 (Ascii.N_of_ascii c))
         | None => Nat.eqb i (length l)
         end
  end.
(** [&line[i..j]] (koopa/src/front/span.rs:88, 98, 99) *)
Definition slice (l : list ascii) (i j : nat) : option (list ascii) :=
  if Nat.leb i j && char_boundary l i && char_boundary l j then Some (drop i (take j l)) else None.
(** [matches('\t').count()] (koopa/src/front/span.rs:88, 98, 99) *)
Fixpoint tabs (l : list ascii) : nat :=
  match l with [] => O | c :: l' => (if Ascii.eqb c "009" then 1 else 0) + tabs l' end.
(** [replace('\t', ...)] with [TAB_WIDTH] spaces (koopa/src/front/span.rs:83, 90, 101, 111) *)
Fixpoint expand (l : list ascii) : list ascii :=
  match l with [] => [] | c :: l' => (if Ascii.eqb c "009" then [" "; " "]%char else [c]) ++ expand l' end.
(** [get_line_str!] with one argument (koopa/src/front/span.rs:80-84) *)
Definition line_str0 (o : option (option (list ascii))) : option (list ascii) :=
  l ← get_line o; Some (expand l).
(** [get_line_str!] with two arguments (koopa/src/front/span.rs:85-93) *)
Definition line_str1 (o : option (option (list ascii))) (c : N) : option (list ascii * nat) :=
  l ← get_line o;
  s ← slice l 0 (N.to_nat c);
  Some (expand l, N.to_nat c + tabs s * (2 - 1)).
(** [get_line_str!] with three arguments (koopa/src/front/span.rs:94-105) *)
Definition line_str2 (o : option (option (list ascii))) (c1 c2 : N) : option (list ascii * nat * nat) :=
  l ← get_line o;
  s1 ← slice l 0 (N.to_nat c1);
  s2 ← slice l (N.to_nat c1) (N.to_nat c2);
  Some (expand l, N.to_nat c1 + tabs s1 * (2 - 1), N.to_nat c2 + (tabs s1 + tabs s2) * (2 - 1)).

(** [{:w$}] of the empty string (koopa/src/front/span.rs:357) *)
Definition spaces (w : nat) : list ascii := replicate w " "%char.
(** [{:w$}] of a number (koopa/src/front/span.rs:358) *)
Definition padded (w : nat) (n : N) : list ascii := spaces (w - length (show_num n)) ++ show_num n.

(** koopa/src/front/span.rs:346-362 [print_single_line_info] *)
Definition print_single (width : N → nat) (lines : list (option (list ascii))) (s : span) : option (list (list ascii)) :=
  let n := line (sp_start s) in
  let w := width (n + 1)%N in
  r ← line_str2 (lines !! N.to_nat (n - 1)) (col (sp_start s)) (col (sp_end s));
  let '(l, c1, c2) := r in
  Some [ spaces w ++ [" "; "|"]%char;
         padded w n ++ [" "; "|"; " "]%char ++ l;
         spaces w ++ [" "; "|"; " "]%char ++ spaces (c1 - 1) ++ replicate (c2 - c1 + 1) "^"%char ].
(** A row for a line in the middle (koopa/src/front/span.rs:387-389) *)
Definition mid_row (w : nat) (n : N) (l : list ascii) : list ascii :=
  padded w n ++ [" "; "|"; " "; "|"; " "]%char ++ l.
(** The loop over lines in the middle (koopa/src/front/span.rs:386-390, 392-396): [k] lines,
    the first one has the number [n] *)
Fixpoint mid_rows (w : nat) (n : N) (lines : list (option (list ascii))) (k : nat) : option (list (list ascii)) :=
  match k with
  | O => Some []
  | S k' => l ← line_str0 (head lines); rs ← mid_rows w (n + 1) (tail lines) k'; Some (mid_row w n l :: rs)
  end.
(** koopa/src/front/span.rs:368-409 [print_multi_line_info]; the row of dots is not ended
    (koopa/src/front/span.rs:397).  The end is not before the start, otherwise the last slice
    panics *)
Definition print_multi (width : N → nat) (lines : list (option (list ascii))) (s : span) : option (list (list ascii)) :=
  let n := line (sp_start s) in
  let m := line (sp_end s) in
  if (m <? n)%N then None else
  let w := width (m + 1)%N in
  let lines := drop (N.to_nat (n - 1)) lines in
  r1 ← line_str1 (head lines) (col (sp_start s));
  let lines := tail lines in
  let mid := (N.to_nat (m - n) - 1) in
  r ←
    (if Nat.leb mid 4 then rs ← mid_rows w (n + 1) lines mid; Some (rs, drop mid lines)
     else
       rs ← mid_rows w (n + 1) lines 2;
       let lines := drop 2 lines in
       l ← line_str0 (lines !! (mid - 3));
       Some (rs ++ [replicate w "."%char ++ [" "; "|"; " "; "|"]%char ++ mid_row w (m - 1) l], drop (mid - 2) lines));
  r2 ← line_str1 (head r.2) (col (sp_end s));
  Some ([ spaces w ++ [" "; "|"]%char;
          padded w n ++ [" "; "|"; " "; " "; " "]%char ++ r1.1;
          spaces w ++ [" "; "|"; " "; " "]%char ++ replicate r1.2 "_"%char ++ ["^"%char] ] ++ r.1 ++
        [ mid_row w m r2.1;
          spaces w ++ [" "; "|"; " "; "|"]%char ++ replicate r2.2 "_"%char ++ ["^"%char] ]).
(** koopa/src/front/span.rs:325-340 [print_file_info] *)
Definition print_file_info (width : N → nat) (f : ftype) (s : span) : option (list (list ascii)) :=
  let at_row := String.list_ascii_of_string "  at " ++ show_file f ++ [":"%char] ++ show_pos (sp_start s) in
  rows ←
    (match f with
     | FFile _ text =>
         if (0 <? col (sp_start s))%N && (0 <? col (sp_end s))%N then
           if (line (sp_start s) =? line (sp_end s))%N then print_single width (file_lines text) s
           else print_multi width (file_lines text) s
         else Some []
     | _ => Some []
     end);
  Some ([at_row] ++ rows ++ [[]]).
