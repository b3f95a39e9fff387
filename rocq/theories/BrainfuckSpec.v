(** What brainfuck programs are and what they do. *)
From Coq Require Import Ascii.
From Verif Require Import Base TypeModel IrModel UsesSpec InterpModel.

(** ** Programs *)
Inductive cmd :=
  | CRight
  | CLeft
  | CPlus
  | CMinus
  | COut
  | CIn
  | CLoop (body : list cmd).
Inductive letter : ascii → cmd → Prop :=
  | l_right : letter ">" CRight
  | l_left : letter "<" CLeft
  | l_plus : letter "+" CPlus
  | l_minus : letter "-" CMinus
  | l_out : letter "." COut
  | l_in : letter "," CIn.
Definition comment (c : ascii) : Prop := c ≠ "["%char ∧ c ≠ "]"%char ∧ ∀ k, ¬ letter c k.
(** The text is the program. *)
Inductive spells : list ascii → list cmd → Prop :=
  | sp_nil : spells [] []
  | sp_letter c k s cs : letter c k → spells s cs → spells (c :: s) (k :: cs)
  | sp_comment c s cs : comment c → spells s cs → spells (c :: s) cs
  | sp_loop b body s cs : spells b body → spells s cs →
      spells ("["%char :: b ++ "]"%char :: s) (CLoop body :: cs).
(** The closing brackets never outnumber the opening ones. *)
Definition count (c : ascii) (s : list ascii) : nat := length (filter (λ x, x = c) s).
Definition closes_opened (s : list ascii) : Prop :=
  ∀ a b, s = a ++ b → (count "]" a ≤ count "[" a)%nat.
(** Each opening bracket has its closing one. *)
Definition balanced (s : list ascii) : Prop := closes_opened s ∧ count "[" s = count "]" s.

(** ** Runs *)
(** Where output goes and input comes from *)
Record console (E : Type) := Console { c_out : Z → E → E; c_in : E → Z * E }.
Arguments Console {E} _ _.
Arguments c_out {E} _ _ _.
Arguments c_in {E} _ _.
Record tape (E : Type) := Tape { t_cells : N → Z; t_pos : N; t_io : E }.
Arguments Tape {E} _ _ _.
Arguments t_cells {E} _ _.
Arguments t_pos {E} _.
Arguments t_io {E} _.
(** The end of a run: the tape; the head would leave the tape; a cell overflows, where that is
    checked *)
Inductive outcome (E : Type) :=
  | Done (t : tape E)
  | OffTape
  | Overflow.
Arguments Done {E} t.
Arguments OffTape {E}.
Arguments Overflow {E}.
(** Cells hold 32-bit integers. *)
Definition cell_fits (z : Z) : bool := ((- 2 ^ 31 <=? z) && (z <? 2 ^ 31))%Z.
Definition cell_wrap (z : Z) : Z := ((z + 2 ^ 31) mod 2 ^ 32 - 2 ^ 31)%Z.

Section runs.
Context {E : Type} (checks : bool) (size : N) (K : console E).
Definition cell (t : tape E) : Z := t_cells t (t_pos t).
Definition write (z : Z) (t : tape E) : tape E :=
  Tape (λ j, if (j =? t_pos t)%N then z else t_cells t j) (t_pos t) (t_io t).
Definition move (d : Z) (t : tape E) : outcome E :=
  let q := (Z.of_N (t_pos t) + d)%Z in
  if ((0 <=? q) && (q <? Z.of_N size))%Z then Done (Tape (t_cells t) (Z.to_N q) (t_io t)) else OffTape.
Definition change (d : Z) (t : tape E) : outcome E :=
  let z := (cell t + d)%Z in
  if checks && negb (cell_fits z) then Overflow else Done (write (cell_wrap z) t).
(** One command, not a loop *)
Definition act (c : cmd) (t : tape E) : outcome E :=
  match c with
  | CRight => move 1 t
  | CLeft => move (-1) t
  | CPlus => change 1 t
  | CMinus => change (-1) t
  | COut => Done (Tape (t_cells t) (t_pos t) (c_out K (cell t) (t_io t)))
  | CIn => let '(z, e) := c_in K (t_io t) in Done (write z (Tape (t_cells t) (t_pos t) e))
  | CLoop _ => Done t
  end.
Definition stops (o : outcome E) : Prop := ∀ t, o ≠ Done t.
Inductive runs : list cmd → tape E → outcome E → Prop :=
  | r_nil t : runs [] t (Done t)
  | r_act c k cs t t' o : letter c k → act k t = Done t' → runs cs t' o → runs (k :: cs) t o
  | r_stop c k cs t : letter c k → stops (act k t) → runs (k :: cs) t (act k t)
  | r_skip body cs t o : cell t = 0%Z → runs cs t o → runs (CLoop body :: cs) t o
  | r_loop body cs t t' o : cell t ≠ 0%Z → runs body t (Done t') → runs (CLoop body :: cs) t' o →
      runs (CLoop body :: cs) t o
  | r_loop_stop body cs t o : cell t ≠ 0%Z → runs body t o → stops o → runs (CLoop body :: cs) t o.
(** All cells are zero, the head is at the first. *)
Definition blank (e : E) : tape E := Tape (λ _, 0%Z) 0 e.
End runs.

(** The console is that of the interpreter [C]: [putchar] gets the cell as a 64-bit word, the low
    32 bits of what [getchar] returns are the cell. *)
Definition wide (z : Z) : N := Z.to_N (z mod Z.of_N two64).
Definition console_is {E} (C : xconfig E) (K : console E) : Prop :=
  (∃ h, c_ext C "putchar" = Some h ∧ ∀ v e, (h [wide v] e).1 = c_out K v e) ∧
  (∃ h, c_ext C "getchar" = Some h ∧ ∀ e, c_in K e = (cell_wrap (Z.of_N (h [] e).2), (h [] e).1)).

(** ** Programs that go nowhere *)
(** An instruction goes to a block that the function does not have in its layout. *)
Definition stray (p : program) : Prop :=
  ∃ f fd b is v d t, p_funcs p !! f = Some fd ∧ (b, is) ∈ l_bbs (f_layout fd) ∧ v ∈ is ∧
    d_values (f_dfg fd) !! v = Some d ∧ t ∈ UsesSpec.targets (v_kind d) ∧ t ∉ map fst (l_bbs (f_layout fd)).
