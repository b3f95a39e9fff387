(** C57: the brainfuck example accepts the texts that close no loop that is not open, and the
    programs it builds do what the brainfuck programs do. *)
From Coq Require Import Lia Ascii.
From Verif Require Import Base IdModel TypeModel IrModel LayoutModel WorldModel UsesSpec DfgSpec WorldSpec TypingSpec InterpModel
  BrainfuckModel BrainfuckSpec BrainfuckSimProofs BrainfuckBuildProofs BrainfuckRunProofs InterpProperties.

(** C57: building never panics; it fails exactly if a bracket closes a loop that is not open.
    In the program that is built the use lists are exact, no operand and no target is missing,
    every value is well typed.  For texts up to the length given, so that the numbers of values
    do not overflow. *)
Theorem C57_built : ∀ text, (N.of_nat (length text) < 2 ^ 28)%N →
  (bf_build text = BfParse ↔ ¬ closes_opened text) ∧
  (closes_opened text → ∃ w, bf_build text = BfOk w ∧
    use_lists_exact (w_prog w) ∧ no_dangling (w_prog w) ∧ well_typed (w_prog w)).
Proof.
  intros text Ht. destruct (build_ok text Ht) as [(Hc & w & E & R & _ & _)|(Hc & E)]; rewrite E.
  - split; [split; [intros H; discriminate H|intros H; destruct (H Hc)]|]. intros _. exists w. split; [reflexivity|]. exact (room_consistent _ _ R).
  - split; [split; [intros _; exact Hc|reflexivity]|]. intros H. destruct (Hc H).
Qed.
Print Assumptions C57_built.

(** C57: the texts with matching brackets are the texts that spell a program, and they spell
    only one. *)
Theorem C57_meaning : ∀ text,
  (balanced text ↔ ∃ cs, spells text cs) ∧ ∀ cs cs', spells text cs → spells text cs' → cs = cs'.
Proof. intros text. split; [symmetry; apply spells_balanced|]. intros cs cs'. apply spells_one. Qed.
Print Assumptions C57_meaning.

(** C57: the example interpreter runs what is built for a text exactly as the program that the
    text spells runs on a tape of 65536 cells, all zero, from the first: it ends, with the
    result 0, and with the same input and output, exactly if the program ends; it fails exactly
    if the head leaves the tape; it panics exactly if a cell overflows, if that is checked.
    Else it does not end. *)
Theorem C57_behaviour : ∀ text cs w, (N.of_nat (length text) < 2 ^ 28)%N → spells text cs → bf_build text = BfOk w →
  ∀ E (C : xconfig E) (K : console E) order, console_is C K → (∀ f, f ∈ order ↔ is_Some (p_funcs (w_prog w) !! f)) →
  ∀ e, (∀ z e', (∃ n, interpret C n order (w_prog w) e = XOk (z, e')) ↔
      z = 0%Z ∧ ∃ t, runs (c_checks C) 65536 K cs (blank e) (Done t) ∧ t_io t = e') ∧
    ((∃ n, interpret C n order (w_prog w) e = XErr) ↔ runs (c_checks C) 65536 K cs (blank e) OffTape) ∧
    ((∃ n, interpret C n order (w_prog w) e = XPanic) ↔ runs (c_checks C) 65536 K cs (blank e) Overflow) ∧
    ∀ n, interpret C n order (w_prog w) e ≠ XBeyond.
Proof.
  intros text cs w Ht Hs Hw E C K order HK Ho e. destruct (build_ok text Ht) as [(_ & w' & E' & _ & HC & _)|(_ & E')]; rewrite Hw in E'; [|discriminate E'].
  injection E' as <-. destruct (HC cs Hs) as (g & z & putc & getc & f & fd & HC').
  split; [|split; [|split]].
  - intros v e'. exact (run_done C K 65536 eq_refl (w_prog w) g z putc getc f fd cs HC' HK order Ho e v e').
  - exact (run_off C K 65536 eq_refl (w_prog w) g z putc getc f fd cs HC' HK order Ho e).
  - exact (run_over C K 65536 eq_refl (w_prog w) g z putc getc f fd cs HC' HK order Ho e).
  - exact (run_not_beyond C K 65536 eq_refl (w_prog w) g z putc getc f fd cs HC' HK order Ho e).
Qed.
Print Assumptions C57_behaviour.

(** C57: not only the texts with matching brackets are accepted.  Of a loop that is never closed,
    the program that is built has a branch to a block that is not in the layout. *)
Theorem C57_unmatched : ∀ text, (N.of_nat (length text) < 2 ^ 28)%N → closes_opened text → ¬ balanced text →
  ∃ w, bf_build text = BfOk w ∧ stray (w_prog w).
Proof.
  intros text Ht Hc Hb. destruct (build_ok text Ht) as [(_ & w & E & _ & _ & HS)|(Hn & _)]; [|destruct (Hn Hc)].
  exists w. split; [exact E|]. destruct HS as [HS|HS]; [destruct (Hb HS)|exact HS].
Qed.
Print Assumptions C57_unmatched.

(** ** Examples *)
(** Some input, and the output *)
Definition some_console : console (list Z * list Z) :=
  Console (λ z e, (e.1, e.2 ++ [cell_wrap z])) (λ e, match e.1 with x :: l => (cell_wrap x, (l, e.2)) | [] => ((-1)%Z, e) end).
(** [putchar], and [getchar], that returns a negative number where there is no input *)
Definition some_foreign : xconfig (list Z * list Z) :=
  XConfig (list Z * list Z) true 8 (λ n,
    if String.eqb n "putchar" then Some (λ ws e, ((e.1, e.2 ++ [cell_wrap (Z.of_N (default 0%N (head ws)))]), 0%N))
    else if String.eqb n "getchar" then
      Some (λ _ e, match e.1 with x :: l => ((l, e.2), wide x) | [] => (e, wide (-1)) end)
    else None).
Definition bf_text (s : string) : list ascii := String.list_ascii_of_string s.
Definition bf_result (n : nat) (s : string) (e : list Z * list Z) : xres (Z * (list Z * list Z)) :=
  match bf_build (bf_text s) with
  | BfOk w => interpret some_foreign n (p_func_layout (w_prog w)) (w_prog w) e
  | _ => XBeyond
  end.
Lemma wrap_wide v : cell_wrap (Z.of_N (wide v)) = cell_wrap v.
Proof.
  unfold wide. rewrite Z2N.id by (apply Z.mod_pos_bound; reflexivity). unfold cell_wrap. f_equal.
  rewrite <- (Z.add_mod_idemp_l v) by discriminate.
  rewrite (Znumtheory.Zmod_div_mod (2 ^ 32) (Z.of_N two64) v); [|reflexivity..|exists (2 ^ 32)%Z; reflexivity].
  rewrite Z.add_mod_idemp_l by discriminate. reflexivity.
Qed.
(** The consoles are the same. *)
Lemma some_console_is : console_is some_foreign some_console.
Proof.
  split.
  - eexists. split; [reflexivity|]. intros v e. cbn [fst default head c_out some_console]. simpl. by rewrite wrap_wide.
  - eexists. split; [reflexivity|]. intros [[|x l] o]; [vm_compute; reflexivity|]. simpl. by rewrite wrap_wide.
Qed.
Ltac letter_ := first [eapply sp_letter; [constructor|] | eapply sp_comment; [split; [discriminate|split; [discriminate|intros k Hk; inversion Hk]]|] | apply sp_nil].
(** A program: the double of the number that is read; and what is written on the way *)
Definition double_text : string := ",[->++.<]>. done".
Definition double_cmds : list cmd := [CIn; CLoop [CMinus; CRight; CPlus; CPlus; COut; CLeft]; CRight; COut].
Lemma double_spells : spells (bf_text double_text) double_cmds.
Proof.
  eapply sp_letter; [constructor|].
  apply (sp_loop (bf_text "->++.<") [CMinus; CRight; CPlus; CPlus; COut; CLeft] (bf_text ">. done") [CRight; COut]); simpl; repeat letter_.
Qed.
Definition bf_checks (s : string) : bool :=
  match bf_build (bf_text s) with BfOk w => layout_lists_b (w_prog w) | _ => false end.
Lemma bf_result_ok n s e z e' : bf_checks s = true → bf_result n s e = XOk (z, e') → ∃ w, bf_build (bf_text s) = BfOk w ∧
  (∀ f, f ∈ p_func_layout (w_prog w) ↔ is_Some (p_funcs (w_prog w) !! f)) ∧
  interpret some_foreign n (p_func_layout (w_prog w)) (w_prog w) e = XOk (z, e').
Proof.
  unfold bf_checks, bf_result. generalize (bf_build (bf_text s)) as b. intros [w| |] H1 H2; [|discriminate H1..]. exists w.
  split; [reflexivity|]. split; [apply layout_lists; exact H1|exact H2].
Qed.
(** The hypotheses of C57, met by that program, and its outcome. *)
Example C57_example : ∃ w, (N.of_nat (length (bf_text double_text)) < 2 ^ 28)%N ∧
  closes_opened (bf_text double_text) ∧ balanced (bf_text double_text) ∧
  spells (bf_text double_text) double_cmds ∧ bf_build (bf_text double_text) = BfOk w ∧
  console_is some_foreign some_console ∧ (∀ f, f ∈ p_func_layout (w_prog w) ↔ is_Some (p_funcs (w_prog w) !! f)) ∧
  interpret some_foreign 400 (p_func_layout (w_prog w)) (w_prog w) ([2; 7]%Z, []) = XOk (0%Z, ([7]%Z, [2; 4; 4]%Z)).
Proof.
  destruct (bf_result_ok 400 double_text ([2; 7]%Z, []) 0 ([7]%Z, [2; 4; 4]%Z)) as (w & H1 & H2 & H3); [vm_compute; reflexivity..|].
  exists w. assert (B : balanced (bf_text double_text)) by (apply C57_meaning; eexists; exact double_spells).
  split; [vm_compute; reflexivity|]. split; [apply B|]. split; [exact B|]. split; [exact double_spells|]. split; [exact H1|].
  split; [exact some_console_is|]. split; [exact H2|exact H3].
Qed.
(** So the program runs to the end, with that output. *)
Example C57_example_runs : ∃ t, runs true 65536 some_console double_cmds (blank ([2; 7]%Z, [])) (Done t) ∧ t_io t = ([7]%Z, [2; 4; 4]%Z).
Proof.
  destruct C57_example as (w & Hl & _ & _ & Hs & Hw & HC & Ho & HR).
  destruct (C57_behaviour _ _ _ Hl Hs Hw _ _ _ _ HC Ho ([2; 7]%Z, [])) as (HD & _).
  apply (proj1 (HD 0%Z ([7]%Z, [2; 4; 4]%Z))). exists 400. exact HR.
Qed.
(** The other outcomes: the head leaves the tape; a bracket closes no loop; a loop
    is not closed; a cell overflows. *)
Example C57_outcomes : bf_result 400 "<" ([], []) = XErr ∧ bf_build (bf_text "+]") = BfParse ∧
  ¬ closes_opened (bf_text "+]") ∧ closes_opened (bf_text "[+") ∧ ¬ balanced (bf_text "[+") ∧
  bf_result 400 "[+" ([], []) = XPanic ∧ bf_result 400 ",+" ([2147483647]%Z, []) = XPanic.
Proof.
  split; [vm_compute; reflexivity|]. split; [vm_compute; reflexivity|]. split; [|split; [|split; [|split]]].
  - intros H. specialize (H (bf_text "+]") [] eq_refl). vm_compute in H. inversion H.
  - intros [|a1 [|a2 [|a3 a]]] b E; [|injection E as <- _|injection E as <- <- _|discriminate E]; vm_compute; repeat constructor.
  - intros [_ H]. discriminate H.
  - vm_compute. reflexivity.
  - vm_compute. reflexivity.
Qed.
(** Brackets need not match. *)
Theorem C57_unmatched_refuted : ∃ text w, bf_build text = BfOk w ∧ ¬ balanced text ∧ stray (w_prog w).
Proof.
  assert (H : closes_opened (bf_text "[+") ∧ ¬ balanced (bf_text "[+")) by (split; apply C57_outcomes).
  destruct (C57_unmatched (bf_text "[+") eq_refl (proj1 H) (proj2 H)) as (w & Hw & Hs). exists (bf_text "[+"), w.
  split; [exact Hw|]. split; [apply H|exact Hs].
Qed.
Print Assumptions C57_unmatched_refuted.
