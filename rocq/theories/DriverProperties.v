(** C23, C24: the driver of the front end. *)
From Coq Require Import Lia.
From Verif Require Import Base IdModel TypeModel IrModel WorldModel LexerModel LexerProofs
  ParserModel ParserSpec ParserProofs FrontModel DriverModel DriverSpec FrontProofs DriverProofs.

(** C23: for every input (bytes and I/O errors), whatever the counters of the thread and of
    the process, creating a driver and generating a program ends: no loop of the lexer, the
    parser, the builder or the driver runs out of the fuel that the model gives it (which
    only depends on the length of the input). *)
Theorem C23_terminates : ∀ r d e0 i e w,
  driver_new r = (d, e0) → d ≠ Rfuel ∧ (generate i d e w).1.1 ≠ Rfuel.
Proof.
  intros r d e0 i e w H. split; [by apply driver_spec in H as (? & _)|].
  by destruct (generate_terminates r d e0 i e w H).
Qed.
Print Assumptions C23_terminates.

(** C23: the parser reaches the end of the text or an error after finitely many
    definitions. *)
Theorem C23_parser_terminates : ∀ s,
  inv (p_lex s) → (∃ ts s', parses s ts s') ∨ (∃ f s', parse_fails s f s').
Proof. exact parse_all. Qed.
Print Assumptions C23_parser_terminates.

(** What the outcome of a run looks like: its kind and the number of errors. *)
Definition outcome_of (x : res program * N * bstate) : string * N :=
  match x with
  | (Rok _, n, _) => ("program", n)
  | (Rerr _, n, _) => ("error", n)
  | (Rpanic, n, _) => ("panic", n)
  | (Rfuel, n, _) => ("out of fuel", n)
  end%string.
Definition run_text (t : string) : string * N :=
  outcome_of (read_program (RByte <$> String.list_ascii_of_string t)).

(** Unfinished comments, blocks and lists, stray tokens, a program. *)
Example C23_example :
  run_text "fun @f( {" = ("error", 1%N)%string ∧
  run_text "fun @f() { %a: x = /* " = ("error", 2%N)%string ∧
  run_text "global @g = alloc i32, {1, {2" = ("error", 1%N)%string ∧
  run_text "decl @f(): i32 decl @g() }" = ("error", 1%N)%string ∧
  run_text "decl @f(): i32 fun @g() { %a: jump %b %b: br 1, %c, %d %c: jump %b %d: ret
   }" = ("program", 0%N)%string.
Proof. vm_compute. split_and!; reflexivity. Qed.

(** C24: a program is returned only if the counter of errors was and stays zero, no part of
    the text was skipped because of an error, and building each definition reported no
    error; the program is what the builder has built. *)
Theorem C24_no_error_lost : ∀ r d e0 i e w p n b,
  driver_new r = (d, e0) → generate i d e w = (Rok p, n, b) →
  e = 0%N ∧ n = 0%N ∧ ∃ s ts s',
    d = Rok s ∧ parses s ts s' ∧ errs (p_lex s') = 0%N ∧
    Forall top_shape ts ∧ Forall no_err_top ts ∧
    builds (bstate0 i 0 w) ts b ∧ b_errs b = 0%N ∧ p = w_prog (b_world b).
Proof. exact generate_ok. Qed.
Print Assumptions C24_no_error_lost.

(** C24: conversely such a text is accepted. *)
Theorem C24_accepts : ∀ r s i w ts s' b,
  driver_new r = (Rok s, 0%N) → parses s ts s' → errs (p_lex s') = 0%N →
  builds (bstate0 i 0 w) ts b →
  generate i (Rok s) 0 w = (Rok (w_prog (b_world b)), 0%N, b).
Proof. exact generate_accepts. Qed.
Print Assumptions C24_accepts.

(** C24: errors are never uncounted: if some were counted before, or are counted in the
    run, then no program is returned; and if the first token is wrong, neither. *)
Theorem C24_counted : ∀ r d e0 i e w,
  driver_new r = (d, e0) →
  (e ≤ (generate i d e w).1.2)%N ∧
  ((generate i d e w).1.2 ≠ 0%N → ∀ p, (generate i d e w).1.1 ≠ Rok p) ∧
  (e0 ≠ 0%N → ∀ p, (generate i d e w).1.1 ≠ Rok p).
Proof.
  intros r d e0 i e w H. pose proof (generate_terminates r d e0 i e w H) as [_ Hle].
  split_and!; [done| |].
  - intros Hn p Hp. destruct (generate i d e w) as [[r' n] b] eqn:E. simpl in *. subst r'.
    destruct (generate_ok _ _ _ _ _ _ _ _ _ H E) as (_ & -> & _). done.
  - intros Hn p Hp. destruct (generate i d e w) as [[r' n] b] eqn:E. simpl in *. subst r'.
    destruct (generate_ok _ _ _ _ _ _ _ _ _ H E) as (_ & _ & s & _ & _ & -> & _).
    apply driver_spec in H as (_ & _ & H & _). destruct (H s eq_refl) as (_ & _ & ->). done.
Qed.
Print Assumptions C24_counted.

(** C24: every way in which the builder gives up on a statement, other than meeting a
    statement that the parser has already reported, is counted. *)
Theorem C24_statement_errors : ∀ f bb ret st s x s',
  gen_stmt f bb ret st s = (Rerr x, s') → st ≠ SErr → (b_errs s < b_errs s')%N.
Proof.
  intros f bb ret st s x s' H Hne. pose proof (sane_stmt f bb ret st s) as [_ _ S].
  rewrite H in S. specialize (S x eq_refl). destruct st; done || exact S.
Qed.
Print Assumptions C24_statement_errors.

(** Errors of the lexer, the parser and the builder, and recovery after them. *)
Example C24_example :
  run_text "$ decl @f()" = ("error", 1%N)%string ∧
  run_text "decl @f() global @g = alloc i32 decl @g()" = ("error", 1%N)%string ∧
  run_text "fun @f() { %a: %x = load %y ret
   }" = ("error", 1%N)%string ∧
  run_text "fun @f() { %a: %x = call @f() %x = add 1, 2 %y = add %x, %x ret
   }" = ("error", 2%N)%string ∧
  run_text "" = ("program", 0%N)%string.
Proof. vm_compute. split_and!; reflexivity. Qed.
