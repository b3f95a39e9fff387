(** Model of koopa/src/front/driver.rs: from a reader to a program.

    The thread-local counters (koopa/src/front/span.rs:463-467 [GlobalState]) are passed
    explicitly; in [generate] they live in the lexer and are handed to the builder for the
    time of [build_on]. *)
From Verif Require Import Base IdModel TypeModel IrModel WorldModel LexerModel ParserModel
  FrontModel.

(** koopa/src/front/driver.rs:17-20 [Driver]; the builder of a new driver is empty *)
Definition driver := res ps.

(** koopa/src/front/driver.rs:27-33 [Driver::new]: [Span::reset]
    (koopa/src/front/span.rs:129-137) sets the counters to 0, whatever they were; returns
    the driver and the number of errors logged while reading the first token *)
Definition driver_new (r : list revent) : driver * N :=
  let '(p, l) := parser_new (lex_new r 0) in (p, errs l).

(** koopa/src/front/driver.rs:24 [MAX_ERR_NUM] *)
Definition max_err_num : N := 20.

(** The counter of errors (koopa/src/front/span.rs:113-121, 232-234), which is global in the
    code and a field of the lexer here *)
Definition set_perrs (n : N) (s : ps) : ps :=
  Ps (Lex (rd (p_lex s)) (lpos (p_lex s)) (last (p_lex s)) n) (p_cur s).

(** koopa/src/front/driver.rs:39-62: the loop of [generate_program] and what follows it;
    returns the result, the number of errors and the builder.  The fuel bounds the number
    of definitions in the text, see DriverProofs.drive_fuel. *)
Fixpoint drive (fuel : nat) (s : ps) (b : bstate) : res program * N * bstate :=
  match fuel with
  | O => (Rfuel, errs (p_lex s), b)
  | S f =>
      match parse_next s with
      | (Rok TEnd, s1) =>
          let e := errs (p_lex s1) in
          if (e =? 0)%N then (Rok (w_prog (b_world b)), e, b) else (Rerr false, e, b)
      | (Rok t, s1) =>
          match build_on t (set_errs (errs (p_lex s1)) b) with
          | (Rok _, b1) =>
              if (max_err_num <? b_errs b1)%N then (Rerr false, (b_errs b1 + 1)%N, b1)
              else drive f (set_perrs (b_errs b1) s1) b1
          | (Rerr x, b1) => (Rerr x, b_errs b1, b1)
          | (Rpanic, b1) => (Rpanic, b_errs b1, b1)
          | (Rfuel, b1) => (Rfuel, b_errs b1, b1)
          end
      | (Rerr x, s1) => (Rerr x, errs (p_lex s1), b)
      | (Rpanic, s1) => (Rpanic, errs (p_lex s1), b)
      | (Rfuel, s1) => (Rfuel, errs (p_lex s1), b)
      end
  end.

(** koopa/src/front/driver.rs:37-63 [generate_program], when the counters of the thread
    are [e] and [w] and the id counters of the process are [i] *)
Definition generate (i : ids) (d : driver) (e w : N) : res program * N * bstate :=
  let b := bstate0 i e w in
  match d with
  | Rok s => drive (p_fuel s) (set_perrs e s) b
  | Rerr x => (Rerr x, e, b)
  | Rpanic => (Rpanic, e, b)
  | Rfuel => (Rfuel, e, b)
  end.

(** [Driver::from(text).generate_program()] (koopa/src/front/driver.rs:83-95) in a fresh
    process *)
Definition read_program (r : list revent) : res program * N * bstate :=
  let '(d, e) := driver_new r in generate ids0 d e 0.
