(** C44: the programs that the front end returns are consistent and well typed. *)
From Coq Require Import Lia.
From Verif Require Import Base IdModel TypeModel IrModel WorldModel LexerModel LexerProofs
  ParserModel ParserSpec ParserProofs FrontModel DriverModel DriverSpec DfgSpec TypingSpec FlowSpec
  HistoryProofs DriverProperties FrontProperties.

(** C44: if the driver returns a program for a text, then in that program every use list is
    exactly the set of users, every operand and target exists, and every value is well typed;
    the initializers of the text must not have as many values as there are identifiers of
    global values. *)
Theorem C44_consistent : ∀ r p n b s ts s',
  read_program r = (Rok p, n, b) → driver_new r = (Rok s, 0%N) → parses s ts s' →
  (foldr (λ t n, globals_in t + n) 0 ts < local_value_id_starts_from)%N →
  use_lists_exact p ∧ no_dangling p ∧ well_typed p.
Proof. exact read_consistent. Qed.
Print Assumptions C44_consistent.

(** Nested initializers, a loop with block parameters, calls, uses of globals. *)
Definition consistent_text : string :=
  "global @g = alloc [[i32, 2], 2], {{1, 2}, zeroinit} decl @f(i32, *i32): i32
   fun @h(@n: i32): i32 {
   %entry: %0 = getelemptr @g, @n %1 = getelemptr %0, 1 jump %loop(0, @n)
   %loop(%i: i32, %s: i32): %c = lt %i, 10 br %c, %body, %end
   %body: %v = load %1 %r = call @f(%v, %1) %t = add %s, %r %j = add %i, 1 jump %loop(%j, %t)
   %end: store %s, %1 ret %s
   }".
Example C44_example : ∃ p b s ts s',
  read_program (RByte <$> String.list_ascii_of_string consistent_text) = (Rok p, 0%N, b) ∧
  driver_new (RByte <$> String.list_ascii_of_string consistent_text) = (Rok s, 0%N) ∧
  parses s ts s' ∧ length ts = 3 ∧
  (0 < foldr (λ t n, globals_in t + n) 0 ts < local_value_id_starts_from)%N.
Proof.
  destruct (trees_text consistent_text) as [ts|] eqn:E; [|vm_compute in E; discriminate].
  assert (Hn : match trees_text consistent_text with
    | Some ts => (length ts =? 3)%nat && (0 <? foldr (λ t n, globals_in t + n) 0 ts)%N &&
        (foldr (λ t n, globals_in t + n) 0 ts <? local_value_id_starts_from)%N
    | None => false end = true) by (vm_compute; reflexivity).
  rewrite E in Hn. apply andb_true_iff in Hn as [Hn1 Hn3]. apply andb_true_iff in Hn1 as [Hn1 Hn2].
  destruct (accepted_check consistent_text ts) as (s & s' & p & b & H1 & H2 & H3 & _); [vm_compute; reflexivity|done|].
  exists p, b, s, ts, s'. split_and!; [done..|by apply Nat.eqb_eq|by apply N.ltb_lt|by apply N.ltb_lt].
Qed.
