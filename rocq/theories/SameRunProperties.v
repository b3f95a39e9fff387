(** C64: what is printed for a program does what the program does. *)
From Coq Require Import Lia ZifyBool ZifyNat ZifyN.
From Verif Require Import Base IdModel TypeModel IrModel WorldModel LexerModel ParserModel ParserSpec FrontModel
  LayoutModel DfgSpec FlowSpec DriverModel DriverSpec DriverProperties FrontProperties PrintSpec FaithSpec FaithTopProofs KoopaModel CanonSpec CanonReadProofs CanonProperties
  TreeWfProofs RetreeProgProofs AcceptSpec ReadAgainProofs AgainProperties RegularProofs InterpModel InterpProperties IsoRunSpec SameProgProofs SameReadProofs.

(** A text that is accepted, as in C29 *)
Definition accepted (r : list revent) (p : program) : Prop :=
  (∀ c, RByte c ∈ r → is_ascii c) ∧ ordinary_functions p ∧ short_program p ∧
  ∃ n b s ts s', read_program r = (Rok p, n, b) ∧ driver_new r = (Rok s, 0%N) ∧ parses s ts s' ∧ small ts.
(** The example interpreter does the same with both programs: the same result, panic, error or
    exhausted bound, and the same calls of foreign functions with the same arguments, whatever
    foreign functions are and whatever the order in which functions are visited. *)
Definition run_alike (p p' : program) : Prop :=
  ∀ E (C : xconfig E) fuel order order' e, all_functions p order → all_functions p' order' →
    interpret C fuel order p e = interpret C fuel order' p' e.

(** C64: the program of an accepted text is printed, the printed text is accepted, and the program
    that is read from it does the same as the first one. *)
Theorem C64_printed_runs : ∀ r p, accepted r p →
  ∃ t p' b', print_program p = Rok t ∧ read_program (RByte <$> String.list_ascii_of_string t) = (Rok p', 0%N, b') ∧ run_alike p p'.
Proof.
  intros r p (Ha & Ho & Hs & n & b & s & ts & s' & Hr & Hd & Hp & Hsm). pose proof (small_globals _ Hsm) as Hb.
  destruct (read_prints _ _ _ _ _ _ _ Ha Hr Hd Hp Hb Ho Hs) as (gs & fs & H1 & H2 & H3).
  destruct (read_well _ _ _ _ _ _ _ _ _ Hr Hd Hp Hsm H2 H3) as [Hw Hsm'].
  destruct (text_accepted gs fs) as (p' & b' & Hr'); [apply H2|apply H2|exact Hw|exact Hsm'|].
  exists (text_program gs fs), p', b'. split; [exact H1|]. split; [exact Hr'|]. intros E. exact (printed_runs _ _ _ _ _ _ _ _ _ _ _ _ Hr Hd Hp Hsm H2 H3 Hr' E).
Qed.
Print Assumptions C64_printed_runs.

(** C64: the functions of the program that is read from the printed text have the names and types
    of those of the first program, in the same order. *)
Theorem C64_printed_functions : ∀ r p, accepted r p →
  ∃ t p' b', print_program p = Rok t ∧ read_program (RByte <$> String.list_ascii_of_string t) = (Rok p', 0%N, b') ∧
    signatures p = signatures p'.
Proof.
  intros r p (Ha & Ho & Hs & n & b & s & ts & s' & Hr & Hd & Hp & Hsm). pose proof (small_globals _ Hsm) as Hb.
  destruct (read_prints _ _ _ _ _ _ _ Ha Hr Hd Hp Hb Ho Hs) as (gs & fs & H1 & H2 & H3).
  destruct (read_well _ _ _ _ _ _ _ _ _ Hr Hd Hp Hsm H2 H3) as [Hw Hsm'].
  destruct (text_accepted gs fs) as (p' & b' & Hr'); [apply H2|apply H2|exact Hw|exact Hsm'|].
  exists (text_program gs fs), p', b'. split; [exact H1|]. split; [exact Hr'|]. exact (proj1 (printed_both _ _ _ _ _ _ _ _ _ _ _ _ Hr Hd Hp Hsm H2 H3 Hr')).
Qed.
Print Assumptions C64_printed_functions.

(** C64: programs of accepted texts that are printed alike do the same. *)
Theorem C64_same_text_runs : ∀ r1 p1 r2 p2, accepted r1 p1 → accepted r2 p2 → print_program p1 = print_program p2 → run_alike p1 p2.
Proof.
  intros r1 p1 r2 p2 (Ha1 & Ho1 & Hs1 & n1 & b1 & s1 & ts1 & s1' & Hr1 & Hd1 & Hp1 & Hsm1) (Ha2 & Ho2 & Hs2 & n2 & b2 & s2 & ts2 & s2' & Hr2 & Hd2 & Hp2 & Hsm2) Eq.
  pose proof (small_globals _ Hsm1) as Hb1. pose proof (small_globals _ Hsm2) as Hb2.
  destruct (read_prints _ _ _ _ _ _ _ Ha1 Hr1 Hd1 Hp1 Hb1 Ho1 Hs1) as (gs1 & fs1 & A1 & A2 & A3).
  destruct (read_prints _ _ _ _ _ _ _ Ha2 Hr2 Hd2 Hp2 Hb2 Ho2 Hs2) as (gs2 & fs2 & B1 & B2 & B3).
  destruct (read_well _ _ _ _ _ _ _ _ _ Hr1 Hd1 Hp1 Hsm1 A2 A3) as [Hw Hsm].
  destruct (text_accepted gs1 fs1) as (p' & b' & Hr'); [apply A2|apply A2|exact Hw|exact Hsm|].
  assert (Et : text_program gs1 fs1 = text_program gs2 fs2) by congruence. pose proof Hr' as Hr2'. rewrite Et in Hr2'.
  assert (HL : all_functions p' (p_func_layout p')).
  { destruct (read_again _ _ _ _ _ (proj1 A2) (proj1 (proj2 A2)) Hr') as (u & u' & Hd' & Hp'). intros f. symmetry.
    exact (fr_funcs _ (read_front _ _ _ _ _ _ _ Hr' Hd' Hp' (small_globals _ Hsm)) f). }
  intros E C fuel order order' e O1 O2. etrans.
  - exact (printed_runs _ _ _ _ _ _ _ _ _ _ _ _ Hr1 Hd1 Hp1 Hsm1 A2 A3 Hr' E C fuel order _ e O1 HL).
  - symmetry. exact (printed_runs _ _ _ _ _ _ _ _ _ _ _ _ Hr2 Hd2 Hp2 Hsm2 B2 B3 Hr2' E C fuel order' _ e O2 HL).
Qed.
Print Assumptions C64_same_text_runs.

(** *** An example *)
(** Spaces and comments, global variables after functions, blocks out of order and one that
    cannot be reached, a surplus argument, a result that is not used, and names that are not
    the printer's or that are names of functions, too. *)
Definition same_source : string := "// squares
decl @p(i32): i32
fun @square(%7: i32): i32 { %e: %9 = mul %7, %7  ret %9 }
global %8 = alloc [i32, 2], {5, undef}
fun @main(): i32 {
  %entry: @square = alloc [i32, 3]  jump %loop(0, 7)
  %end: %r = getelemptr @square, 2  %l = load %r  %q = getelemptr %8, 0  %m = load %q  %n = add %l, %m  ret %n
  %dead: jump %dead
  %loop(%i: i32): %c = lt %i, 3  br %c, %body, %end
  %body: %12 = getelemptr @square, %i  %s = call @square(%i)  store %s, %12  call @p(%s)  jump %next
  %next: %j = add %i, 1  jump %loop(%j)
}"%string.
Definition same_printed : string := "global %0 = alloc [i32, 2], {5, undef}

decl @p(i32): i32

fun @square(%1: i32): i32 {
%e:
  %2 = mul %1, %1
  ret %2
}

fun @main(): i32 {
%entry:
  @square_0 = alloc [i32, 3]
  jump %loop(0)

%loop(%i: i32):
  %c = lt %i, 3
  br %c, %body, %end

%body:
  %3 = getelemptr @square_0, %i
  %s = call @square(%i)
  store %s, %3
  %4 = call @p(%s)
  jump %next

%end:
  %r = getelemptr @square_0, 2
  %l = load %r
  %q = getelemptr %0, 0
  %m = load %q
  %n = add %l, %m
  ret %n

%next:
  %j = add %i, 1
  jump %loop(%j)
}
"%string.
Definition same_check (t u : string) (a : Z) (l : list N) : bool :=
  again_check t &&
  match read_program (RByte <$> String.list_ascii_of_string t) with
  | (Rok p, _, _) =>
      match print_program p with Rok s => String.eqb s u | _ => false end && layout_lists_b p &&
      match interpret recorder 40 (p_func_layout p) p [] with XOk (b, k) => (a =? b)%Z && bool_decide (l = k) | _ => false end
  | _ => false
  end.
Lemma same_check_ok t u a l : same_check t u a l = true → ∃ p, accepted (RByte <$> String.list_ascii_of_string t) p ∧ print_program p = Rok u ∧
  all_functions p (p_func_layout p) ∧ interpret recorder 40 (p_func_layout p) p [] = XOk (a, l).
Proof.
  unfold same_check. intros [H K]%andb_true_iff. apply again_check_ok in H as (p & n & b & s & ts & s' & H1 & H2 & H3 & H4 & H5 & H6 & H7).
  rewrite H2 in K. apply andb_true_iff in K as [[K1 K2]%andb_true_iff K3]. exists p. split.
  { split; [exact H1|]. split; [exact H6|]. split; [exact H7|]. exists n, b, s, ts, s'. split; [exact H2|]. split; [exact H3|]. split; [exact H4|exact H5]. }
  split; [destruct (print_program p) as [x| | |]; try discriminate K1; apply String.eqb_eq in K1; by rewrite K1|]. split; [exact (layout_lists _ K2)|].
  destruct (interpret recorder 40 (p_func_layout p) p []) as [[z k]| | | |]; try discriminate K3. apply andb_true_iff in K3 as [K3%Z.eqb_eq K4%bool_decide_eq_true]. by subst.
Qed.
(** The hypotheses of the theorems are met by both texts; the programs return 9 and call the
    foreign function with 0, 1 and 4. *)
Example C64_example : ∃ p1 p2,
  accepted (RByte <$> String.list_ascii_of_string same_source) p1 ∧ accepted (RByte <$> String.list_ascii_of_string same_printed) p2 ∧
  print_program p1 = Rok same_printed ∧ print_program p2 = Rok same_printed ∧
  all_functions p1 (p_func_layout p1) ∧ all_functions p2 (p_func_layout p2) ∧
  interpret recorder 40 (p_func_layout p1) p1 [] = XOk (9%Z, [0; 1; 4]%N) ∧ interpret recorder 40 (p_func_layout p2) p2 [] = XOk (9%Z, [0; 1; 4]%N).
Proof.
  destruct (same_check_ok same_source same_printed 9 [0; 1; 4]%N) as (p1 & A1 & A2 & A3 & A4); [vm_compute; reflexivity|].
  destruct (same_check_ok same_printed same_printed 9 [0; 1; 4]%N) as (p2 & B1 & B2 & B3 & B4); [vm_compute; reflexivity|].
  exists p1, p2. split; [exact A1|]. split; [exact B1|]. split; [exact A2|]. split; [exact B2|]. split; [exact A3|]. split; [exact B3|]. split; [exact A4|exact B4].
Qed.
