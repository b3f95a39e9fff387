(** C29: what is printed for a text that was read is read again and printed the same. *)
From Coq Require Import Lia ZifyBool ZifyNat ZifyN.
From Verif Require Import Base IdModel TypeModel IrModel WorldModel LexerModel ParserModel ParserSpec FrontModel
  LayoutModel DfgSpec FlowSpec DriverModel DriverSpec DriverProperties FrontProperties PrintSpec FaithSpec FaithTopProofs KoopaModel CanonSpec CanonReadProofs CanonProperties
  TreeWfProofs RetreeProgProofs AcceptSpec ReadAgainProofs.

(** C29: let a text of ASCII characters be accepted that consists of fewer than 2^30 values,
    blocks and functions, and the program have functions with ordinary names and no array of
    2^63 or more elements.  Then the program is printed; the printed text is canonical; it is
    accepted without errors; and the program that is read from it is printed as the same text. *)
Theorem C29_printed_again : ∀ r p n b s ts s',
  (∀ c, RByte c ∈ r → is_ascii c) →
  read_program r = (Rok p, n, b) → driver_new r = (Rok s, 0%N) → parses s ts s' → small ts →
  ordinary_functions p → short_program p →
  ∃ gs fs, print_program p = Rok (text_program gs fs) ∧ canonical gs fs ∧
    ∃ p' b', read_program (RByte <$> String.list_ascii_of_string (text_program gs fs)) = (Rok p', 0%N, b') ∧
      print_program p' = Rok (text_program gs fs).
Proof.
  intros r p n b s ts s' Ha Hr Hd Hp Hsm Ho Hs. pose proof (small_globals _ Hsm) as Hb.
  destruct (read_prints _ _ _ _ _ _ _ Ha Hr Hd Hp Hb Ho Hs) as (gs & fs & H1 & H2 & H3).
  exists gs, fs. split; [exact H1|]. split; [exact H2|].
  destruct (read_well _ _ _ _ _ _ _ _ _ Hr Hd Hp Hsm H2 H3) as [Hw Hsm'].
  destruct (text_accepted gs fs) as (p' & b' & Hr'); [apply H2|apply H2|exact Hw|exact Hsm'|].
  exists p', b'. split; [exact Hr'|]. apply (read_canonical _ _ p' 0%N b' H2); [|exact Hr'].
  by apply small_globals.
Qed.
Print Assumptions C29_printed_again.

(** C29: the printed text is well-formed in the sense of C49: the rules of AcceptSpec.v hold
    of the text that is printed for any accepted text. *)
Theorem C29_printed_well_formed : ∀ r p n b s ts s',
  (∀ c, RByte c ∈ r → is_ascii c) →
  read_program r = (Rok p, n, b) → driver_new r = (Rok s, 0%N) → parses s ts s' → small ts →
  ordinary_functions p → short_program p →
  ∃ gs fs, print_program p = Rok (text_program gs fs) ∧ well_formed (gs ++ fs) ∧ small (gs ++ fs).
Proof.
  intros r p n b s ts s' Ha Hr Hd Hp Hsm Ho Hs. pose proof (small_globals _ Hsm) as Hb.
  destruct (read_prints _ _ _ _ _ _ _ Ha Hr Hd Hp Hb Ho Hs) as (gs & fs & H1 & H2 & H3).
  exists gs, fs. split; [exact H1|]. exact (read_well _ _ _ _ _ _ _ _ _ Hr Hd Hp Hsm H2 H3).
Qed.
Print Assumptions C29_printed_well_formed.

(** *** Checking the hypotheses of an example *)
Fixpoint short_check (t : ty) : bool :=
  match t with
  | TInt32 | TUnit => true
  | TArray b n => short_check b && (n <? 2 ^ 63)%N
  | TPtr b => short_check b
  | TFun ps r => forallb short_check ps && short_check r
  end.
Lemma short_check_ok : ∀ t, short_check t = true → short t.
Proof.
  fix IH 1. intros [| |b n|b|ps r]; simpl; intros H.
  - constructor.
  - constructor.
  - apply andb_true_iff in H as [H1 H2]. constructor; [exact (IH b H1)|exact (proj1 (N.ltb_lt _ _) H2)].
  - constructor. exact (IH b H).
  - apply andb_true_iff in H as [H1 H2]. constructor; [|exact (IH r H2)]. clear H2. revert H1. induction ps as [|a ps IHp]; intros H1; [constructor|].
    simpl in H1. apply andb_true_iff in H1 as [H1 H3]. constructor; [exact (IH a H1)|exact (IHp H3)].
Qed.
Definition short_program_check (p : program) : bool :=
  forallb (λ x : N * vdata, short_check (v_ty x.2)) (map_to_list (p_values p)) &&
  forallb (λ x : N * fdata, short_check (f_ty x.2) &&
    forallb (λ x : N * vdata, short_check (v_ty x.2)) (map_to_list (d_values (f_dfg x.2)))) (map_to_list (p_funcs p)).
Lemma short_program_ok p : short_program_check p = true → short_program p.
Proof.
  unfold short_program_check. intros [H1 H2]%andb_true_iff. rewrite forallb_forall in H1, H2. split.
  - intros v d Hv. apply elem_of_map_to_list, elem_of_list_In, H1, short_check_ok in Hv. exact Hv.
  - intros f fd Hf. apply elem_of_map_to_list, elem_of_list_In, H2 in Hf. apply andb_true_iff in Hf as [H3 H4]. rewrite forallb_forall in H4.
    split; [by apply short_check_ok|]. intros v d Hv. apply elem_of_map_to_list, elem_of_list_In, H4, short_check_ok in Hv. exact Hv.
Qed.
Definition ordinary_functions_check (p : program) : bool :=
  forallb (λ x : N * fdata, ordinary_check (f_name x.2)) (map_to_list (p_funcs p)).
Lemma ordinary_functions_ok p : ordinary_functions_check p = true → ordinary_functions p.
Proof.
  unfold ordinary_functions_check. rewrite forallb_forall. intros H f fd Hf. apply elem_of_map_to_list, elem_of_list_In, H, ordinary_check_ok in Hf. exact Hf.
Qed.

Definition again_check (t : string) : bool :=
  match run_text t with (x, n) => String.eqb x "program" && (n =? 0)%N end &&
  forallb (λ c, (N_of_ascii c <? 128)%N) (String.list_ascii_of_string t) &&
  match trees_text t with Some l => sum_of top_size l <? 2 ^ 30 | None => false end%N &&
  match read_program (RByte <$> String.list_ascii_of_string t) with
  | (Rok p, _, _) => ordinary_functions_check p && short_program_check p
  | _ => false
  end.
Lemma again_check_ok t : again_check t = true →
  ∃ p n b s ts s', let r := RByte <$> String.list_ascii_of_string t in
    (∀ c, RByte c ∈ r → is_ascii c) ∧ read_program r = (Rok p, n, b) ∧ driver_new r = (Rok s, 0%N) ∧ parses s ts s' ∧
    small ts ∧ ordinary_functions p ∧ short_program p.
Proof.
  unfold again_check. intros [[[H1 H2]%andb_true_iff H3]%andb_true_iff H4]%andb_true_iff.
  destruct (trees_text t) as [ts|] eqn:Et; [|discriminate H3].
  destruct (run_text t) as [x k] eqn:Er. apply andb_true_iff in H1 as [->%String.eqb_eq ->%N.eqb_eq].
  destruct (accepted_check t ts Er Et) as (s & s' & p & b & Hd & Hp & Hr & _).
  rewrite Hr in H4. apply andb_true_iff in H4 as [H4 H5].
  exists p, 0%N, b, s, ts, s'. split.
  { rewrite forallb_forall in H2. intros c Hc. apply elem_of_list_fmap in Hc as (c' & [= <-] & Hc). apply elem_of_list_In, H2, N.ltb_lt in Hc. exact Hc. }
  split; [exact Hr|]; split; [exact Hd|]; split; [exact Hp|]. split; [by apply N.ltb_lt|].
  split; [by apply ordinary_functions_ok|by apply short_program_ok].
Qed.

(** Spaces and comments, a global variable after a function, blocks out of order and one
    that cannot be reached, a surplus argument, a result that is not used, and names that are
    not the printer's. *)
Definition again_text : string := "// a text
fun @f(%7: i32): i32 { %start: %0 = alloc i32  store %7, %0  jump %c
 %b(@f: i32): %2 = call @f(@f)  ret %2
 %dead: jump %dead
 %c: call @f(1)  br %7, %b(1), %d
 %d: jump %b(2, 3) }
global %8 = alloc [i32, 2], {1, 2}
decl @k(*i32): i32"%string.
Example C29_again_example :
  ∃ p n b s ts s', let r := RByte <$> String.list_ascii_of_string again_text in
    (∀ c, RByte c ∈ r → is_ascii c) ∧ read_program r = (Rok p, n, b) ∧ driver_new r = (Rok s, 0%N) ∧ parses s ts s' ∧
    small ts ∧ ordinary_functions p ∧ short_program p.
Proof. apply again_check_ok. vm_compute. reflexivity. Qed.
Definition again_printed : string := "global %0 = alloc [i32, 2], {1, 2}

fun @f(%1: i32): i32 {
%start:
  %2 = alloc i32
  store %1, %2
  jump %c

%c:
  %3 = call @f(1)
  br %1, %b(1), %d

%b(@f_0: i32):
  %4 = call @f(@f_0)
  ret %4

%d:
  jump %b(2)
}

decl @k(*i32): i32
".
Example C29_again_text : prints again_text again_printed = true ∧ prints again_printed again_printed = true.
Proof. split; vm_compute; reflexivity. Qed.

(** Without the hypotheses about the program the printed text need not be accepted: a function
    called [%0] has the name that is given to the first variable without one, and a length that
    was written as a negative number is printed as a number that cannot be read. *)
Definition stays_out (t : string) : bool :=
  forallb (λ c, (N_of_ascii c <? 128)%N) (String.list_ascii_of_string t) &&
  match read_program (RByte <$> String.list_ascii_of_string t) with
  | (Rok p, _, _) =>
      match print_program p with
      | Rok u => match read_program (RByte <$> String.list_ascii_of_string u) with (Rok _, _, _) => false | _ => true end
      | _ => false
      end
  | _ => false
  end.
Lemma stays_out_ok t : stays_out t = true →
  let r := RByte <$> String.list_ascii_of_string t in
  ∃ p n b u, (∀ c, RByte c ∈ r → is_ascii c) ∧ read_program r = (Rok p, n, b) ∧ print_program p = Rok u ∧
    ∀ p' n' b', read_program (RByte <$> String.list_ascii_of_string u) ≠ (Rok p', n', b').
Proof.
  unfold stays_out. intros [H1 H2]%andb_true_iff.
  destruct (read_program (RByte <$> String.list_ascii_of_string t)) as [[[p|f| |] n] b] eqn:Er; try discriminate H2.
  destruct (print_program p) as [u|f| |] eqn:Ep; try discriminate H2. exists p, n, b, u. split.
  { rewrite forallb_forall in H1. intros c Hc. apply elem_of_list_fmap in Hc as (c' & [= <-] & Hc). apply elem_of_list_In, H1, N.ltb_lt in Hc. exact Hc. }
  split; [reflexivity|]. split; [exact Ep|]. intros p' n' b' Hr. rewrite Hr in H2. discriminate H2.
Qed.
Theorem C29_any_name_refuted : ∃ t p n b u,
  read_program (RByte <$> String.list_ascii_of_string t) = (Rok p, n, b) ∧ (∀ c, RByte c ∈ (RByte <$> String.list_ascii_of_string t) → is_ascii c) ∧
  short_program p ∧ print_program p = Rok u ∧
  ∀ p' n' b', read_program (RByte <$> String.list_ascii_of_string u) ≠ (Rok p', n', b').
Proof.
  set (t := "global %5 = alloc i32, 1
decl %0()"%string).
  destruct (stays_out_ok t) as (p & n & b & u & H1 & H2 & H3 & H4); [vm_compute; reflexivity|].
  assert (K : match read_program (RByte <$> String.list_ascii_of_string t) with (Rok q, _, _) => short_program_check q | _ => false end = true)
    by (vm_compute; reflexivity).
  rewrite H2 in K. exists t, p, n, b, u. split; [exact H2|]. split; [exact H1|]. split; [apply short_program_ok; exact K|]. split; [exact H3|exact H4].
Qed.
Print Assumptions C29_any_name_refuted.
Theorem C29_any_length_refuted : ∃ t p n b u,
  read_program (RByte <$> String.list_ascii_of_string t) = (Rok p, n, b) ∧ (∀ c, RByte c ∈ (RByte <$> String.list_ascii_of_string t) → is_ascii c) ∧
  ordinary_functions p ∧ print_program p = Rok u ∧
  ∀ p' n' b', read_program (RByte <$> String.list_ascii_of_string u) ≠ (Rok p', n', b').
Proof.
  set (t := "decl @f(*[i32, -1])"%string).
  destruct (stays_out_ok t) as (p & n & b & u & H1 & H2 & H3 & H4); [vm_compute; reflexivity|].
  assert (K : match read_program (RByte <$> String.list_ascii_of_string t) with (Rok q, _, _) => ordinary_functions_check q | _ => false end = true)
    by (vm_compute; reflexivity).
  rewrite H2 in K. exists t, p, n, b, u. split; [exact H2|]. split; [exact H1|]. split; [apply ordinary_functions_ok; exact K|]. split; [exact H3|exact H4].
Qed.
Print Assumptions C29_any_length_refuted.
