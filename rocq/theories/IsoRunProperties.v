(** C63: programs that are the same up to identifiers run alike; the raw form keeps what programs do. *)
From Coq Require Import Lia ZifyBool ZifyNat ZifyN.
From stdpp Require Import list gmap.
From Verif Require Import Base IdModel TypeModel IrModel LayoutModel LexerModel LexerProofs
  ParserModel ParserSpec FrontModel DriverModel DriverSpec DriverProperties UsesSpec DfgSpec FaithSpec FaithTopProofs ReadAgainProofs
  TreeWfProofs DceProperties RawModel RawSpec RawTotalSpec ViewProofs RawGoProofs RawCheckProofs RawProperties RegularProofs CompleteProperties DominSpec DiscoverProofs LaidProofs
  BuildableProofs WalkOnceProofs WalkOrderProofs DominCheckProofs DominProperties InterpModel DceFrontProofs FaithTopProofs OrderProofs InterpProperties
  IsoRunSpec IsoProgProofs RawApartProofs.

(** Two programs with handles that tell global values from values of functions, that are the
    same up to identifiers and up to the order of the blocks after the entry of each function:
    the example interpreter does the same with them.  The same results, panics, errors and
    exhausted bounds; the same calls of foreign functions with the same arguments, whatever
    foreign functions are and whatever the order in which functions are visited. *)
Theorem C63_same_runs : ∀ E (C : xconfig E) fuel order order' p p' bs e,
  isomorphic_as (p_inst_layout p) (p_func_layout p) bs p p' → apart p → apart p' →
  (∀ f fd, p_funcs p !! f = Some fd →
    f ∈ p_func_layout p ∧ NoDup (l_bbs (f_layout fd)).*1 ∧ same_entry (bs f) (l_bbs (f_layout fd)).*1) →
  one_main p → all_functions p order → all_functions p' order' →
  interpret C fuel order p e = interpret C fuel order' p' e.
Proof. exact @isomorphic_interpret. Qed.
Print Assumptions C63_same_runs.

Lemma back_same r p ord i n :
  returned r p → (∀ c, RByte c ∈ r → is_ascii c) →
  (∀ f fd, p_funcs p !! f = Some fd → dominated fd) →
  lists_sets ord → counting i →
  (next_gv i + N.of_nat (base.size (p_values p)) ≤ local_value_id_starts_from)%N →
  numbers_left (N.of_nat (parts p)) i → parts p < n →
  ∃ raw h p' i' bs, build_on ord n p = Done (raw, h) ∧ generate_program i n raw h = Done (p', i') ∧
    isomorphic_as (p_inst_layout p) (p_func_layout p) bs p p' ∧ apart p ∧ apart p' ∧
    (∀ f fd, p_funcs p !! f = Some fd →
      f ∈ p_func_layout p ∧ NoDup (l_bbs (f_layout fd)).*1 ∧ same_entry (bs f) (l_bbs (f_layout fd)).*1) ∧
    one_main p.
Proof.
  intros Hr Ha HD Hord C Hsz Hl Hn. destruct (returned_walk _ _ Hr Ha HD) as (o & Ho & HB & Hlen & A & F & B).
  pose proof (C58_regular _ _ Hr) as HR.
  destruct (raw_any_order_total ord p o i n n HR Ho HB Hord C Hsz) as (raw & h & p' & i' & E1 & E2 & Hi & _).
  - clear -Hl Hlen. unfold numbers_left in *. lia.
  - clear -Hn Hlen. lia.
  - clear -Hn Hlen. lia.
  - exists raw, h, p', i', (blocks_in p o). split; [exact E1|]. split; [exact E2|]. rewrite A, F in Hi. split; [exact Hi|].
    split; [split; [exact (rg_global _ HR)|exact (rg_local _ HR)]|]. split; [exact (generate_apart _ _ _ _ _ _ _ _ _ HR C Hsz E1 E2)|]. split.
    + intros f fd Hf. assert (Hin : f ∈ p_func_layout p).
      { destruct Hr as (m & b & s & ts & s' & H1 & _). apply read_olds in H1 as (w & HO & <-). apply (od_funcs _ HO). by exists fd. }
      specialize (B f Hin). unfold listed_blocks in B. rewrite Hf in B. split; [exact Hin|]. split; [exact (rg_bbs_once _ HR _ _ Hf)|].
      split; [exact B|]. destruct (entry_first p HR f fd Hf o Ho) as [H|H]; [|exact H]. rewrite H in *. by apply Permutation_nil in B as ->.
    + intros f g fd gd Hf Hg H1 H2. apply (proj2 (returned_names _ _ Hr) f g fd gd Hf Hg). congruence.
Qed.

(** Accepted texts in which definitions dominate uses (C59): what is read back from the raw
    form does the same as the program of the text. *)
Theorem C63_raw_and_back_runs : ∀ r p ord i n,
  returned r p → (∀ c, RByte c ∈ r → is_ascii c) →
  (∀ f fd, p_funcs p !! f = Some fd → dominated fd) →
  lists_sets ord → counting i →
  (next_gv i + N.of_nat (base.size (p_values p)) ≤ local_value_id_starts_from)%N →
  numbers_left (N.of_nat (parts p)) i → parts p < n →
  ∃ raw h p' i', build_on ord n p = Done (raw, h) ∧ generate_program i n raw h = Done (p', i') ∧
    ∀ E (C : xconfig E) fuel order order' e, all_functions p order → all_functions p' order' →
      interpret C fuel order p e = interpret C fuel order' p' e.
Proof.
  intros r p ord i n Hr Ha HD Hord C Hsz Hl Hn.
  destruct (back_same r p ord i n Hr Ha HD Hord C Hsz Hl Hn) as (raw & h & p' & i' & bs & E1 & E2 & Hi & A & A' & B & M).
  exists raw, h, p', i'. split; [exact E1|]. split; [exact E2|]. intros E X fuel order order' e O O'.
  exact (isomorphic_interpret X fuel order order' p p' bs e Hi A A' B M O O').
Qed.
Print Assumptions C63_raw_and_back_runs.

(** A loop that fills an array and calls functions; its blocks are not in the order in which the
    raw form lists them. *)
Definition loop_source : string :=
  "global @g = alloc i32, 5
   decl @p(i32)
   fun @square(@x: i32): i32 { %e: %y = mul @x, @x ret %y
   }
   fun @main(): i32 {
   %entry: %a = alloc [i32, 3] jump %loop(0)
   %end: %r = getelemptr %a, 2 %l = load %r %m = load @g %n = add %l, %m ret %n
   %loop(%i: i32): %c = lt %i, 3 br %c, %body, %end
   %body: %q = getelemptr %a, %i %s = call @square(%i) store %s, %q call @p(%s) jump %next
   %next: %j = add %i, 1 jump %loop(%j)
   }".
Definition main_blocks (p : program) : list (list (option string)) :=
  (λ f, match p_funcs p !! f with Some fd => (λ b, blks fd !! b ≫= bb_name) <$> (l_bbs (f_layout fd)).*1 | None => [] end) <$> p_func_layout p.
Definition look_run (p' : program) : bool :=
  layout_lists_b p' && bool_decide (main_blocks p' = [[]; [Some "%e"]; [Some "%entry"; Some "%loop"; Some "%body"; Some "%next"; Some "%end"]]%string) &&
  match interpret recorder 40 (p_func_layout p') p' [] with XOk (9%Z, [0; 1; 4]%N) => true | _ => false end.
Lemma look_run_ok p' : look_run p' = true → all_functions p' (p_func_layout p') ∧
  main_blocks p' = [[]; [Some "%e"]; [Some "%entry"; Some "%loop"; Some "%body"; Some "%next"; Some "%end"]]%string ∧
  interpret recorder 40 (p_func_layout p') p' [] = XOk (9%Z, [0; 1; 4]%N).
Proof.
  unfold look_run. rewrite !andb_true_iff. intros [[H1 H2] H3]. split; [exact (layout_lists _ H1)|]. split; [by apply bool_decide_eq_true in H2|].
  destruct (interpret _ _ _ _ _) as [[z l]| | | |]; try discriminate H3.
  repeat match type of H3 with context [match ?x with _ => _ end] => destruct x; try discriminate H3 end. reflexivity.
Qed.
(** The hypotheses of both theorems are met by its program, which lists the blocks in another
    order than the program that is read back. *)
Example C63_example : ∃ p raw h p' i' bs,
  returned (RByte <$> String.list_ascii_of_string loop_source) p ∧
  (∀ c, RByte c ∈ RByte <$> String.list_ascii_of_string loop_source → is_ascii c) ∧
  (∀ f fd, p_funcs p !! f = Some fd → dominated fd) ∧ lists_sets sorted_ord ∧ counting ids0 ∧
  (next_gv ids0 + N.of_nat (base.size (p_values p)) ≤ local_value_id_starts_from)%N ∧
  numbers_left (N.of_nat (parts p)) ids0 ∧ parts p < 60 ∧
  build_on sorted_ord 60 p = Done (raw, h) ∧ generate_program ids0 60 raw h = Done (p', i') ∧
  isomorphic_as (p_inst_layout p) (p_func_layout p) bs p p' ∧ apart p ∧ apart p' ∧
  (∀ f fd, p_funcs p !! f = Some fd →
    f ∈ p_func_layout p ∧ NoDup (l_bbs (f_layout fd)).*1 ∧ same_entry (bs f) (l_bbs (f_layout fd)).*1) ∧
  one_main p ∧ all_functions p (p_func_layout p) ∧ all_functions p' (p_func_layout p') ∧
  main_blocks p = [[]; [Some "%e"]; [Some "%entry"; Some "%loop"; Some "%body"; Some "%end"; Some "%next"]]%string ∧
  main_blocks p' = [[]; [Some "%e"]; [Some "%entry"; Some "%loop"; Some "%body"; Some "%next"; Some "%end"]]%string ∧
  interpret recorder 40 (p_func_layout p) p [] = XOk (9%Z, [0; 1; 4]%N) ∧
  interpret recorder 40 (p_func_layout p') p' [] = XOk (9%Z, [0; 1; 4]%N).
Proof.
  destruct (returned_check loop_source) as [p Hr]; [vm_compute; reflexivity..|].
  pose proof (program_of_ok _ _ _ eq_refl Hr) as E.
  assert (H1 : (next_gv ids0 + N.of_nat (base.size (p_values p)) <=? local_value_id_starts_from)%N = true) by (rewrite E; vm_compute; reflexivity).
  assert (H2 : Nat.ltb (parts p) 60 = true) by (rewrite E; vm_compute; reflexivity).
  assert (H3 : dominated_all p = true) by (rewrite E; vm_compute; reflexivity).
  assert (H4 : back 60 p look_run = true) by (rewrite E; vm_compute; reflexivity).
  assert (H5 : layout_lists_b p = true) by (rewrite E; vm_compute; reflexivity).
  assert (H6 : main_blocks p = [[]; [Some "%e"]; [Some "%entry"; Some "%loop"; Some "%body"; Some "%end"; Some "%next"]]%string) by (rewrite E; vm_compute; reflexivity).
  assert (H7 : ∀ c, RByte c ∈ RByte <$> String.list_ascii_of_string loop_source → is_ascii c) by (apply ascii_check; vm_compute; reflexivity).
  clear E. pose proof (dominated_all_ok _ H3) as HD. apply N.leb_le in H1. apply Nat.ltb_lt in H2. clear H3.
  assert (HN : numbers_left (N.of_nat (parts p)) ids0) by (apply (numbers_left0 _ _ H2); vm_compute; discriminate).
  destruct (back_same _ _ _ _ _ Hr H7 HD sorted_lists counting0 H1 HN H2) as (raw & h & p' & i' & bs & E1 & E2 & Hi & A & A' & B & M).
  destruct (back_ok _ _ _ H4) as (raw1 & h1 & p1 & i1 & B1 & B2 & B3). clear H4. rewrite E1 in B1. injection B1 as <- <-. rewrite E2 in B2. injection B2 as <- <-.
  apply look_run_ok in B3 as (L & N1 & R). pose proof (layout_lists _ H5) as L0. clear H5.
  exists p, raw, h, p', i', bs. split; [exact Hr|]. split; [exact H7|]. split; [exact HD|]. split; [exact sorted_lists|]. split; [exact counting0|].
  split; [exact H1|]. split; [exact HN|]. split; [exact H2|]. split; [exact E1|]. split; [exact E2|]. split; [exact Hi|]. split; [exact A|]. split; [exact A'|].
  split; [exact B|]. split; [exact M|]. split; [exact L0|]. split; [exact L|]. split; [exact H6|]. split; [exact N1|]. split; [|exact R].
  rewrite <- R. exact (isomorphic_interpret recorder 40 _ _ p p' bs [] Hi A A' B M L0 L).
Qed.
