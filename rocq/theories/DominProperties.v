(** C59: accepted texts whose definitions dominate their uses have raw programs that are read back. *)
From Coq Require Import Lia ZifyBool ZifyNat ZifyN.
From stdpp Require Import list gmap.
From Verif Require Import Base IdModel TypeModel IrModel LayoutModel LexerModel LexerProofs
  ParserModel ParserSpec FrontModel DriverModel DriverSpec DriverProperties UsesSpec DfgSpec FaithSpec FaithTopProofs ReadAgainProofs
  TreeWfProofs DceProperties RawModel RawSpec RawTotalSpec ViewProofs RawGoProofs RawCheckProofs RawProperties RegularProofs CompleteProperties DominSpec DiscoverProofs LaidProofs
  BuildableProofs WalkOnceProofs WalkOrderProofs DominCheckProofs.

Lemma returned_walk r p : returned r p → (∀ c, RByte c ∈ r → is_ascii c) → (∀ f fd, p_funcs p !! f = Some fd → dominated fd) →
  ∃ o, discovered p o ∧ buildable p o ∧ length o ≤ parts p ∧ allocs_in p o = p_inst_layout p ∧ funcs_in o = p_func_layout p ∧
    ∀ f, f ∈ p_func_layout p → blocks_in p o f ≡ₚ listed_blocks p f.
Proof.
  intros (n & b & s & ts & s' & H1 & H2 & H3 & H4) Ha HD. pose proof (read_front _ _ _ _ _ _ _ H1 H2 H3 H4) as Fp.
  pose proof (read_faithful _ _ _ _ _ _ _ H1 H2 H3 H4) as HF. clear H4.
  destruct (front_discovered p Fp (λ f fd, front_laid p f fd Fp) HD) as [o Ho]. exists o. split; [exact Ho|]. split.
  - apply (front_buildable p Fp o Ho ts HF). unfold driver_new in H2. destruct (parser_new (lex_new r 0)) as [[] l] eqn:En; try discriminate. injection H2 as -> _.
    apply new_good in En; [|exact Ha]. exact (proj1 (parses_good _ _ _ H3 En)).
  - split; [exact (discovered_length p o (front_regular _ Fp) Ho)|]. apply (discovered_order p Fp o Ho).
    exact (proj1 (read_layouts _ _ _ _ _ _ _ H1 H2 H3 HF)).
Qed.

(** Every accepted text of ASCII characters in which definitions dominate uses: the raw program
    is made and read back without panics and errors, whatever the order of iteration and the
    identifiers that are used, as long as there are enough of these and the recursion can be as
    deep as the program has parts.  The result is the program of the text up to the identifiers:
    the same global variables and functions in the same order, with the same blocks, which
    may be in another order. *)
Theorem C59_raw_and_back : ∀ r p ord i n,
  returned r p → (∀ c, RByte c ∈ r → is_ascii c) →
  (∀ f fd, p_funcs p !! f = Some fd → dominated fd) →
  lists_sets ord → counting i →
  (next_gv i + N.of_nat (base.size (p_values p)) ≤ local_value_id_starts_from)%N →
  numbers_left (N.of_nat (parts p)) i → parts p < n →
  ∃ raw h p' i' bs, build_on ord n p = Done (raw, h) ∧ generate_program i n raw h = Done (p', i') ∧
    isomorphic_as (p_inst_layout p) (p_func_layout p) bs p p' ∧
    ∀ f, f ∈ p_func_layout p → bs f ≡ₚ listed_blocks p f.
Proof.
  intros r p ord i n Hr Ha HD Hord C Hsz Hl Hn. destruct (returned_walk _ _ Hr Ha HD) as (o & Ho & HB & Hlen & A & F & B).
  destruct (raw_any_order_total ord p o i n n (C58_regular _ _ Hr) Ho HB Hord C Hsz) as (raw & h & p' & i' & E1 & E2 & Hi & _).
  - clear -Hl Hlen. unfold numbers_left in *. lia.
  - clear -Hn Hlen. lia.
  - clear -Hn Hlen. lia.
  - exists raw, h, p', i', (blocks_in p o). split; [exact E1|]. split; [exact E2|]. rewrite A, F in Hi. split; [exact Hi|exact B].
Qed.
Print Assumptions C59_raw_and_back.

(** Without domination: [%p] is the parameter of a block that need not come first, and the
    generator panics. *)
Definition undominated_text : string :=
"fun @f(@n: i32): i32 {
%entry:
  br @n, %a, %b(@n)
%b(%p: i32):
  jump %a
%a:
  ret %p
}
"%string.
Definition not_back (n : nat) (p : program) : bool :=
  match build_on sorted_ord n p with
  | Done (r, h) => match generate_program ids0 n r h with Panics => true | _ => false end
  | _ => false
  end.
Lemma not_back_ok n p : not_back n p = true → ∃ r h, build_on sorted_ord n p = Done (r, h) ∧ generate_program ids0 n r h = Panics.
Proof.
  unfold not_back. destruct (build_on _ _ _) as [[r h]| | |]; try discriminate. destruct (generate_program _ _ _ _) as [[p' i']| | |] eqn:E; try discriminate.
  intros H. exists r, h. split; [reflexivity|exact E].
Qed.
Lemma ascii_check t : forallb (λ c, (Ascii.N_of_ascii c <? 128)%N) (String.list_ascii_of_string t) = true →
  ∀ c, RByte c ∈ RByte <$> String.list_ascii_of_string t → is_ascii c.
Proof.
  intros H c Hc. apply elem_of_list_fmap in Hc as (x & E & Hx). injection E as ->. rewrite forallb_forall in H.
  apply N.ltb_lt, H, elem_of_list_In. exact Hx.
Qed.
Theorem C59_any_text_refuted : ∃ r p raw h,
  returned r p ∧ (∀ c, RByte c ∈ r → is_ascii c) ∧ lists_sets sorted_ord ∧ counting ids0 ∧
  (next_gv ids0 + N.of_nat (base.size (p_values p)) ≤ local_value_id_starts_from)%N ∧
  numbers_left (N.of_nat (parts p)) ids0 ∧ parts p < 30 ∧
  build_on sorted_ord 30 p = Done (raw, h) ∧ generate_program ids0 30 raw h = Panics.
Proof.
  destruct (returned_check undominated_text) as [p Hr]; [vm_compute; reflexivity..|].
  pose proof (program_of_ok _ _ _ eq_refl Hr) as E.
  assert (H1 : (next_gv ids0 + N.of_nat (base.size (p_values p)) <=? local_value_id_starts_from)%N = true) by (rewrite E; vm_compute; reflexivity).
  assert (H2 : Nat.ltb (parts p) 30 = true) by (rewrite E; vm_compute; reflexivity).
  assert (H3 : not_back 30 p = true) by (rewrite E; vm_compute; reflexivity).
  clear E. destruct (not_back_ok _ _ H3) as (raw & h & B1 & B2).
  exists (RByte <$> String.list_ascii_of_string undominated_text), p, raw, h. split; [exact Hr|].
  split; [apply ascii_check; vm_compute; reflexivity|]. split; [exact sorted_lists|]. split; [exact counting0|]. split; [apply N.leb_le; exact H1|].
  apply Nat.ltb_lt in H2. split; [apply (numbers_left0 _ _ H2); vm_compute; discriminate|]. split; [exact H2|]. split; [exact B1|exact B2].
Qed.
Print Assumptions C59_any_text_refuted.

(** The text of C40, with a global variable, calls, and blocks with parameters. *)
Example C59_example : ∃ p,
  returned (RByte <$> String.list_ascii_of_string raw_text) p ∧
  (∀ c, RByte c ∈ RByte <$> String.list_ascii_of_string raw_text → is_ascii c) ∧
  (∀ f fd, p_funcs p !! f = Some fd → dominated fd) ∧ lists_sets sorted_ord ∧ counting ids0 ∧
  (next_gv ids0 + N.of_nat (base.size (p_values p)) ≤ local_value_id_starts_from)%N ∧
  numbers_left (N.of_nat (parts p)) ids0 ∧ parts p < 60 ∧ 30 < parts p.
Proof.
  destruct (returned_check raw_text) as [p Hr]; [vm_compute; reflexivity..|].
  pose proof (program_of_ok _ _ _ eq_refl Hr) as E.
  assert (H1 : (next_gv ids0 + N.of_nat (base.size (p_values p)) <=? local_value_id_starts_from)%N = true) by (rewrite E; vm_compute; reflexivity).
  assert (H2 : Nat.ltb (parts p) 60 = true) by (rewrite E; vm_compute; reflexivity).
  assert (H3 : dominated_all p = true) by (rewrite E; vm_compute; reflexivity).
  assert (H4 : Nat.ltb 30 (parts p) = true) by (rewrite E; vm_compute; reflexivity).
  clear E. exists p. split; [exact Hr|].
  split; [apply ascii_check; vm_compute; reflexivity|]. split; [exact (dominated_all_ok _ H3)|].
  split; [exact sorted_lists|]. split; [exact counting0|]. split; [apply N.leb_le; exact H1|].
  apply Nat.ltb_lt in H2, H4. split; [apply (numbers_left0 _ _ H2); vm_compute; discriminate|]. split; [exact H2|exact H4].
Qed.
