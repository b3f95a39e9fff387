(** C40: from a program to its raw form and back. *)
From Coq Require Import Lia.
From Verif Require Import Base IdModel TypeModel IrModel LayoutModel BuilderModel WorldModel UsesSpec DfgSpec TypingSpec
  LexerModel FrontModel DriverModel DriverSpec DriverProofs HistoryProofs ViewProofs RawModel RawSpec RawTotalSpec RawFormSpec RawFormProofs RawBuildProofs RawWalkProofs RawTopProofs RawCheckProofs RawGoProofs
  FrontProperties DceSpec DceProperties.

(** C40: the raw form of a program can be made and read back, and this gives the program again:
    same functions, blocks, instructions, operands, types and names, everything listed in the
    same order.  [o] is what a walk through the program meets, [nb] and [ng] bound the depth of
    the recursion, [ord] is the order of hash sets, [i] is the state of the counters of
    identifiers. *)
Theorem C40_round_trip : ∀ ord p o i nb ng,
  regular p → in_discovery_order p → discovered p o → buildable p o → lists_sets ord →
  counting i → (next_gv i + N.of_nat (base.size (p_values p)) ≤ local_value_id_starts_from)%N →
  numbers_left (N.of_nat (length o)) i → length o < nb → length o < ng →
  ∃ r h p' i', build_on ord nb p = Done (r, h) ∧ generate_program i ng r h = Done (p', i') ∧ isomorphic p p'.
Proof. exact raw_round_trip_total. Qed.
Print Assumptions C40_round_trip.

(** In general the global variables, functions and blocks come back in the order in which the
    walk meets them. *)
Theorem C40_any_order : ∀ ord p o i nb ng,
  regular p → discovered p o → buildable p o → lists_sets ord →
  counting i → (next_gv i + N.of_nat (base.size (p_values p)) ≤ local_value_id_starts_from)%N →
  numbers_left (N.of_nat (length o)) i → length o < nb → length o < ng →
  ∃ r h p' i', build_on ord nb p = Done (r, h) ∧ generate_program i ng r h = Done (p', i') ∧
    isomorphic_as (allocs_in p o) (funcs_in o) (blocks_in p o) p p' ∧
    (∀ f, f ∈ p_func_layout p → f ∈ funcs_in o) ∧
    (∀ f b, f ∈ funcs_in o → b ∈ listed_blocks p f → b ∈ blocks_in p o f).
Proof. exact raw_any_order_total. Qed.
Print Assumptions C40_any_order.

(** Whatever the program is like otherwise: if the raw form is made and read back, the result is
    the program. *)
Theorem C40_round_trip_result : ∀ ord nb ng p r h i p' i',
  regular p → in_discovery_order p →
  counting i → (next_gv i + N.of_nat (base.size (p_values p)) ≤ local_value_id_starts_from)%N →
  build_on ord nb p = Done (r, h) → generate_program i ng r h = Done (p', i') →
  isomorphic p p'.
Proof. exact raw_round_trip. Qed.
Print Assumptions C40_round_trip_result.

Theorem C40_any_order_result : ∀ ord nb ng p r h i p' i',
  regular p →
  counting i → (next_gv i + N.of_nat (base.size (p_values p)) ≤ local_value_id_starts_from)%N →
  build_on ord nb p = Done (r, h) → generate_program i ng r h = Done (p', i') →
  ∃ o, discovered p o ∧ isomorphic_as (allocs_in p o) (funcs_in o) (blocks_in p o) p p' ∧
    (∀ f, f ∈ p_func_layout p → f ∈ funcs_in o) ∧
    (∀ f b, f ∈ funcs_in o → b ∈ listed_blocks p f → b ∈ blocks_in p o f).
Proof. exact raw_any_order. Qed.
Print Assumptions C40_any_order_result.

(** A global variable, a declaration, a call, and blocks with parameters. *)
Definition raw_text : string :=
"global @g = alloc [i32, 2], {1, 2}

decl @p(i32)

fun @f(@n: i32, @m: *i32): i32 {
%entry:
  %x = alloc i32
  store @n, %x
  %y = getelemptr @g, @n
  %c = load %y
  br %c, %a(@n, 1), %b(%c)
%a(%u: i32, %v: i32):
  %d = add %u, %v
  call @p(%d)
  jump %b(%d)
%b(%w: i32):
  store %w, @m
  ret %w
}

fun @h(): i32 {
%entry:
  %z = alloc i32
  %r = call @f(3, %z)
  ret %r
}
"%string.
Definition sorted_ord (s : gset N) : list N := elements s.
(** Both directions, with a function that looks at the result. *)
Definition back (n : nat) (p : program) (look : program → bool) : bool :=
  match build_on sorted_ord n p with
  | Done (r, h) => match generate_program ids0 n r h with Done (p', _) => look p' | _ => false end
  | _ => false
  end.
Lemma back_ok n p look : back n p look = true →
  ∃ r h p' i', build_on sorted_ord n p = Done (r, h) ∧ generate_program ids0 n r h = Done (p', i') ∧ look p' = true.
Proof.
  unfold back. destruct (build_on _ _ _) as [[r h]| | |]; try discriminate. destruct (generate_program _ _ _ _) as [[p' i']| | |] eqn:E; try discriminate.
  intros H. exists r, h, p', i'. split; [reflexivity|]. split; [exact E|exact H].
Qed.
Lemma returned_uses t p : returned (RByte <$> String.list_ascii_of_string t) p → use_lists_exact p.
Proof. intros (n & b & s & ts & s' & H1 & H2 & H3 & H4). apply (read_consistent _ _ _ _ _ _ _ H1 H2 H3 H4). Qed.
Lemma numbers_left0 n k : n < k → (N.of_nat k <= 1000000000)%N → numbers_left (N.of_nat n) ids0.
Proof. intros H H'. unfold numbers_left, ids0, two32, local_value_id_starts_from, bb_id_starts_from, func_id_starts_from. simpl. lia. Qed.
Lemma sorted_lists : lists_sets sorted_ord.
Proof. intros s x. apply elem_of_elements. Qed.
Lemma returned_regular t p : returned (RByte <$> String.list_ascii_of_string t) p → regular_b p = true → regular p.
Proof.
  intros (n & b & s & ts & s' & H1 & H2 & H3 & H4) H. destruct (read_consistent _ _ _ _ _ _ _ H1 H2 H3 H4) as (_ & A & B).
  by apply regular_b_ok.
Qed.
Example C40_example : ∃ p r h p' i' o,
  regular p ∧ in_discovery_order p ∧ discovered p o ∧ buildable p o ∧ lists_sets sorted_ord ∧ counting ids0 ∧
  (next_gv ids0 + N.of_nat (base.size (p_values p)) ≤ local_value_id_starts_from)%N ∧
  numbers_left (N.of_nat (length o)) ids0 ∧ length o < 60 ∧
  build_on sorted_ord 30 p = Done (r, h) ∧ generate_program ids0 30 r h = Done (p', i') ∧
  length (p_func_layout p) = 3 ∧ length (p_inst_layout p) = 1.
Proof.
  destruct (returned_check raw_text) as [p Hr]; [vm_compute; reflexivity..|].
  pose proof (program_of_ok _ _ _ eq_refl Hr) as E.
  assert (H1 : regular_b p = true) by (rewrite E; vm_compute; reflexivity).
  assert (H2 : in_order_b p 100 = true) by (rewrite E; vm_compute; reflexivity).
  assert (H3 : (next_gv ids0 + N.of_nat (base.size (p_values p)) <=? local_value_id_starts_from)%N = true) by (rewrite E; vm_compute; reflexivity).
  assert (H4 : back 30 p (λ _, true) = true) by (rewrite E; vm_compute; reflexivity).
  assert (H5 : length (p_func_layout p) = 3) by (rewrite E; vm_compute; reflexivity).
  assert (H6 : length (p_inst_layout p) = 1) by (rewrite E; vm_compute; reflexivity).
  assert (H7 : total_b p 100 60 = true) by (rewrite E; vm_compute; reflexivity).
  clear E. destruct (back_ok _ _ _ H4) as (r & h & p' & i' & B1 & B2 & _).
  destruct (total_b_ok _ _ _ H7 (returned_uses _ _ Hr)) as (o & O1 & O2 & O3).
  exists p, r, h, p', i', o. split; [exact (returned_regular _ _ Hr H1)|]. split; [exact (in_order_b_ok _ _ H2)|].
  split; [exact O1|]. split; [exact O2|]. split; [exact sorted_lists|]. split; [exact counting0|]. split; [apply N.leb_le; exact H3|]. split; [apply (numbers_left0 _ _ O3); vm_compute; discriminate|]. split; [exact O3|].
  split; [exact B1|]. split; [exact B2|]. split; [exact H5|exact H6].
Qed.

(** The order matters: blocks that are not listed in the order in which a walk meets them are
    listed differently afterwards. *)
Definition reorder_text : string :=
"fun @f(@n: i32) {
%entry:
  br @n, %a, %b
%a:
  jump %c
%b:
  ret
%c:
  ret
}
"%string.
Theorem C40_any_program_refuted : ∃ p r h p' i',
  regular p ∧ counting ids0 ∧
  (next_gv ids0 + N.of_nat (base.size (p_values p)) ≤ local_value_id_starts_from)%N ∧
  build_on sorted_ord 30 p = Done (r, h) ∧ generate_program ids0 30 r h = Done (p', i') ∧
  ¬ isomorphic p p'.
Proof.
  destruct (returned_check reorder_text) as [p Hr]; [vm_compute; reflexivity..|].
  pose proof (program_of_ok _ _ _ eq_refl Hr) as E.
  assert (H1 : regular_b p = true) by (rewrite E; vm_compute; reflexivity).
  assert (H3 : (next_gv ids0 + N.of_nat (base.size (p_values p)) <=? local_value_id_starts_from)%N = true) by (rewrite E; vm_compute; reflexivity).
  assert (H4 : back 30 p (λ p', negb (bool_decide (block_names p <$> p_func_layout p = block_names p' <$> p_func_layout p'))) = true)
    by (rewrite E; vm_compute; reflexivity).
  clear E. destruct (back_ok _ _ _ H4) as (r & h & p' & i' & B1 & B2 & B3).
  exists p, r, h, p', i'. split; [exact (returned_regular _ _ Hr H1)|]. split; [exact counting0|]. split; [apply N.leb_le; exact H3|].
  split; [exact B1|]. split; [exact B2|]. intros Hi. apply isomorphic_names in Hi. apply negb_true_iff in B3.
  apply bool_decide_eq_false_1 in B3. exact (B3 Hi).
Qed.
Print Assumptions C40_any_program_refuted.

(** ** C53: raw programs are complete *)
Theorem C53_raw_form ord p n r h :
  regular p → use_lists_exact p → lists_sets ord → build_on ord n p = Done (r, h) → raw_form p r h.
Proof. exact (build_raw_form ord p n r h). Qed.
Print Assumptions C53_raw_form.
Theorem C53_raw_form_made ord p o n :
  regular p → discovered p o → buildable p o → lists_sets ord → length o < n →
  ∃ r h, build_on ord n p = Done (r, h) ∧ raw_form p r h ∧ ∀ t, t ∈ o → there h t.
Proof. exact (raw_form_made ord p o n). Qed.
Print Assumptions C53_raw_form_made.
(** The raw form of [p] has global variables and functions, and a value with two users. *)
Definition users_b (p : program) : bool :=
  match build_on sorted_ord 30 p with
  | Done (r, h) => negb (bool_decide (r_values r = [])) && negb (bool_decide (r_funcs r = [])) &&
      existsb (λ e : N * option rvalue, match e.2 with Some x => Nat.leb 2 (length (rv_used_by x)) | None => false end)
        (map_to_list (h_vals h))
  | _ => false
  end.
Lemma users_b_ok p : users_b p = true → ∃ r h, build_on sorted_ord 30 p = Done (r, h) ∧ r_values r ≠ [] ∧ r_funcs r ≠ [] ∧
  ∃ v x, h_vals h !! v = Some (Some x) ∧ 2 ≤ length (rv_used_by x).
Proof.
  unfold users_b. destruct (build_on sorted_ord 30 p) as [[r h]| | |]; intros H; [|discriminate H..].
  apply andb_prop in H as [H H3]. apply andb_prop in H as [H1 H2].
  apply negb_true_iff, bool_decide_eq_false_1 in H1. apply negb_true_iff, bool_decide_eq_false_1 in H2.
  exists r, h. split; [reflexivity|]. split; [exact H1|]. split; [exact H2|].
  apply existsb_exists in H3 as ([v e] & Hin & He). apply elem_of_list_In, elem_of_map_to_list in Hin.
  simpl in He. destruct e as [x|]; [|discriminate He]. exists v, x. split; [exact Hin|]. apply Nat.leb_le. exact He.
Qed.
Example C53_example : ∃ p r h o,
  regular p ∧ use_lists_exact p ∧ discovered p o ∧ buildable p o ∧ lists_sets sorted_ord ∧ length o < 60 ∧
  build_on sorted_ord 30 p = Done (r, h) ∧ r_values r ≠ [] ∧ r_funcs r ≠ [] ∧
  ∃ v x, h_vals h !! v = Some (Some x) ∧ 2 ≤ length (rv_used_by x).
Proof.
  destruct (returned_check raw_text) as [p Hr]; [vm_compute; reflexivity..|].
  pose proof (program_of_ok _ _ _ eq_refl Hr) as E.
  assert (H1 : regular_b p = true) by (rewrite E; vm_compute; reflexivity).
  assert (H7 : total_b p 100 60 = true) by (rewrite E; vm_compute; reflexivity).
  assert (H4 : users_b p = true) by (rewrite E; vm_compute; reflexivity).
  clear E. destruct (total_b_ok _ _ _ H7 (returned_uses _ _ Hr)) as (o & O1 & O2 & O3).
  destruct (users_b_ok _ H4) as (r & h & B1 & B2 & B3 & B4).
  exists p, r, h, o. split; [exact (returned_regular _ _ Hr H1)|]. split; [exact (bu_users _ _ O2)|].
  split; [exact O1|]. split; [exact O2|]. split; [exact sorted_lists|]. split; [exact O3|].
  split; [exact B1|]. split; [exact B2|]. split; [exact B3|exact B4].
Qed.
