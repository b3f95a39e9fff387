(** C55: constant folding does not change what programs do. *)
From Coq Require Import Lia.
From Verif Require Import Base IdModel TypeModel IrModel LayoutModel WorldModel LexerModel LexerProofs
  ParserModel ParserSpec ParserProofs FrontModel DriverModel DriverSpec UsesSpec DfgSpec WorldSpec
  SkelProofs LayoutSpec TypingSpec FlowSpec DriverProperties FrontProperties DceModel DceSpec DcePassProofs DceFrontProofs FrontShapeProofs KoopaModel
  FaithSpec FaithTopProofs OrderProofs DceProperties ArithModel ArithSpec InterpModel InterpSimProofs InterpDceProofs InterpFuelProofs
  InterpProperties FoldModel FoldSpec InterpOptProofs InterpFoldProofs.

Lemma returned_fold r p : returned r p → fold_prog p.
Proof.
  intros Hr. destruct (returned_ok _ _ Hr) as (HU & HD & HS & Hsh & HT). destruct (returned_names _ _ Hr) as [Hpar Hnm].
  destruct Hr as (n & b & s & ts & s' & H1 & H2 & H3 & H4).
  pose proof (read_faithful _ _ _ _ _ _ _ H1 H2 H3 H4) as (G & Fn & _ & HF & _).
  assert (Hin : ∀ f, is_Some (p_funcs p !! f) → f ∈ p_func_layout p).
  { clear -H1. apply read_olds in H1 as (w & HO & <-). intros f. apply (od_funcs _ HO). }
  destruct (read_ex _ _ _ _ H1) as (w & (Hx1 & Hx2 & Gd) & <-). clear H1 H2 H3 H4.
  split; [|done]. intros f fd Hf. destruct (Gd _ _ Hf) as [G1 G2 G3 G4 G5 G6 G7 G8 G9]. constructor.
  - intros v. by apply (sp_global _ HS f).
  - by apply (Hsh f).
  - intros c cd Hc. apply (G5 c). by rewrite lookup_fmap, Hc.
  - intros c cd c' cd' q Hc Hc' Hq Hq'. apply (G6 c (bb_params cd) c' (bb_params cd') q); try done.
    + by rewrite lookup_fmap, Hc.
    + by rewrite lookup_fmap, Hc'.
  - intros q d. by apply (Hpar f).
  - intros v c cd Hj Hc. destruct HU as (_ & _ & HU). by apply (HU _ _ _ _ Hf Hc).
  - intros v c Hj. destruct HD as (_ & _ & HD). by apply (HD _ _ _ _ Hf Hj).
  - intros u d c args a da Hu Hpass Ha Hda Hc.
    assert (∃ b0, in_block (f_layout fd) u b0) as (b0 & is & Hb0 & Hu0).
    { destruct (proj2 (G2 u)) as [?|[]]; [|done]. exists (sk d). rewrite lookup_fmap, Hu. split; [done|].
      simpl. destruct (v_kind d); try done; by destruct Hpass. }
    assert (f ∈ p_func_layout (w_prog w)) as Hl by (apply Hin; by exists fd).
    apply elem_of_list_lookup in Hl as (i & Hi). destruct (Forall2_lookup_l _ _ _ _ _ HF Hi) as (t & _ & fd0 & Hf0 & _ & Hfun).
    rewrite Hf in Hf0. injection Hf0 as <-. destruct t as [| | | |]; try done.
    2: { destruct Hfun as (_ & _ & Hv & _). by rewrite Hv in Hu. }
    destruct Hfun as (_ & _ & _ & L & B & l & HN & _ & _ & _ & _ & _ & HB).
    apply elem_of_list_lookup in Hb0 as (j & Hj). destruct (Forall2_lookup_l _ _ _ _ _ HB Hj) as (bb & _ & _ & _ & HI).
    apply elem_of_list_lookup in Hu0 as (m & Hm). destruct (Forall2_lookup_l _ _ _ _ _ HI Hm) as (st & _ & t & k & Hk & Hst).
    unfold datas in Hk. rewrite lookup_fmap, Hu in Hk. injection Hk as _ <-.
    assert (∀ vs avs, is_args G L (datas (vals fd)) vs avs → a ∈ vs → plain (v_kind da)) as Hargs.
    { intros vs avs (l0 & rest & _ & HA) Hav. apply elem_of_list_lookup in Hav as (e & He).
      destruct (Forall2_lookup_l _ _ _ _ _ HA He) as (av & _ & Hv). destruct av as [nm|z|]; simpl in Hv.
      - unfold is_called in Hv. destruct (is_global_id a) eqn:Eg.
        + exfalso. assert (local_value_id_starts_from ≤ a)%N as Hlo by (apply G1; rewrite lookup_fmap, Hda; by eauto).
          unfold is_global_id in Eg. apply andb_true_iff in Eg as [_ Eg]. apply N.ltb_lt in Eg. lia.
        + destruct (no_val _ _ _ HN _ _ Hv) as (_ & d0 & Hd0 & _ & Hc0 & _). rewrite Hda in Hd0. injection Hd0 as <-. by rewrite Hc in Hc0.
      - inversion Hv as [? t0 ? Hd0| | |]; subst. unfold datas in Hd0. rewrite lookup_fmap, Hda in Hd0. injection Hd0 as _ Hk. left. by eauto.
      - inversion Hv as [|? t0 Hd0| |]; subst. unfold datas in Hd0. rewrite lookup_fmap, Hda in Hd0. injection Hd0 as _ Hk. by right. }
    clear -Hargs Hpass Hst Ha. destruct (v_kind d) as [| | | | | | | | | | | | |x b1 b2 v1 v2|b1 v1| |] eqn:Ek; try (by destruct Hpass).
    + destruct st as [nm e|y y'|? ?|cc tt ta ee ea|tt ta|[?|]|]; simpl in Hst; try (destruct_and?; naive_solver).
      destruct Hst as (_ & _ & He). destruct e; simpl in He; naive_solver.
    + destruct st as [nm e|y y'|? ?|cc tt ta ee ea|tt ta|[?|]|]; simpl in Hst; try (destruct_and?; naive_solver).
      destruct Hst as (_ & _ & He). destruct e; simpl in He; naive_solver.
Qed.

(** C55: if the example interpreter runs a program of the front end to its end, then it runs
    what constant folding makes of the program to its end: with the same result, and with the
    same calls of foreign functions, in the same order, with the same arguments and results.
    Both are built alike, with or without overflow checks.  In whatever order hash tables are
    visited; new values get numbers that are not in use. *)
Theorem C55_same_behaviour : ∀ E (C : xconfig E) fuel o order i r p i' p' n fns fns' e z e1,
  fair_fold o → returned r p → numbers_unused i p →
  fold_pass fuel (c_checks C) o order i p = Dok (i', p') →
  (∀ f, f ∈ fns ↔ is_Some (p_funcs p !! f)) → (∀ f, f ∈ fns' ↔ is_Some (p_funcs p' !! f)) →
  interpret C n fns p e = XOk (z, e1) →
  ∃ n', ∀ more, interpret C (n' + more) fns' p' e = XOk (z, e1).
Proof.
  intros E C fuel o order i r p i' p' n fns fns' e z e1 Fo Hr Hi H Hf Hf' Hx.
  pose proof (returned_fold _ _ Hr) as Hp. clear Hr.
  destruct (fold_pass_better _ _ _ _ Fo _ _ _ _ H Hp (unused_lowp _ _ Hi)) as (B & _).
  destruct (better_keeps _ _ _ B Hp _ C n fns fns' e z e1 eq_refl) as [n' Hn]; [|exact Hx|].
  - intros f _ Hs. apply Hf'. clear -B Hs. induction B as [p|p p1 p2 H1 _ IH]; [done|]. apply IH.
    destruct H1 as (_ & _ & HO). pose proof (op_funcs _ _ _ HO f) as Ho. destruct Hs as [fd Hs]. rewrite Hs in Ho.
    destruct (p_funcs p1 !! f); [by eauto|done].
  - exists n'. intros more. by apply interpret_more.
Qed.
Print Assumptions C55_same_behaviour.

(** ** Example *)
(** Folded are three instructions, one of them in a second round, the parameters %x and %k of
    @main, and %k of @twice; %y and %z stay. *)
Definition fold_source : string :=
  "decl @p(i32)
   fun @twice(@n: i32): i32 {
   %e: jump %f(2)
   %f(%k: i32): %m = mul @n, %k ret %m
   }
   fun @main(): i32 {
   %entry: %a = add 2, 3 %b = mul %a, 4 %v = call @twice(%b) %c = gt %v, 30 br %c, %left(7, %b), %right
   %left(%x: i32, %y: i32): call @p(%x) jump %end(9, %y)
   %right: %d = sub 1, 8 jump %end(9, %d)
   %end(%k: i32, %z: i32): %w = add %z, %k call @p(%k) ret %w
   }".
Definition fold_result : string :=
"decl @p(i32)

fun @twice(@n: i32): i32 {
%e:
  jump %f(2)

%f(%k: i32):
  %m = mul @n, 2
  ret %m
}

fun @main(): i32 {
%entry:
  %v = call @twice(20)
  %c = gt %v, 30
  br %c, %left(7, 20), %right

%left(%x: i32, %y: i32):
  call @p(7)
  jump %end(9, 20)

%right:
  jump %end(9, -7)

%end(%k: i32, %z: i32):
  %w = add %z, 9
  call @p(9)
  ret %w
}
".
Definition some_folds : fold_orders := FoldOrders (λ m, (map_to_list m).*1) (λ m, (map_to_list m).*1) elements.
Lemma some_folds_fair : fair_fold some_folds.
Proof.
  destruct some_orders_fair as [H1 H2 _ _ _ H3]. constructor; [exact H1|exact H2|exact H3].
Qed.
Definition free_numbers : ids := Ids 1000 3000000000 1000 1000.
Definition numbers_unused_b (i : ids) (p : program) : bool :=
  (next_lv i <? two32)%N && forallb (λ x, (x.1 <? next_lv i)%N) (map_to_list (p_values p)) &&
  forallb (λ x, forallb (λ y, (y.1 <? next_lv i)%N) (map_to_list (vals x.2)) &&
    forallb (λ v, (v <? next_lv i)%N) (f_params x.2)) (map_to_list (p_funcs p)).
Lemma numbers_unused_ok i p : numbers_unused_b i p = true → numbers_unused i p.
Proof.
  unfold numbers_unused_b. rewrite !andb_true_iff, !forallb_forall. intros [[H1 H2] H3]. right. split; [by apply N.ltb_lt|].
  intros v [[d Hd]|(f & fd & Hf & Hv)].
  - specialize (H2 (v, d)). apply N.ltb_lt, H2, elem_of_list_In. by apply elem_of_map_to_list.
  - specialize (H3 (f, fd)). rewrite andb_true_iff, !forallb_forall in H3.
    destruct H3 as [H3 H4]; [apply elem_of_list_In; by apply elem_of_map_to_list|].
    destruct Hv as [[d Hd]|Hv]; apply N.ltb_lt.
    + specialize (H3 (v, d)). apply H3, elem_of_list_In. by apply elem_of_map_to_list.
    + by apply H4, elem_of_list_In.
Qed.
(** The outcome before, the text after constant folding, and the outcome after. *)
Definition around_fold (t : string) : xres (Z * list N) * option string * xres (Z * list N) :=
  let p := program_of t in
  match fold_pass 40 true some_folds (p_func_layout p) free_numbers p with
  | Dok (_, p') => (interpret recorder 40 (p_func_layout p) p [],
      match print_program p' with Rok s => Some s | _ => None end,
      interpret recorder 40 (p_func_layout p') p' [])
  | _ => (XErr, None, XErr)
  end.
Lemma around_fold_ok t a s b : around_fold t = (a, Some s, b) → ∃ i' p',
  fold_pass 40 true some_folds (p_func_layout (program_of t)) free_numbers (program_of t) = Dok (i', p') ∧
  interpret recorder 40 (p_func_layout (program_of t)) (program_of t) [] = a ∧
  interpret recorder 40 (p_func_layout p') p' [] = b.
Proof.
  unfold around_fold. generalize (program_of t) as p. intros p H.
  destruct (fold_pass 40 true some_folds (p_func_layout p) free_numbers p) as [[i p']| |]; [|discriminate H..].
  injection H as H1 _ H2. exists i, p'. split; [reflexivity|]. split; [exact H1|exact H2].
Qed.
(** The hypotheses of C55, met by that program, and its outcomes. *)
Example C55_example : ∃ r p i' p', returned r p ∧ numbers_unused free_numbers p ∧
  fold_pass 40 (c_checks recorder) some_folds (p_func_layout p) free_numbers p = Dok (i', p') ∧
  (∀ f, f ∈ p_func_layout p ↔ is_Some (p_funcs p !! f)) ∧
  interpret recorder 40 (p_func_layout p) p [] = XOk (29%Z, [7; 9]%N) ∧
  interpret recorder 40 (p_func_layout p') p' [] = XOk (29%Z, [7; 9]%N) ∧
  around_fold fold_source = (XOk (29%Z, [7; 9]%N), Some fold_result, XOk (29%Z, [7; 9]%N)).
Proof.
  assert (A : around_fold fold_source = (XOk (29%Z, [7; 9]%N), Some fold_result, XOk (29%Z, [7; 9]%N)))
    by (vm_compute; reflexivity).
  assert (L : layout_lists_b (program_of fold_source) = true) by (vm_compute; reflexivity).
  assert (N : numbers_unused_b free_numbers (program_of fold_source) = true) by (vm_compute; reflexivity).
  destruct (returned_check fold_source) as [p Hr]; [vm_compute; reflexivity..|].
  pose proof (program_of_ok _ _ _ eq_refl Hr) as E.
  destruct (around_fold_ok _ _ _ _ A) as (i' & p' & H1 & H2 & H3).
  pose proof (layout_lists _ L) as H4. clear L. pose proof (numbers_unused_ok _ _ N) as H5. clear N.
  rewrite <- E in H1, H2, H4, H5. clear E.
  exists (RByte <$> String.list_ascii_of_string fold_source), p, i', p'.
  split; [exact Hr|]. split; [exact H5|]. split; [exact H1|]. split; [exact H4|]. split; [exact H2|]. split; [exact H3|exact A].
Qed.
(** The converse of C55 is false: a division by zero that panics becomes an undefined value. *)
Theorem C55_converse_refuted : ∃ r p i' p', returned r p ∧ numbers_unused free_numbers p ∧
  fold_pass 40 (c_checks recorder) some_folds (p_func_layout p) free_numbers p = Dok (i', p') ∧
  interpret recorder 40 (p_func_layout p) p [] = XPanic ∧
  interpret recorder 40 (p_func_layout p') p' [] = XOk (5%Z, []).
Proof.
  assert (N : numbers_unused_b free_numbers (program_of failing_source) = true) by (vm_compute; reflexivity).
  destruct (returned_check failing_source) as [p Hr]; [vm_compute; reflexivity..|].
  pose proof (program_of_ok _ _ _ eq_refl Hr) as E.
  destruct (around_fold_ok failing_source XPanic "fun @main(): i32 {
%entry:
  ret 5
}
" (XOk (5%Z, []))) as (i' & p' & H1 & H2 & H3); [vm_compute; reflexivity|].
  pose proof (numbers_unused_ok _ _ N) as H5. clear N.
  rewrite <- E in H1, H2, H5. clear E. exists (RByte <$> String.list_ascii_of_string failing_source), p, i', p'.
  split; [exact Hr|]. split; [exact H5|]. split; [exact H1|]. split; [exact H2|exact H3].
Qed.
Print Assumptions C55_converse_refuted.
