(** C56: the example optimizer does not change what programs do. *)
From Coq Require Import Lia.
From Verif Require Import Base IdModel TypeModel IrModel LayoutModel WorldModel LexerModel LexerProofs
  ParserModel ParserSpec ParserProofs FrontModel DriverModel DriverSpec UsesSpec DfgSpec WorldSpec
  SkelProofs LayoutSpec TypingSpec FlowSpec DriverProperties FrontProperties DceModel DceSpec DcePassProofs DceFrontProofs KoopaModel
  DceProperties ArithModel ArithSpec InterpModel InterpSimProofs InterpDceProofs InterpFuelProofs
  InterpProperties FoldModel FoldSpec InterpOptProofs InterpFoldProofs FoldGraphProofs FoldProperties OptModel OptProofs.

(** What the passes of the optimizer make of a program *)
Lemma opt_passes_ok fuel checks fo o order i p p' : fair_fold fo → fair o → fold_prog p → linked p → numbers_unused i p →
  opt_passes fuel checks fo o order i p = Dok p' →
  use_lists_exact p' ∧ no_dangling p' ∧
  ∀ E (C : xconfig E), c_checks C = checks → ∀ n fns fns' e z e1,
    (∀ f, f ∈ fns ↔ is_Some (p_funcs p !! f)) → (∀ f, f ∈ fns' ↔ is_Some (p_funcs p' !! f)) →
    interpret C n fns p e = XOk (z, e1) → ∃ n', ∀ more, interpret C (n' + more) fns' p' e = XOk (z, e1).
Proof.
  intros Ff Fo Hp HL Hi H. unfold opt_passes in H.
  destruct (fold_pass _ _ _ _ _ _) as [[i1 p1]| |] eqn:E1; cbn [dthen snd] in H; try done.
  destruct (dce_pass _ _ _ _) as [[l2 p2]| |] eqn:E2; cbn [dthen snd] in H; try done. injection H as <-.
  destruct (fold_pass_better _ _ _ _ Ff _ _ _ _ E1 Hp (unused_lowp _ _ Hi)) as (B & Hp1 & _).
  destruct (fold_pass_linked _ _ _ _ Ff _ _ _ _ E1 Hp (unused_lowp _ _ Hi) HL) as (HU & HD & HS).
  assert (shapes_ok p1) as Hsh by (intros f fd Hf; apply (fn_shape _ _ (fp_funs _ Hp1 _ _ Hf))).
  destruct (dce_pass_ok o _ Fo _ _ _ _ HU HD HS Hsh E2) as (HU2 & HD2 & _ & _ & Hcp).
  split; [done|]. split; [done|]. intros E C HC n fns fns' e z e1 Hf Hf' Hx.
  assert (∀ f, is_Some (p_funcs p !! f) → is_Some (p_funcs p1 !! f)) as Hf1.
  { intros f Hs. clear -B Hs. induction B as [p|p p1 p2 H1 _ IH]; [done|]. apply IH.
    destruct H1 as (_ & _ & HO). pose proof (op_funcs _ _ _ HO f) as Ho. destruct Hs as [fd Hs]. rewrite Hs in Ho.
    destruct (p_funcs p1 !! f); [by eauto|done]. }
  rewrite <- HC in B. destruct (better_keeps _ _ _ B Hp _ C n fns fns e z e1 eq_refl) as [n' Hn]; [done|exact Hx|].
  exists n'. intros more. apply (interpret_more C n' more) in Hn; [|done].
  apply (interpret_cleaned C (n' + more) fns fns' p1 p2 e z e1 Hcp HD2 HS Hsh).
  - intros f fd q d Hfd. apply (fn_params _ _ (fp_funs _ Hp1 _ _ Hfd)).
  - apply (fp_names _ Hp1).
  - intros f Hin _. apply Hf'. apply Hf in Hin. apply Hf1 in Hin as [fd Hfd]. pose proof (cp_funcs _ _ Hcp f) as Hc.
    rewrite Hfd in Hc. destruct (p_funcs p2 !! f) as [fd'|]; [by exists fd'|done].
  - exact Hn.
Qed.

(** C56: what the example optimizer writes for a text is the text of a program that does what
    the program of the input does: if the example interpreter runs the latter to its end,
    then also the former, with the same result, and with the same calls of foreign functions,
    in the same order, with the same arguments and results.  Its use lists are exact and no
    operand and no target is missing.  In whatever order hash tables are visited; all are
    built alike, with or without overflow checks. *)
Theorem C56_same_behaviour : ∀ fuel checks fo o order r p s, fair_fold fo → fair o → returned r p →
  opt_main fuel checks fo o order r = OptText s →
  ∃ p', print_program p' = Rok s ∧ use_lists_exact p' ∧ no_dangling p' ∧
  ∀ E (C : xconfig E), c_checks C = checks → ∀ n fns fns' e z e1,
    (∀ f, f ∈ fns ↔ is_Some (p_funcs p !! f)) → (∀ f, f ∈ fns' ↔ is_Some (p_funcs p' !! f)) →
    interpret C n fns p e = XOk (z, e1) → ∃ n', ∀ more, interpret C (n' + more) fns' p' e = XOk (z, e1).
Proof.
  intros fuel checks fo o order r p s Ff Fo Hr H. pose proof (returned_fold _ _ Hr) as Hp.
  destruct (returned_ok _ _ Hr) as (HU & HD & HS & _). destruct Hr as (n & b & s0 & ts & s' & H1 & H2 & H3 & H4).
  pose proof (read_unused _ _ _ _ _ _ _ H1 H2 H3 H4) as Hi. unfold opt_main in H. rewrite H1 in H.
  destruct (opt_passes _ _ _ _ _ _ _) as [p'| |] eqn:E; try done.
  exists p'. split; [by destruct (print_program p'); try done; injection H as ->|].
  eapply (opt_passes_ok _ _ _ _ _ _ _ _ Ff Fo Hp); [|exact Hi|exact E]. done.
Qed.
Print Assumptions C56_same_behaviour.

(** ** Example *)
Definition hash_order (m : gmap N fdata) : list func := (map_to_list m).*1.
Definition optimize (t : string) : opt_outcome :=
  opt_main 40 true some_folds some_orders hash_order (RByte <$> String.list_ascii_of_string t).
(** The parameters that became constants are gone, and what was passed to them. *)
Definition opt_result : string :=
"decl @p(i32)

fun @twice(@n: i32): i32 {
%e:
  jump %f

%f:
  %m = mul @n, 2
  ret %m
}

fun @main(): i32 {
%entry:
  %v = call @twice(20)
  %c = gt %v, 30
  br %c, %left, %right

%left:
  call @p(7)
  jump %end(20)

%right:
  jump %end(-7)

%end(%z: i32):
  %w = add %z, 9
  call @p(9)
  ret %w
}
".
(** The hypotheses of C56, met by the text of C55, and what the result does when it is read. *)
Example C56_example : ∃ p, returned (RByte <$> String.list_ascii_of_string fold_source) p ∧
  optimize fold_source = OptText opt_result ∧
  (∀ f, f ∈ p_func_layout p ↔ is_Some (p_funcs p !! f)) ∧
  interpret recorder 40 (p_func_layout p) p [] = XOk (29%Z, [7; 9]%N) ∧
  interpret recorder 40 (p_func_layout (program_of opt_result)) (program_of opt_result) [] = XOk (29%Z, [7; 9]%N).
Proof.
  assert (O : optimize fold_source = OptText opt_result) by (vm_compute; reflexivity).
  assert (L : layout_lists_b (program_of fold_source) = true) by (vm_compute; reflexivity).
  assert (A : interpret recorder 40 (p_func_layout (program_of fold_source)) (program_of fold_source) [] = XOk (29%Z, [7; 9]%N))
    by (vm_compute; reflexivity).
  assert (B : interpret recorder 40 (p_func_layout (program_of opt_result)) (program_of opt_result) [] = XOk (29%Z, [7; 9]%N))
    by (vm_compute; reflexivity).
  destruct (returned_check fold_source) as [p Hr]; [vm_compute; reflexivity..|].
  pose proof (program_of_ok _ _ _ eq_refl Hr) as E. pose proof (layout_lists _ L) as H4. clear L. rewrite <- E in H4, A. clear E.
  exists p. split; [exact Hr|]. split; [exact O|]. split; [exact H4|]. split; [exact A|exact B].
Qed.

(** The optimizer panics on some of the programs that the front end accepts: on those that use
    a global variable. *)
Definition global_source : string :=
  "global @x = alloc i32, 5
   fun @main(): i32 {
   %entry: %a = load @x ret %a
   }".
Theorem C56_every_program_refuted : ∃ t p, returned (RByte <$> String.list_ascii_of_string t) p ∧
  interpret recorder 40 (p_func_layout p) p [] = XOk (5%Z, []) ∧ optimize t = OptPanic.
Proof.
  assert (O : optimize global_source = OptPanic) by (vm_compute; reflexivity).
  assert (A : interpret recorder 40 (p_func_layout (program_of global_source)) (program_of global_source) [] = XOk (5%Z, []))
    by (vm_compute; reflexivity).
  destruct (returned_check global_source) as [p Hr]; [vm_compute; reflexivity..|].
  pose proof (program_of_ok _ _ _ eq_refl Hr) as E. rewrite <- E in A. clear E.
  exists global_source, p. split; [exact Hr|]. split; [exact A|exact O].
Qed.
Print Assumptions C56_every_program_refuted.
