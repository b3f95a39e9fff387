(** Structural comparison of values (C12). *)
From Verif Require Import Base IdModel TypeModel IrModel LayoutModel BuilderModel WorldModel
  UsesSpec DfgSpec WorldSpec EqSpec EqProofs EqHistory WorldChecks CoreProperties.
From Coq Require Import Lia.

(** With enough recursion depth, the comparison says exactly whether the unfoldings of
    the two values into trees are equal; in particular it terminates. *)
Theorem C12_decides gs g l r tl tr :
  unfolds (gs ∪ d_values g) l tl → unfolds (gs ∪ d_values g) r tr →
  ∃ n, ∀ fuel, n ≤ fuel →
    (tl = tr → value_eq fuel gs g l r = EqTrue) ∧
    (tl ≠ tr → value_eq fuel gs g l r = EqFalse).
Proof. exact (value_eq_decides gs g l r tl tr). Qed.
Print Assumptions C12_decides.

(** "The comparison answers [b]": for all large enough recursion depths. *)
Definition compares (gs : gmap N vdata) (g : dfg) (l r : value) (b : eqres) : Prop :=
  ∃ n, ∀ fuel, n ≤ fuel → value_eq fuel gs g l r = b.

Lemma compares_true gs g l r tl tr :
  unfolds (gs ∪ d_values g) l tl → unfolds (gs ∪ d_values g) r tr →
  compares gs g l r EqTrue ↔ tl = tr.
Proof.
  intros Hl Hr. destruct (value_eq_decides gs g l r tl tr Hl Hr) as [n Hn]. split.
  - intros [m Hm]. specialize (Hm (height tl `max` m) ltac:(lia)).
    destruct (value_eq_spec gs g (height tl `max` m) l r tl tr Hl Hr) as [[_ ?]|[Hx _]];
      [lia|done|congruence].
  - intros Ht. exists n. intros fuel Hf. by apply Hn.
Qed.

Theorem C12_reflexive gs g v t :
  unfolds (gs ∪ d_values g) v t → compares gs g v v EqTrue.
Proof. intros H. by eapply compares_true. Qed.
Print Assumptions C12_reflexive.

Theorem C12_symmetric gs g l r tl tr :
  unfolds (gs ∪ d_values g) l tl → unfolds (gs ∪ d_values g) r tr →
  compares gs g l r EqTrue → compares gs g r l EqTrue.
Proof.
  intros Hl Hr H. eapply compares_true in H; [|done|done]. subst. by eapply compares_true.
Qed.
Print Assumptions C12_symmetric.

Theorem C12_transitive gs g a b c ta tb tc :
  unfolds (gs ∪ d_values g) a ta → unfolds (gs ∪ d_values g) b tb →
  unfolds (gs ∪ d_values g) c tc →
  compares gs g a b EqTrue → compares gs g b c EqTrue → compares gs g a c EqTrue.
Proof.
  intros Ha Hb Hc H1 H2. eapply compares_true in H1; [|done|done].
  eapply compares_true in H2; [|done|done]. subst. by eapply compares_true.
Qed.
Print Assumptions C12_transitive.

(** Values that compare equal have the same type and shape. *)
Theorem C12_same_type_and_shape gs g l r tl tr dl dr :
  unfolds (gs ∪ d_values g) l tl → unfolds (gs ∪ d_values g) r tr →
  (gs ∪ d_values g) !! l = Some dl → (gs ∪ d_values g) !! r = Some dr →
  compares gs g l r EqTrue →
  v_ty dl = v_ty dr ∧ shape (v_kind dl) = shape (v_kind dr) ∧
  length (operands (v_kind dl)) = length (operands (v_kind dr)).
Proof.
  intros Hl Hr Hdl Hdr H. eapply compares_true in H; [|done|done].
  destruct Hl as [v1 d1 ts1 E1 F1], Hr as [v2 d2 ts2 E2 F2].
  rewrite E1 in Hdl. injection Hdl as ->. rewrite E2 in Hdr. injection Hdr as ->.
  injection H as Ht Hk Hts. subst ts2. split; [done|]. split; [done|].
  apply Forall2_length in F1, F2. congruence.
Qed.
Print Assumptions C12_same_type_and_shape.

(** In every program made without rewriting values, every value unfolds to a finite
    tree, so the comparison terminates. *)
Theorem C12_finite os w f fd v :
  run os world0 = Some w → throughout tidy os world0 →
  (globals_created os < local_value_id_starts_from)%N →
  (∀ o, o ∈ os → rewrites o = false) →
  p_funcs (w_prog w) !! f = Some fd →
  is_Some ((p_values (w_prog w) ∪ vals fd) !! v) →
  ∃ t, unfolds (p_values (w_prog w) ∪ vals fd) v t.
Proof. exact (reach_unfolds os w f fd v). Qed.
Print Assumptions C12_finite.

(** Values 1 and 2 of function 1 are sums of each other. *)
Definition cycle_checkb (w : world) : bool :=
  match p_funcs (w_prog w) !! 1%N with
  | Some fd => match p_values (w_prog w) !! L 1, p_values (w_prog w) !! L 2,
                     vals fd !! L 1, vals fd !! L 2 with
               | None, None, Some d1, Some d2 =>
                   ty_eqb (v_ty d1) TInt32 && ty_eqb (v_ty d2) TInt32 &&
                   match v_kind d1, v_kind d2 with
                   | KBinary Add a b, KBinary Add c d =>
                       (a =? L 2)%N && (b =? L 2)%N && (c =? L 1)%N && (d =? L 1)%N
                   | _, _ => false end
               | _, _, _, _ => false end
  | None => false end.

Lemma cycle_check w : cycle_checkb w = true →
  ∃ fd, p_funcs (w_prog w) !! 1%N = Some fd ∧ is_Some (vals fd !! L 1) ∧
    is_Some (vals fd !! L 2) ∧
    ∀ fuel, value_eq fuel (p_values (w_prog w)) (f_dfg fd) (L 1) (L 2) = EqFuel.
Proof.
  unfold cycle_checkb. intros HP.
  destruct (p_funcs (w_prog w) !! 1%N) as [fd|] eqn:H1; [|discriminate].
  destruct (p_values (w_prog w) !! L 1) eqn:H2; [discriminate|].
  destruct (p_values (w_prog w) !! L 2) eqn:H3; [discriminate|].
  destruct (vals fd !! L 1) as [d1|] eqn:H4; [|discriminate].
  destruct (vals fd !! L 2) as [d2|] eqn:H5; [|discriminate].
  rewrite !andb_true_iff in HP. destruct HP as [[Ht1 Ht2] HP].
  apply C03_ty_eqb in Ht1, Ht2.
  destruct (v_kind d1) as [| | | | | | | | | | | |o1 a b| | | |] eqn:K1; try discriminate HP.
  destruct o1; try discriminate HP.
  destruct (v_kind d2) as [| | | | | | | | | | | |o2 c d| | | |] eqn:K2; try discriminate HP.
  destruct o2; try discriminate HP.
  rewrite !andb_true_iff, !N.eqb_eq in HP. destruct HP as [[[-> ->] ->] ->].
  exists fd. split; [reflexivity|]. split; [by eexists|]. split; [by eexists|].
  assert (∀ fuel, value_eq fuel (p_values (w_prog w)) (f_dfg fd) (L 1) (L 2) = EqFuel ∧
                  value_eq fuel (p_values (w_prog w)) (f_dfg fd) (L 2) (L 1) = EqFuel) as Hall.
  { induction fuel as [|n [IH1 IH2]]; [split; reflexivity|].
    cbn [value_eq]. unfold dfg_data, data_eq_head.
    rewrite H2, H3, H4, H5, Ht1, Ht2, K1, K2.
    assert (ty_eqb TInt32 TInt32 = true) as -> by reflexivity. cbn [negb].
    change (value_uses (KBinary Add (L 2) (L 2))) with [L 2; L 2].
    change (value_uses (KBinary Add (L 1) (L 1))) with [L 1; L 1].
    cbn [all_eq]. rewrite IH1, IH2. split; reflexivity. }
  intros fuel. apply Hall.
Qed.

(** With [replace_value_with] two values can be made operands of each other; then the
    comparison of the two never ends. *)
Theorem C12_cyclic_diverges_refuted :
  ∃ os w f fd l r, run os world0 = Some w ∧ throughout tidy os world0 ∧
    p_funcs (w_prog w) !! f = Some fd ∧ is_Some (vals fd !! l) ∧ is_Some (vals fd !! r) ∧
    ∀ fuel, value_eq fuel (p_values (w_prog w)) (f_dfg fd) l r = EqFuel.
Proof.
  set (os := [ ONewFuncDef "@f" [(None, TInt32)] TUnit;
               ONewLocal 1 (BBinary Add (L 0) (L 0)); ONewLocal 1 (BBinary Add (L 1) (L 1));
               OReplace 1 (L 1) (BBinary Add (L 2) (L 2)) ]%N).
  destruct (run_check os cycle_checkb) as (w & E & HP); [vm_compute; reflexivity|].
  destruct (cycle_check w HP) as (fd & H1 & H2 & H3 & H4).
  exists os, w, 1%N, fd, (L 1), (L 2). split; [exact E|]. split.
  { apply (throughoutb_sound _ tidyb); [apply tidyb_sound|vm_compute; reflexivity]. }
  split; [exact H1|]. split; [exact H2|]. split; [exact H3|exact H4].
Qed.
Print Assumptions C12_cyclic_diverges_refuted.

(** Two loads of the same global are equal, two different integers are not. *)
Definition C12_history : list op :=
  [ ONewGlobal (BInteger 5); ONewGlobal (BGlobalAlloc 1); ONewFuncDef "@f" [] TUnit;
    ONewLocal 1 (BLoad 2); ONewLocal 1 (BLoad 2); ONewLocal 1 (BInteger 3);
    ONewLocal 1 (BInteger 4); ONewLocal 1 (BBinary Sub (L 0) (L 2));
    ONewLocal 1 (BBinary Sub (L 1) (L 2)); ONewLocal 1 (BBinary Sub (L 1) (L 3)) ]%N.

Example C12_example :
  throughout tidy C12_history world0 ∧
  (∀ o, o ∈ C12_history → rewrites o = false) ∧
  (globals_created C12_history < local_value_id_starts_from)%N ∧
  (λ w, (λ fd, (value_eq 9 (p_values (w_prog w)) (f_dfg fd) (L 4) (L 5),
                value_eq 9 (p_values (w_prog w)) (f_dfg fd) (L 4) (L 6)))
        <$> p_funcs (w_prog w) !! 1%N) <$> run C12_history world0
  = Some (Some (EqTrue, EqFalse)).
Proof.
  split; [apply (throughoutb_sound _ tidyb); [apply tidyb_sound|vm_compute; reflexivity]|].
  split; [|split; vm_compute; reflexivity].
  assert (forallb (λ o, negb (rewrites o)) C12_history = true) as H by reflexivity.
  rewrite forallb_forall in H. intros o Ho%elem_of_list_In%H. by destruct (rewrites o).
Qed.
