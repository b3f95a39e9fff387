(** Proofs about structural comparison of values (C12). *)
From Verif Require Import Base IdModel TypeModel IrModel BuilderModel WorldModel UsesSpec DfgSpec
  WorldSpec EqSpec TypeProofs UsesProofs.

Lemma head_true l r :
  data_eq_head l r = Some true →
  v_ty l = v_ty r ∧ shape (v_kind l) = shape (v_kind r) ∧
  operands (v_kind l) = [] ∧ operands (v_kind r) = [].
Proof.
  unfold data_eq_head. destruct (ty_eqb (v_ty l) (v_ty r)) eqn:Ht; [|done].
  apply ty_eqb_eq in Ht.
  destruct (v_kind l) as [| | | | | | | | | | | |op1| | | |[]],
           (v_kind r) as [| | | | | | | | | | | |op2| | | |[]]; simpl; try done;
    try (by destruct op1, op2);
    repeat match goal with |- context [if ?b then _ else _] => destruct b end; done.
Qed.

Lemma map_const_len (a b : list N) :
  length a = length b ↔ map (λ _, 0%N) a = map (λ _, 0%N) b.
Proof.
  split.
  - revert b. induction a as [|x a IH]; intros [|y b]; simpl; try done.
    intros [= H]. by rewrite (IH b H).
  - intros H. apply (f_equal length) in H. by rewrite !map_length in H.
Qed.

Lemma head_false l r :
  data_eq_head l r = Some false →
  v_ty l ≠ v_ty r ∨ shape (v_kind l) ≠ shape (v_kind r).
Proof.
  unfold data_eq_head. destruct (ty_eqb (v_ty l) (v_ty r)) eqn:Ht.
  2: { intros _. left. intros H. rewrite <- ty_eqb_eq in H. congruence. }
  intros H. right. revert H.
  destruct (v_kind l) as [z1| | |e1|i1|i1| | | | | | |op1 a1 b1|c1 t1 f1 ta1 fa1|t1 a1|c1 a1|[r1|]],
           (v_kind r) as [z2| | |e2|i2|i2| | | | | | |op2 a2 b2|c2 t2 f2 ta2 fa2|t2 a2|c2 a2|[r2|]];
    simpl; try done.
  - destruct (Z.eqb_spec z1 z2); simpl; [done|]. congruence.
  - destruct (Nat.eqb_spec (length e1) (length e2)) as [|Hn]; simpl; [done|].
    intros _ [= H]. apply Hn. by apply map_const_len.
  - destruct (N.eqb_spec i1 i2); simpl; [done|]. congruence.
  - destruct (N.eqb_spec i1 i2); simpl; [done|]. congruence.
  - by destruct op1, op2.
  - destruct (N.eqb_spec t1 t2), (N.eqb_spec f1 f2), (Nat.eqb_spec (length ta1) (length ta2)) as [|Hn1],
      (Nat.eqb_spec (length fa1) (length fa2)) as [|Hn2]; simpl; try done; try congruence;
      intros _ [= H1 H2]; try (apply Hn1; by apply map_const_len);
      try (apply Hn2; by apply map_const_len).
  - destruct (N.eqb_spec t1 t2), (Nat.eqb_spec (length a1) (length a2)) as [|Hn]; simpl;
      try done; try congruence. intros _ [= H1 H2]. apply Hn. by apply map_const_len.
  - destruct (N.eqb_spec c1 c2), (Nat.eqb_spec (length a1) (length a2)) as [|Hn]; simpl;
      try done; try congruence. intros _ [= H1 H2]. apply Hn. by apply map_const_len.
Qed.

Lemma head_none l r :
  data_eq_head l r = None →
  v_ty l = v_ty r ∧ shape (v_kind l) = shape (v_kind r).
Proof.
  unfold data_eq_head. destruct (ty_eqb (v_ty l) (v_ty r)) eqn:Ht; [|done].
  apply ty_eqb_eq in Ht. intros H. split; [done|]. revert H.
  destruct (v_kind l) as [z1| | |e1|i1|i1| | | | | | |op1 a1 b1|c1 t1 f1 ta1 fa1|t1 a1|c1 a1|[r1|]],
           (v_kind r) as [z2| | |e2|i2|i2| | | | | | |op2 a2 b2|c2 t2 f2 ta2 fa2|t2 a2|c2 a2|[r2|]];
    simpl; try done.
  - destruct (Z.eqb_spec z1 z2); simpl; [congruence|done].
  - destruct (Nat.eqb_spec (length e1) (length e2)) as [Hl|]; simpl; [|done].
    intros _. by apply map_const_len in Hl as ->.
  - destruct (N.eqb_spec i1 i2); simpl; [congruence|done].
  - destruct (N.eqb_spec i1 i2); simpl; [congruence|done].
  - by destruct op1, op2.
  - destruct (N.eqb_spec t1 t2) as [->|], (N.eqb_spec f1 f2) as [->|],
      (Nat.eqb_spec (length ta1) (length ta2)) as [H1|],
      (Nat.eqb_spec (length fa1) (length fa2)) as [H2|]; simpl; try done.
    intros _. apply map_const_len in H1 as ->. by apply map_const_len in H2 as ->.
  - destruct (N.eqb_spec t1 t2) as [->|], (Nat.eqb_spec (length a1) (length a2)) as [H1|];
      simpl; try done. intros _. by apply map_const_len in H1 as ->.
  - destruct (N.eqb_spec c1 c2) as [->|], (Nat.eqb_spec (length a1) (length a2)) as [H1|];
      simpl; try done. intros _. by apply map_const_len in H1 as ->.
Qed.

Lemma shape_operands_length k k' :
  shape k = shape k' → length (operands k) = length (operands k').
Proof.
  destruct k as [z1| | |e1|i1|i1| | | | | | |op1 a1 b1|c1 t1 f1 ta1 fa1|t1 a1|c1 a1|[r1|]],
           k' as [z2| | |e2|i2|i2| | | | | | |op2 a2 b2|c2 t2 f2 ta2 fa2|t2 a2|c2 a2|[r2|]];
    simpl; try done.
  - intros [= H]. by apply map_const_len.
  - intros [= -> -> H1%map_const_len H2%map_const_len]. rewrite !app_length. congruence.
  - intros [= -> H1%map_const_len]. done.
  - intros [= -> H1%map_const_len]. done.
Qed.

Fixpoint height (t : tree) : nat :=
  match t with Node _ _ ts => S (list_max (map height ts)) end.

Lemma height_child t ts : t ∈ ts → height t ≤ list_max (map height ts).
Proof.
  intros H. pose proof (proj1 (list_max_le (map height ts) _) (le_n _)) as Hf.
  rewrite List.Forall_forall in Hf. apply Hf. apply in_map. by apply elem_of_list_In.
Qed.

Lemma unfolds_det m v t : unfolds m v t → ∀ t', unfolds m v t' → t = t'.
Proof.
  assert (∀ n v t, height t ≤ n → unfolds m v t → ∀ t', unfolds m v t' → t = t') as H.
  { clear. induction n as [|n IH]; intros v t Hh H1 t' H2.
    { destruct t; simpl in Hh; lia. }
    inversion H1 as [v1 d ts Hd Hts]; subst. inversion H2 as [v2 d' ts' Hd' Hts']; subst.
    rewrite Hd in Hd'. injection Hd' as <-. f_equal. simpl in Hh.
    assert (∀ t, t ∈ ts → height t ≤ n) as Hb.
    { intros t Ht. pose proof (height_child t ts Ht). lia. }
    clear Hh H1 H2 Hd. revert ts' Hts'. induction Hts as [|x y l ts Hx Hts IHts]; intros ts' Hts'.
    - by inversion Hts'.
    - inversion Hts' as [|? y' ? ts2 Hx' Hts2]; subst. f_equal.
      + eapply IH; [|done|done]. apply Hb. by left.
      + apply IHts; [|done]. intros t Ht. apply Hb. by right. }
  intros H1 t' H2. eauto.
Qed.

Section eq.
  Context (gs : gmap N vdata) (g : dfg).
  Notation m := (gs ∪ d_values g).

  Lemma dfg_data_union v : dfg_data gs g v = m !! v.
  Proof.
    unfold dfg_data. destruct (gs !! v) as [d|] eqn:E.
    - symmetry. by apply lookup_union_Some_l.
    - by rewrite lookup_union_r.
  Qed.

  Definition decides (res : eqres) {A} (x y : A) : Prop :=
    (res = EqTrue ∧ x = y) ∨ (res = EqFalse ∧ x ≠ y).

  Lemma all_eq_spec eq ls rs tls trs :
    length ls = length rs →
    Forall2 (unfolds m) ls tls → Forall2 (unfolds m) rs trs →
    (∀ l r tl tr, unfolds m l tl → unfolds m r tr → tl ∈ tls → decides (eq l r) tl tr) →
    decides (all_eq eq ls rs) tls trs.
  Proof.
    intros Hlen H1. revert rs trs Hlen. induction H1 as [|l tl ls tls Hl H1 IH];
      intros [|r rs] trs Hlen H2 Heq; try done; inversion H2 as [|? tr ? trs' Hr H2']; subst.
    - by left.
    - simpl. simpl in Hlen. injection Hlen as Hlen.
      destruct (Heq l r tl tr Hl Hr ltac:(by left)) as [[-> ->]|[-> Hne]].
      + destruct (IH rs trs' Hlen H2') as [[-> ->]|[-> Hne]].
        * intros l' r' tl' tr' ???. eapply Heq; [done|done|by right].
        * by left.
        * right. split; [done|congruence].
      + right. split; [done|congruence].
  Qed.

  Lemma value_eq_spec n : ∀ l r tl tr,
    unfolds m l tl → unfolds m r tr → height tl ≤ n → decides (value_eq n gs g l r) tl tr.
  Proof.
    induction n as [|n IH]; intros l r tl tr H1 H2 Hh.
    { destruct tl; simpl in Hh; lia. }
    inversion H1 as [? dl ts Hd Hts]; subst. inversion H2 as [? dr ts' Hd' Hts']; subst.
    simpl. rewrite !dfg_data_union, Hd, Hd'.
    destruct (data_eq_head dl dr) as [[]|] eqn:Hhead.
    - apply head_true in Hhead as (-> & -> & Ho & Ho'). rewrite Ho in Hts. rewrite Ho' in Hts'.
      inversion Hts. inversion Hts'. by left.
    - apply head_false in Hhead. right. split; [done|]. intros [= ?? _]. naive_solver.
    - apply head_none in Hhead as [-> Hsh]. rewrite !value_uses_operands.
      destruct (all_eq_spec (value_eq n gs g) _ _ _ _ (shape_operands_length _ _ Hsh) Hts Hts')
        as [[-> ->]|[-> Hne]].
      + intros l' r' tl' tr' Hl' Hr' Hin. apply IH; [done|done|].
        pose proof (height_child tl' ts Hin). simpl in Hh. lia.
      + left. split; [done|]. by rewrite Hsh.
      + right. split; [done|congruence].
  Qed.
End eq.

Lemma value_eq_decides gs g l r tl tr :
  unfolds (gs ∪ d_values g) l tl → unfolds (gs ∪ d_values g) r tr →
  ∃ n, ∀ fuel, n ≤ fuel →
    (tl = tr → value_eq fuel gs g l r = EqTrue) ∧
    (tl ≠ tr → value_eq fuel gs g l r = EqFalse).
Proof.
  intros H1 H2. exists (height tl). intros fuel Hf.
  destruct (value_eq_spec gs g fuel l r tl tr H1 H2 Hf) as [[-> ->]|[-> ?]]; done.
Qed.
