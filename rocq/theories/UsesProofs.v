(** Proofs about the use iterators (C05). *)
From Verif Require Import Base TypeModel IrModel UsesSpec.
From Coq Require Import Lia ZifyBool ZifyNat.

Lemma vec_use_lookup l i : vec_use l i = l !! i.
Proof.
  unfold vec_use. destruct (i <? length l)%nat eqn:E; [done|].
  symmetry. apply lookup_ge_None. lia.
Qed.

Lemma field_use_lookup l : ∀ d i, field_use l d (d + i) = l !! i.
Proof.
  induction l as [|x l IH]; intros d i; simpl; [done|].
  destruct i as [|i].
  - rewrite Nat.add_0_r, Nat.eqb_refl. done.
  - destruct (d + S i =? d)%nat eqn:E; [lia|]. simpl. rewrite <- (IH (d + 1)%nat i).
    f_equal. lia.
Qed.

Lemma value_uses_next_lookup k i : value_uses_next k i = operands k !! i.
Proof.
  destruct k as [| | |l| | | |v|v|v d|s x|s x|op l r|c t f ta fa|t a|c a|[v|]];
    cbn [value_uses_next operands]; try done;
    try apply vec_use_lookup; try exact (field_use_lookup _ 0 i).
  - destruct i as [|i]; [done|].
    change (S i =? 0)%nat with false. cbv iota.
    change ((c :: ta ++ fa) !! S i) with ((ta ++ fa) !! i).
    destruct ((1 <=? S i) && (S i <=? length ta))%nat eqn:E1.
    + rewrite lookup_app_l by lia. f_equal. lia.
    + assert (length ta ≤ i) by lia. rewrite lookup_app_r by lia.
      destruct ((length ta <? S i) && (S i <=? length ta + length fa))%nat eqn:E2.
      * f_equal. lia.
      * symmetry. apply lookup_ge_None. lia.
  - by destruct i.
  - by destruct i.
Qed.

Lemma bb_uses_next_lookup k i : bb_uses_next k i = targets k !! i.
Proof. destruct k; try done; simpl; repeat (destruct i as [|i]; [done|]); done. Qed.

Lemma drain_lookup (next : nat → option N) l :
  (∀ i, next i = l !! i) →
  ∀ fuel i, (length l - i < fuel)%nat → drain next fuel i = drop i l.
Proof.
  intros Hn. induction fuel as [|f IH]; intros i Hf; [lia|]. simpl. rewrite Hn.
  destruct (l !! i) eqn:E.
  - rewrite (drop_S l n i E). f_equal. apply IH. apply lookup_lt_Some in E. lia.
  - symmetry. apply drop_ge. by apply lookup_ge_None.
Qed.

Lemma value_uses_operands k : value_uses k = operands k.
Proof.
  unfold value_uses. rewrite (drain_lookup _ (operands k)).
  - done.
  - apply value_uses_next_lookup.
  - destruct k as [| | |l| | | |v|v|v d|s x|s x|op l r|c t f ta fa|t a|c a|[v|]];
      simpl; rewrite ?app_length; lia.
Qed.

Lemma bb_uses_targets k : bb_uses k = targets k.
Proof.
  unfold bb_uses. rewrite (drain_lookup _ (targets k)).
  - done.
  - apply bb_uses_next_lookup.
  - destruct k; simpl; lia.
Qed.
