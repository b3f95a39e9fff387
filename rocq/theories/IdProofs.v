(** Proofs about the id manager (C01, C02). *)
From Verif Require Import Base IdModel IdSpec.
From Coq Require Import Lia ZifyBool ZifyNat ZifyN.
Ltac Zify.zify_post_hook ::= Z.div_mod_to_equations.

Lemma serve_inv r i v i' :
  serve r i = Some (v, i') →
  v = counter r i ∧ v ≠ 0%N ∧ counter r i' = ((v + 1) `mod` two32)%N ∧
  ∀ r', r' ≠ r → counter r' i' = counter r' i.
Proof.
  destruct r; simpl; unfold next_global_value_id, next_local_value_id, next_bb_id,
    next_func_id, fetch_add1, new_unchecked; simpl;
  (destruct (_ =? 0)%N eqn:E; [done|]); simpl; intros [= <- <-]; simpl;
  (split; [done|]); (split; [lia|]); (split; [done|]);
  intros [] ?; done.
Qed.

Lemma serve_succeeds r i :
  counter r i ≠ 0%N → is_Some (serve r i).
Proof.
  destruct r; simpl; unfold next_global_value_id, next_local_value_id, next_bb_id,
    next_func_id, fetch_add1, new_unchecked; simpl; intros H;
  (destruct (_ =? 0)%N eqn:E; [lia|]); simpl; eauto.
Qed.

Lemma handles_of_cons r q v l :
  handles_of r ((q, v) :: l) = if decide (q = r) then v :: handles_of r l else handles_of r l.
Proof.
  unfold handles_of. rewrite filter_cons. simpl. by destruct (decide (q = r)).
Qed.

Lemma count_req_cons r q rs :
  count_req r (q :: rs) = if decide (q = r) then S (count_req r rs) else count_req r rs.
Proof. unfold count_req. rewrite filter_cons. by destruct (decide (q = r)). Qed.

Lemma serve_all_handles rs : ∀ i vs i' r,
  serve_all rs i = Some (vs, i') →
  (counter r i < two32)%N →
  handles_of r vs = (λ k, counter r i + N.of_nat k)%N <$> seq 0 (count_req r rs) ∧
  (count_req r rs ≠ 0%nat → counter r i ≠ 0%N ∧ (counter r i + N.of_nat (count_req r rs) <= two32)%N) ∧
  counter r i' = ((counter r i + N.of_nat (count_req r rs)) `mod` two32)%N.
Proof.
  induction rs as [|q rs IH]; intros i vs i' r Hs Hlt; simpl in Hs.
  - injection Hs as <- <-. unfold handles_of, count_req. simpl. split; [done|].
    split; [done|]. rewrite N.add_0_r. symmetry. by apply N.mod_small.
  - destruct (serve q i) as [[v i1]|] eqn:Eq; [|done]. simpl in Hs.
    destruct (serve_all rs i1) as [[vs1 i2]|] eqn:Er; [|done]. simpl in Hs.
    injection Hs as <- <-.
    apply serve_inv in Eq as (Hv & Hnz & Hc & Hother).
    rewrite handles_of_cons, count_req_cons.
    destruct (decide (q = r)) as [->|Hne].
    + assert (Hlt1 : (counter r i1 < two32)%N) by (rewrite Hc; apply N.mod_lt; done).
      destruct (IH i1 vs1 i2 r Er Hlt1) as (IH1 & IH2 & IH3).
      set (n := count_req r rs) in *.
      rewrite <- Hv in *. unfold two32 in *.
      destruct (decide (v = 4294967295)%N) as [->|Hv'].
      * (* counter wrapped to 0: no further request of this sort was served *)
        assert (Hc0 : counter r i1 = 0%N) by (rewrite Hc; done).
        assert (n = 0%nat) as Hn0.
        { destruct (decide (n = 0%nat)) as [|Hn]; [done|]. destruct (IH2 Hn). lia. }
        rewrite Hn0 in *. rewrite IH1. split; [done|]. split; [lia|].
        rewrite IH3, Hc0. done.
      * assert (Hc1 : counter r i1 = (v + 1)%N) by (rewrite Hc; apply N.mod_small; lia).
        rewrite Hc1 in *. rewrite IH1. split.
        { cbn [seq fmap list_fmap]. f_equal; [lia|].
          rewrite <- seq_shift. change (S <$> seq 0 n) with (list_fmap _ _ S (seq 0 n)).
          change (map S (seq 0 n)) with (S <$> seq 0 n).
          rewrite <- list_fmap_compose.
          apply list_fmap_ext. intros ? x _. simpl. lia. }
        split; [|rewrite IH3; f_equal; lia].
        intros _. destruct (decide (n = 0%nat)) as [->|Hn]; [lia|].
        destruct (IH2 Hn). split; [done|]. lia.
    + assert (counter r i1 = counter r i) as Heq by (apply Hother; congruence).
      rewrite <- Heq in *. by apply IH.
Qed.

Lemma counter0 r : (0 < counter r ids0 < two32)%N.
Proof. by destruct r. Qed.

Lemma serve_all_ok rs : ∀ i,
  (∀ r, count_req r rs ≠ 0%nat →
        counter r i ≠ 0%N ∧ (counter r i + N.of_nat (count_req r rs) <= two32)%N) →
  is_Some (serve_all rs i).
Proof.
  induction rs as [|q rs IH]; intros i H; simpl; [by eauto|].
  assert (count_req q (q :: rs) ≠ 0%nat) as Hq.
  { rewrite count_req_cons, decide_True by done. lia. }
  destruct (H q Hq) as [Hnz Hb].
  destruct (serve_succeeds q i) as [[v i1] Hv]; [done|].
  rewrite Hv. simpl. apply serve_inv in Hv as (-> & _ & Hc & Ho).
  destruct (IH i1) as [[vs i2] Hs]; [|rewrite Hs; simpl; by eauto].
  intros r Hr. destruct (decide (q = r)) as [->|Hne].
  - rewrite count_req_cons, decide_True in Hb by done.
    unfold two32 in *. rewrite Hc.
    rewrite N.mod_small by lia. lia.
  - rewrite Ho by congruence. specialize (H r).
    rewrite count_req_cons, decide_False in H by done. auto.
Qed.

Lemma handles_nodup rs vs i' r :
  serve_all rs ids0 = Some (vs, i') → NoDup (handles_of r vs).
Proof.
  intros H. destruct (serve_all_handles rs ids0 vs i' r H) as [-> _];
    [apply counter0|].
  apply NoDup_fmap_2; [|apply NoDup_seq].
  intros x y. lia.
Qed.

Lemma handles_range rs vs i' r v :
  serve_all rs ids0 = Some (vs, i') → (r, v) ∈ vs →
  (counter r ids0 <= v < counter r ids0 + N.of_nat (count_req r rs))%N ∧ (v < two32)%N.
Proof.
  intros H Hin. destruct (serve_all_handles rs ids0 vs i' r H) as (Hh & Hb & _);
    [apply counter0|].
  assert (v ∈ handles_of r vs) as Hv.
  { unfold handles_of. apply elem_of_list_fmap. exists (r, v). split; [done|].
    by apply elem_of_list_filter. }
  rewrite Hh in Hv. apply elem_of_list_fmap in Hv as (k & -> & Hk).
  apply elem_of_seq in Hk.
  destruct Hb; [lia|]. lia.
Qed.

Lemma serve_all_ok0 rs :
  (N.of_nat (count_req ReqGlobal rs) < two32)%N →
  (N.of_nat (count_req ReqLocal rs) <= two32 - local_value_id_starts_from)%N →
  (N.of_nat (count_req ReqBB rs) < two32)%N →
  (N.of_nat (count_req ReqFunc rs) < two32)%N →
  is_Some (serve_all rs ids0).
Proof.
  intros Hg Hl Hb Hf. apply serve_all_ok. unfold two32, local_value_id_starts_from in *.
  intros [] _; simpl; unfold global_value_id_starts_from, local_value_id_starts_from,
    bb_id_starts_from, func_id_starts_from; lia.
Qed.

Lemma value_handle_sort rs vs i' r v :
  serve_all rs ids0 = Some (vs, i') → (r, v) ∈ vs →
  r = ReqGlobal ∨ r = ReqLocal →
  (N.of_nat (count_req ReqGlobal rs) < local_value_id_starts_from)%N →
  (is_global_id v = true ↔ r = ReqGlobal).
Proof.
  intros H Hin Hr Hc. apply (handles_range _ _ _ _ _ H) in Hin as [Hin _].
  unfold is_global_id, global_value_id_starts_from, local_value_id_starts_from in *.
  destruct Hr as [-> | ->]; simpl in Hin;
    unfold global_value_id_starts_from, local_value_id_starts_from in *.
  - split; [done|]. intros _. lia.
  - split; [|done]. lia.
Qed.

Lemma value_handles_disjoint rs vs i' v :
  serve_all rs ids0 = Some (vs, i') →
  (N.of_nat (count_req ReqGlobal rs) < local_value_id_starts_from)%N →
  (ReqGlobal, v) ∈ vs → (ReqLocal, v) ∈ vs → False.
Proof.
  intros H Hc Hg Hl.
  apply (value_handle_sort _ _ _ _ _ H) in Hg as Hg'; [|by left|done].
  apply (value_handle_sort _ _ _ _ _ H) in Hl as Hl'; [|by right|done].
  assert (is_global_id v = true) as E by (by apply Hg').
  apply Hl' in E. done.
Qed.

Lemma count_req_repeat r n : count_req r (repeat r n) = n.
Proof. induction n as [|n IH]; [done|]. simpl. rewrite count_req_cons, decide_True by done. by rewrite IH. Qed.

Lemma count_req_repeat_ne r q n : q ≠ r → count_req r (repeat q n) = 0%nat.
Proof. intros Hne. induction n as [|n IH]; [done|]. simpl. by rewrite count_req_cons, decide_False by done. Qed.

Lemma count_req_app r l1 l2 : count_req r (l1 ++ l2) = (count_req r l1 + count_req r l2)%nat.
Proof. unfold count_req. rewrite list.filter_app, app_length. done. Qed.

Lemma handles_elem r v l : v ∈ handles_of r l → (r, v) ∈ l.
Proof.
  unfold handles_of. intros H. apply elem_of_list_fmap in H as ([q w] & -> & H).
  apply elem_of_list_filter in H as [? ?]. simpl in *. by subst.
Qed.

Lemma global_local_clash_gen n :
  N.of_nat n = local_value_id_starts_from →
  ∃ rs vs i' v,
    count_req ReqGlobal rs = n ∧
    serve_all rs ids0 = Some (vs, i') ∧
    (ReqGlobal, v) ∈ vs ∧ (ReqLocal, v) ∈ vs ∧ is_global_id v = false.
Proof.
  intros Hn. set (rs := repeat ReqGlobal n ++ repeat ReqLocal 1).
  assert (Hg : count_req ReqGlobal rs = n).
  { unfold rs. rewrite count_req_app, count_req_repeat, count_req_repeat_ne by done. lia. }
  assert (Hl : count_req ReqLocal rs = 1%nat).
  { unfold rs. rewrite count_req_app, count_req_repeat, count_req_repeat_ne by done. lia. }
  assert (Hb : count_req ReqBB rs = 0%nat).
  { unfold rs. rewrite count_req_app, !count_req_repeat_ne by done. lia. }
  assert (Hf : count_req ReqFunc rs = 0%nat).
  { unfold rs. rewrite count_req_app, !count_req_repeat_ne by done. lia. }
  assert (is_Some (serve_all rs ids0)) as [[vs i'] Hs].
  { apply serve_all_ok0; rewrite ?Hg, ?Hl, ?Hb, ?Hf; [rewrite Hn|..]; done. }
  exists rs, vs, i', local_value_id_starts_from.
  split; [done|]. split; [done|].
  destruct (serve_all_handles rs ids0 vs i' ReqGlobal Hs) as (Hg1 & _); [done|].
  destruct (serve_all_handles rs ids0 vs i' ReqLocal Hs) as (Hl1 & _); [done|].
  split; [|split; [|done]].
  - apply handles_elem. rewrite Hg1, Hg. apply elem_of_list_fmap.
    exists (pred n). split.
    + simpl. unfold global_value_id_starts_from, local_value_id_starts_from in *. lia.
    + apply elem_of_seq. unfold local_value_id_starts_from in *. lia.
  - apply handles_elem. rewrite Hl1, Hl. simpl. by left.
Qed.

Lemma global_local_clash :
  ∃ rs vs i' v,
    N.of_nat (count_req ReqGlobal rs) = local_value_id_starts_from ∧
    serve_all rs ids0 = Some (vs, i') ∧
    (ReqGlobal, v) ∈ vs ∧ (ReqLocal, v) ∈ vs ∧ is_global_id v = false.
Proof.
  destruct (global_local_clash_gen (N.to_nat local_value_id_starts_from))
    as (rs & vs & i' & v & Hc & H).
  { by rewrite N2Nat.id. }
  exists rs, vs, i', v. split; [|done]. rewrite Hc. by rewrite N2Nat.id.
Qed.
