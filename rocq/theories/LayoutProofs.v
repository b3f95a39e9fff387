(** Proofs about layouts. *)
From Verif Require Import Base IrModel LayoutModel LayoutSpec.

Lemma insert_at_placed {A} (key : A → N) af k x l l' :
  insert_at key af k x l = Some l' → placed key (if af then After k else Before k) x l l'.
Proof.
  revert l'. induction l as [|y l IH]; intros l' H; simpl in H; [done|].
  destruct (N.eqb_spec (key y) k) as [Hk|Hk].
  - injection H as <-. destruct af; exists [], y, l; done.
  - destruct (insert_at key af k x l) as [r|] eqn:E; simpl in H; [|done]. injection H as <-.
    specialize (IH r eq_refl).
    destruct af; destruct IH as (l1 & z & l2 & -> & Hz & ->); exists (y :: l1), z, l2; done.
Qed.

Lemma insert_at_ok {A} (key : A → N) af k x l :
  is_Some (insert_at key af k x l) ↔ k ∈ map key l.
Proof.
  induction l as [|y l IH]; simpl.
  - split; [by intros [? [=]]|]. intros H. inversion H.
  - rewrite elem_of_cons. destruct (N.eqb_spec (key y) k) as [Hk|Hk].
    + split; [by left|]. intros _. by eexists.
    + rewrite <-IH. split.
      * intros [r Hr]. right. destruct (insert_at key af k x l); [by eexists|done].
      * intros [->|[r Hr]]; [done|]. rewrite Hr. by eexists.
Qed.

Lemma place_in_placed {A} (key : A → N) pl x l l' :
  place_in key pl x l = Some l' → placed key pl x l l'.
Proof.
  destruct pl; simpl.
  - by intros [= <-].
  - by intros [= <-].
  - apply (insert_at_placed key false).
  - apply (insert_at_placed key true).
Qed.

Lemma place_in_ok {A} (key : A → N) pl x l :
  is_Some (place_in key pl x l) ↔ place_ok pl (map key l).
Proof.
  destruct pl; simpl; rewrite ?insert_at_ok; try done;
  (split; [done|by intros _; eexists]).
Qed.

Lemma placed_perm {A} (key : A → N) pl x l l' : placed key pl x l l' → l' ≡ₚ x :: l.
Proof.
  destruct pl; simpl.
  - by intros ->.
  - intros ->. by rewrite Permutation_app_comm.
  - intros (l1 & y & l2 & -> & _ & ->). by rewrite Permutation_middle.
  - intros (l1 & y & l2 & -> & _ & ->).
    rewrite (perm_swap x y l2). by rewrite Permutation_middle.
Qed.

Lemma has_key_In {A} (key : A → N) k l : has_key key k l = true ↔ k ∈ map key l.
Proof.
  unfold has_key. rewrite existsb_exists. rewrite elem_of_list_fmap. split.
  - intros (x & Hx & He). exists x. apply N.eqb_eq in He. rewrite elem_of_list_In. done.
  - intros (x & -> & Hx). exists x. rewrite <-elem_of_list_In, N.eqb_eq. done.
Qed.

Lemma map_id' (l : list N) : map id l = l.
Proof. induction l; simpl; [done|]. by f_equal. Qed.

Lemma has_key_id v l : has_key id v l = true ↔ v ∈ l.
Proof. by rewrite has_key_In, map_id'. Qed.

Lemma has_key_id_false v l : has_key id v l = false ↔ v ∉ l.
Proof. rewrite <-has_key_id. by destruct (has_key id v l). Qed.

Lemma has_key_false {A} (key : A → N) k l : has_key key k l = false ↔ k ∉ map key l.
Proof. rewrite <-has_key_In. by destruct (has_key key k l). Qed.

Lemma find_bb_elem b l is : find_bb b l = Some is → (b, is) ∈ l.
Proof.
  induction l as [|[b' is'] l IH]; simpl; [done|].
  destruct (N.eqb_spec b' b) as [->|]; [intros [= ->]; by left|].
  intros H. right. auto.
Qed.

Lemma elem_find_bb b l is : NoDup (map fst l) → (b, is) ∈ l → find_bb b l = Some is.
Proof.
  induction l as [|[b' is'] l IH]; simpl; intros Hn H; [by inversion H|].
  apply list.NoDup_cons in Hn as [Hb Hn]. apply elem_of_cons in H as [[= -> ->]|H].
  - by rewrite N.eqb_refl.
  - destruct (N.eqb_spec b' b) as [->|]; [|by auto].
    destruct Hb. apply elem_of_list_fmap. by exists (b, is).
Qed.

Lemma set_bb_split b is' l is :
  find_bb b l = Some is →
  ∃ l1 l2, l = l1 ++ (b, is) :: l2 ∧ set_bb b is' l = l1 ++ (b, is') :: l2.
Proof.
  induction l as [|[c cs] l IH]; simpl; [done|].
  destruct (N.eqb_spec c b) as [->|]; intros H.
  - injection H as ->. by exists [], l.
  - destruct (IH H) as (l1 & l2 & -> & ->). by exists ((c, cs) :: l1), l2.
Qed.

Lemma set_bb_keys b is l : map fst (set_bb b is l) = map fst l.
Proof.
  induction l as [|[c cs] l IH]; simpl; [done|].
  destruct (c =? b)%N; simpl; by rewrite ?IH.
Qed.

Lemma elem_set_bb b is l c cs :
  NoDup (map fst l) → is_Some (find_bb b l) →
  (c, cs) ∈ set_bb b is l ↔ (c = b ∧ cs = is) ∨ (c ≠ b ∧ (c, cs) ∈ l).
Proof.
  induction l as [|[d ds] l IH]; simpl; intros Hn [is0 Hs]; [done|].
  apply list.NoDup_cons in Hn as [Hd Hn].
  destruct (N.eqb_spec d b) as [->|Hdb].
  - rewrite !elem_of_cons. split.
    + intros [[= -> ->]|H]; [by left|]. right. split; [|by right].
      intros ->. destruct Hd. apply elem_of_list_fmap. by exists (b, cs).
    + intros [[-> ->]|[Hc [[= -> ->]|H]]]; [by left|done|by right].
  - rewrite !elem_of_cons, IH; [|done|by eexists]. split.
    + intros [[= -> ->]|[H|[H1 H2]]]; [right; by auto|by left|right; by auto].
    + intros [H|[H1 [[= -> ->]|H2]]]; [by auto|by left|by auto].
Qed.

Lemma elem_remove_key {A} (key : A → N) k l x :
  x ∈ remove_key key k l ↔ x ∈ l ∧ key x ≠ k.
Proof.
  unfold remove_key. rewrite elem_of_list_filter. split.
  - intros [H1 H2]. split; [done|]. intros <-. by rewrite N.eqb_refl in H1.
  - intros [H1 H2]. split; [|done]. by apply N.eqb_neq in H2 as ->.
Qed.

(** ** No duplicates, over histories *)

Lemma no_duplicates0 : no_duplicates layout0.
Proof. split; [constructor|]. intros b is H. inversion H. Qed.

Lemma NoDup_map_filter {A} (key : A → N) (P : A → Prop) `{∀ x, Decision (P x)} l :
  NoDup (map key l) → NoDup (map key (filter P l)).
Proof.
  induction l as [|x l IH]; [done|]. simpl. intros [Hx Hn]%list.NoDup_cons.
  rewrite filter_cons. destruct (decide (P x)); [|by auto]. simpl.
  apply list.NoDup_cons. split; [|by auto]. intros Hi. apply Hx.
  apply elem_of_list_fmap in Hi as (y & Hy & Hin). apply elem_of_list_filter in Hin as [_ Hin].
  apply elem_of_list_fmap. by exists y.
Qed.

Lemma lstep_nodup o l l' : no_duplicates l → lstep o l = Some l' → no_duplicates l'.
Proof.
  intros [Hn Hi] Hs. unfold no_duplicates, blocks in *. destruct o; simpl in Hs.
  - unfold bb_insert in Hs. destruct (has_key fst b (l_bbs l)) eqn:Hk.
    { by injection Hs as <-. }
    destruct (place_in fst pl (b, []) (l_bbs l)) as [bs|] eqn:Hp; [|done].
    injection Hs as <-. simpl. apply has_key_false in Hk.
    apply place_in_placed, placed_perm in Hp. split.
    + rewrite Hp. simpl. apply list.NoDup_cons. done.
    + intros c cs. rewrite Hp, elem_of_cons. intros [[= -> ->]|H]; [constructor|eauto].
  - injection Hs as <-. simpl. split.
    + by apply NoDup_map_filter.
    + intros c cs [H _]%elem_remove_key. eauto.
  - injection Hs as <-. apply no_duplicates0.
  - unfold inst_insert in Hs. destruct (find_bb b (l_bbs l)) as [is|] eqn:Hb; [|done].
    simpl in Hs. destruct (has_key id v is) eqn:Hk. { by injection Hs as <-. }
    destruct (place_in id pl v is) as [is'|] eqn:Hp; [|done]. injection Hs as <-. simpl.
    apply has_key_id_false in Hk. apply place_in_placed, placed_perm in Hp.
    rewrite set_bb_keys. split; [done|]. intros c cs.
    rewrite elem_set_bb; [|done|by eexists]. intros [[-> ->]|[_ H]]; [|eauto].
    rewrite Hp. apply list.NoDup_cons. split; [done|]. eapply Hi. by apply find_bb_elem.
  - unfold inst_remove in Hs. destruct (find_bb b (l_bbs l)) as [is|] eqn:Hb; [|done].
    simpl in Hs. injection Hs as <-. destruct (has_key id v is); [|done]. simpl.
    rewrite set_bb_keys. split; [done|]. intros c cs.
    rewrite elem_set_bb; [|done|by eexists]. intros [[-> ->]|[_ H]]; [|eauto].
    apply list.NoDup_filter. eapply Hi. by apply find_bb_elem.
  - unfold inst_clear in Hs. destruct (find_bb b (l_bbs l)) as [is|] eqn:Hb; [|done].
    simpl in Hs. injection Hs as <-. simpl.
    rewrite set_bb_keys. split; [done|]. intros c cs.
    rewrite elem_set_bb; [|done|by eexists]. intros [[-> ->]|[_ H]]; [constructor|eauto].
Qed.

Lemma lrun_nodup_from os l l' : no_duplicates l → lrun os l = Some l' → no_duplicates l'.
Proof.
  revert l. induction os as [|o os IH]; intros l Hn Hr; simpl in Hr; [by injection Hr as <-|].
  destruct (lstep o l) as [l1|] eqn:Hs; [|done]. simpl in Hr.
  eapply IH; [|done]. by eapply lstep_nodup.
Qed.

Lemma lrun_nodup os l : lrun os layout0 = Some l → no_duplicates l.
Proof. apply lrun_nodup_from, no_duplicates0. Qed.

(** ** One insertion or removal *)

Lemma inst_insert_spec pl b v l is :
  no_duplicates l → (b, is) ∈ l_bbs l →
  (v ∈ is → inst_insert pl b v l = Some Duplicate) ∧
  (v ∉ is → place_ok pl is →
    ∃ l' is', inst_insert pl b v l = Some (Inserted l') ∧ only_block b is is' l l' ∧
      placed id pl v is is' ∧ l_inst_bb l' = <[v := b]> (l_inst_bb l)).
Proof.
  intros [Hn Hi] Hb. apply elem_find_bb in Hb; [|done]. unfold inst_insert. rewrite Hb. simpl.
  split.
  - intros Hv. by apply has_key_id in Hv as ->.
  - intros Hv Hp. apply has_key_id_false in Hv as ->.
    destruct (place_in_ok id pl v is) as [_ H2]. rewrite map_id' in H2.
    destruct (H2 Hp) as [is' Hpl]. rewrite Hpl. simpl.
    eexists _, is'. split; [done|]. split.
    + destruct (set_bb_split b is' (l_bbs l) is Hb) as (l1 & l2 & H3 & H4).
      exists l1, l2. done.
    + split; [|done]. by apply place_in_placed.
Qed.

Lemma inst_insert_no_block pl b v l :
  b ∉ blocks l → inst_insert pl b v l = None.
Proof.
  intros Hb. unfold inst_insert. destruct (find_bb b (l_bbs l)) as [is|] eqn:E; [|done].
  destruct Hb. apply elem_of_list_fmap. exists (b, is). split; [done|]. by apply find_bb_elem.
Qed.

Lemma inst_remove_spec b v l is :
  no_duplicates l → (b, is) ∈ l_bbs l →
  ∃ l', inst_remove b v l = Some l' ∧
    only_block b is (filter (λ x, x ≠ v) is) l l' ∧
    (v ∉ is → l' = l) ∧ (v ∈ is → l_inst_bb l' = delete v (l_inst_bb l)).
Proof.
  intros [Hn Hi] Hb. apply elem_find_bb in Hb; [|done]. unfold inst_remove. rewrite Hb. simpl.
  eexists. split; [done|].
  assert (∀ l0 : list N, filter (λ x, negb (id x =? v)%N) l0 = filter (λ x, x ≠ v) l0) as Hf.
  { intros l0. apply list_filter_iff. intros x. unfold id.
    destruct (N.eqb_spec x v); simpl; split; done. }
  destruct (has_key id v is) eqn:Hk.
  - apply has_key_id in Hk. split; [|by split].
    destruct (set_bb_split b (remove_key id v is) (l_bbs l) is Hb) as (l1 & l2 & H3 & H4).
    exists l1, l2. split; [done|]. simpl. rewrite H4. unfold remove_key. by rewrite Hf.
  - apply has_key_id_false in Hk. split; [|by split].
    destruct (set_bb_split b is (l_bbs l) is Hb) as (l1 & l2 & H3 & H4).
    exists l1, l2. split; [done|].
    replace (filter (λ x, x ≠ v) is) with is; [done|].
    clear -Hk. induction is as [|x is IH]; [done|]. apply not_elem_of_cons in Hk as [H1 H2].
    rewrite filter_cons_True; [|congruence]. by f_equal; auto.
Qed.

Lemma bb_insert_spec pl b l :
  (b ∈ blocks l → bb_insert pl b l = Some Duplicate) ∧
  (b ∉ blocks l → place_ok pl (blocks l) →
    ∃ bs, bb_insert pl b l = Some (Inserted (Layout bs (l_inst_bb l))) ∧
      placed fst pl (b, []) (l_bbs l) bs).
Proof.
  unfold bb_insert, blocks. split.
  - intros H. by apply has_key_In in H as ->.
  - intros H Hp. apply has_key_false in H as ->.
    destruct (place_in_ok fst pl (b, []) (l_bbs l)) as [_ H2].
    destruct (H2 Hp) as [bs Hb]. rewrite Hb. simpl. exists bs. split; [done|].
    by apply place_in_placed.
Qed.

Lemma bb_remove_spec b l :
  l_bbs (bb_remove b l) = filter (λ x, x.1 ≠ b) (l_bbs l) ∧
  l_inst_bb (bb_remove b l) = l_inst_bb l.
Proof.
  split; [|done]. simpl. unfold remove_key. apply list_filter_iff. intros x.
  destruct (N.eqb_spec x.1 b); simpl; split; done.
Qed.

(** ** The reverse map *)

Definition rev_exact (l : layout) : Prop := ∀ v b, parent_bb l v = Some b ↔ in_block l v b.

Definition linv (l : layout) : Prop := no_duplicates l ∧ rev_exact l.

Lemma linv_unique l v b c : linv l → in_block l v b → in_block l v c → b = c.
Proof. intros [_ H] H1%H H2%H. congruence. Qed.

Lemma lstep_linv o l l' : linv l → disciplined o l → lstep o l = Some l' → linv l'.
Proof.
  intros [Hn Hr] Hd Hs. split; [by eapply lstep_nodup|].
  pose proof Hn as [Hk Hi]. unfold rev_exact, parent_bb, in_block, blocks in *.
  destruct o; simpl in Hs, Hd.
  - unfold bb_insert in Hs. destruct (has_key fst b (l_bbs l)) eqn:Hkb.
    { by injection Hs as <-. }
    destruct (place_in fst pl (b, []) (l_bbs l)) as [bs|] eqn:Hp; [|done].
    injection Hs as <-. simpl. apply place_in_placed, placed_perm in Hp.
    intros v c. rewrite Hr. setoid_rewrite Hp. setoid_rewrite elem_of_cons. split.
    + intros (is & H1 & H2). eauto.
    + intros (is & [[= -> ->]|H1] & H2); [by inversion H2|eauto].
  - injection Hs as <-. simpl. intros v c. rewrite Hr. setoid_rewrite elem_remove_key. simpl.
    split.
    + intros (is & H1 & H2). exists is. split; [|done]. split; [done|]. intros ->.
      apply (Hd v). by exists is.
    + intros (is & [H1 _] & H2). eauto.
  - injection Hs as <-. simpl. intros v c. rewrite Hr. split.
    + intros (is & H1 & H2). destruct (Hd v c). by exists is.
    + intros (is & H1 & _). inversion H1.
  - unfold inst_insert in Hs. destruct (find_bb b (l_bbs l)) as [is|] eqn:Hb; [|done].
    simpl in Hs. destruct (has_key id v is) eqn:Hkv. { by injection Hs as <-. }
    destruct (place_in id pl v is) as [is'|] eqn:Hp; [|done]. injection Hs as <-. simpl.
    apply place_in_placed, placed_perm in Hp. intros x c.
    setoid_rewrite elem_set_bb; [|done|by eexists]. destruct (decide (x = v)) as [->|Hxv].
    + rewrite lookup_insert. split.
      * intros [= ->]. exists is'. split; [by left|]. rewrite Hp. by left.
      * intros (cs & [[-> ->]|[Hcb Hc]] & Hin); [done|]. destruct (Hd c). by exists cs.
    + rewrite lookup_insert_ne, Hr by done. split.
      * intros (cs & Hc & Hin). destruct (decide (c = b)) as [->|Hcb].
        -- exists is'. split; [by left|]. rewrite Hp. right.
           apply elem_find_bb in Hc; [|done]. congruence.
        -- exists cs. split; [by right|done].
      * intros (cs & [[-> ->]|[Hcb Hc]] & Hin).
        -- exists is. split; [by apply find_bb_elem|].
           rewrite Hp in Hin. apply elem_of_cons in Hin as [?|?]; done.
        -- by exists cs.
  - unfold inst_remove in Hs. destruct (find_bb b (l_bbs l)) as [is|] eqn:Hb; [|done].
    simpl in Hs. injection Hs as <-. destruct (has_key id v is) eqn:Hkv; [|done]. simpl.
    apply has_key_id in Hkv. pose proof (find_bb_elem _ _ _ Hb) as Hbe.
    intros x c. setoid_rewrite elem_set_bb; [|done|by eexists].
    destruct (decide (x = v)) as [->|Hxv].
    + rewrite lookup_delete. split; [done|].
      intros (cs & [[-> ->]|[Hcb Hc]] & Hin).
      * apply elem_remove_key in Hin as [_ ?]. done.
      * destruct Hcb. eapply linv_unique; [by split| |]; [by exists cs|by exists is].
    + rewrite lookup_delete_ne, Hr by done. split.
      * intros (cs & Hc & Hin). destruct (decide (c = b)) as [->|Hcb].
        -- eexists. split; [by left|]. apply elem_remove_key. split; [|done].
           apply elem_find_bb in Hc; [|done]. congruence.
        -- exists cs. split; [by right|done].
      * intros (cs & [[-> ->]|[Hcb Hc]] & Hin).
        -- exists is. split; [done|]. by apply elem_remove_key in Hin as [? _].
        -- by exists cs.
  - unfold inst_clear in Hs. destruct (find_bb b (l_bbs l)) as [is|] eqn:Hb; [|done].
    simpl in Hs. injection Hs as <-. simpl. intros x c.
    setoid_rewrite elem_set_bb; [|done|by eexists]. rewrite Hr. split.
    + intros (cs & Hc & Hin). destruct (decide (c = b)) as [->|Hcb].
      * destruct (Hd x). by exists cs.
      * exists cs. split; [by right|done].
    + intros (cs & [[-> ->]|[Hcb Hc]] & Hin); [by inversion Hin|by exists cs].
Qed.

Lemma linv0 : linv layout0.
Proof.
  split; [apply no_duplicates0|]. intros v b. unfold parent_bb, in_block. simpl. split.
  - by rewrite lookup_empty.
  - intros (is & H & _). inversion H.
Qed.

Lemma lrun_linv_from os l l' :
  linv l → all_disciplined os l → lrun os l = Some l' → linv l'.
Proof.
  revert l. induction os as [|o os IH]; intros l Hn Hd Hr; simpl in Hr; [by injection Hr as <-|].
  destruct (lstep o l) as [l1|] eqn:Hs; [|done]. simpl in Hr. destruct Hd as [Hd1 Hd2].
  eapply IH; [|by apply Hd2|done]. by eapply lstep_linv.
Qed.

Lemma lrun_parent os l v b :
  all_disciplined os layout0 → lrun os layout0 = Some l →
  parent_bb l v = Some b ↔ in_block l v b.
Proof. intros H1 H2. by apply (lrun_linv_from os layout0 l linv0 H1 H2). Qed.

(** The entry block is the first one. *)
Lemma entry_bb_first l : entry_bb l = head (blocks l).
Proof. unfold entry_bb, blocks. by destruct (l_bbs l). Qed.
