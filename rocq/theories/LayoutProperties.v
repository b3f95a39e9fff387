(** Properties of layouts (C13, C14). *)
From Verif Require Import Base IrModel LayoutModel LayoutSpec LayoutProofs.

(** ** C13 *)

Theorem C13_no_duplicates os l : lrun os layout0 = Some l → no_duplicates l.
Proof. exact (lrun_nodup os l). Qed.
Print Assumptions C13_no_duplicates.

(** Inserting an instruction into block [b], whose list is [is], after any history:
    duplicates are refused; otherwise the instruction is put exactly where requested
    and no other list changes. *)
Theorem C13_insert_inst os l pl b v is :
  lrun os layout0 = Some l → (b, is) ∈ l_bbs l →
  (v ∈ is → inst_insert pl b v l = Some Duplicate) ∧
  (v ∉ is → place_ok pl is →
    ∃ l' is', inst_insert pl b v l = Some (Inserted l') ∧ only_block b is is' l l' ∧
      placed id pl v is is').
Proof.
  intros Hr Hb. apply lrun_nodup in Hr.
  destruct (inst_insert_spec pl b v l is Hr Hb) as [H1 H2]. split; [exact H1|].
  intros Hv Hp. destruct (H2 Hv Hp) as (l' & is' & ? & ? & ? & _). by exists l', is'.
Qed.
Print Assumptions C13_insert_inst.

Theorem C13_insert_block pl b l :
  (b ∈ blocks l → bb_insert pl b l = Some Duplicate) ∧
  (b ∉ blocks l → place_ok pl (blocks l) →
    ∃ bs, bb_insert pl b l = Some (Inserted (Layout bs (l_inst_bb l))) ∧
      placed fst pl (b, []) (l_bbs l) bs).
Proof. exact (bb_insert_spec pl b l). Qed.
Print Assumptions C13_insert_block.

Theorem C13_remove_inst os l b v is :
  lrun os layout0 = Some l → (b, is) ∈ l_bbs l →
  ∃ l', inst_remove b v l = Some l' ∧ only_block b is (filter (λ x, x ≠ v) is) l l' ∧
    (v ∉ is → l' = l).
Proof.
  intros Hr Hb. apply lrun_nodup in Hr.
  destruct (inst_remove_spec b v l is Hr Hb) as (l' & ? & ? & ? & _). by exists l'.
Qed.
Print Assumptions C13_remove_inst.

Theorem C13_remove_block b l :
  l_bbs (bb_remove b l) = filter (λ x, x.1 ≠ b) (l_bbs l).
Proof. exact (proj1 (bb_remove_spec b l)). Qed.
Print Assumptions C13_remove_block.

(** The entry block is the first block of the order. *)
Theorem C13_entry_first l : entry_bb l = head (blocks l).
Proof. exact (entry_bb_first l). Qed.
Print Assumptions C13_entry_first.

Example C13_example :
  let os := [LBbInsert Back 1; LBbInsert Front 2; LBbInsert (After 2) 3; LInsert Back 1 10;
             LInsert Front 1 11; LInsert (Before 10) 1 12; LInsert Back 1 12; LRemove 1 11;
             LInsert (After 12) 1 13; LInsert Back 3 14]%N in
  l_bbs <$> lrun os layout0 = Some [(2, []); (3, [14]); (1, [12; 13; 10])]%N.
Proof. vm_compute. reflexivity. Qed.

(** ** C14 *)

Theorem C14_parent_bb_exact os l v b :
  all_disciplined os layout0 → lrun os layout0 = Some l →
  parent_bb l v = Some b ↔ in_block l v b.
Proof. exact (lrun_parent os l v b). Qed.
Print Assumptions C14_parent_bb_exact.

(** Each of the three rules of the discipline is needed. *)
Theorem C14_clear_stale_refuted :
  ∃ os l v b, lrun os layout0 = Some l ∧ (∀ c, ¬ in_block l v c) ∧ parent_bb l v = Some b.
Proof.
  exists [LBbInsert Back 1; LInsert Back 1 10; LClear 1]%N. eexists _, 10%N, 1%N.
  split; [reflexivity|]. split; [|reflexivity].
  intros c (is & Hc & Hv). simpl in Hc. apply elem_of_list_singleton in Hc. simplify_eq.
  inversion Hv.
Qed.
Print Assumptions C14_clear_stale_refuted.

Theorem C14_remove_block_stale_refuted :
  ∃ os l v b, lrun os layout0 = Some l ∧ (∀ c, ¬ in_block l v c) ∧ parent_bb l v = Some b.
Proof.
  exists [LBbInsert Back 1; LInsert Back 1 10; LBbRemove 1]%N. eexists _, 10%N, 1%N.
  split; [reflexivity|]. split; [|reflexivity].
  intros c (is & Hc & Hv). simpl in Hc. inversion Hc.
Qed.
Print Assumptions C14_remove_block_stale_refuted.

(** An instruction inserted in two blocks: the reverse map knows one of them; removing
    it from there makes it parentless although it is still in the other. *)
Theorem C14_double_insert_refuted :
  ∃ os l v b, lrun os layout0 = Some l ∧ in_block l v b ∧ parent_bb l v = None.
Proof.
  exists [LBbInsert Back 1; LBbInsert Back 2; LInsert Back 1 10; LInsert Back 2 10;
          LRemove 2 10]%N. eexists _, 10%N, 1%N.
  split; [reflexivity|]. split; [|reflexivity].
  exists [10%N]. split; [by left|by left].
Qed.
Print Assumptions C14_double_insert_refuted.

(** A disciplined history with moves between blocks, and its result. *)
Definition C14_history : list lop :=
  [LBbInsert Back 1; LBbInsert Front 2; LInsert Back 1 10; LInsert Back 1 11; LRemove 1 10;
   LInsert Back 2 10; LRemove 1 11; LBbRemove 1]%N.

Definition disciplinedb (o : lop) (l : layout) : bool :=
  match o with
  | LInsert _ _ v => forallb (λ x, negb (has_key id v x.2)) (l_bbs l)
  | LClear b | LBbRemove b =>
      forallb (λ x, negb (x.1 =? b)%N || match x.2 with [] => true | _ => false end) (l_bbs l)
  | LBbClear => forallb (λ x, match x.2 with [] => true | _ => false end) (l_bbs l)
  | _ => true
  end.
Fixpoint all_disciplinedb (os : list lop) (l : layout) : bool :=
  match os with
  | [] => true
  | o :: os' => disciplinedb o l &&
      match lstep o l with Some l' => all_disciplinedb os' l' | None => true end
  end.

Lemma disciplinedb_sound o l : disciplinedb o l = true → disciplined o l.
Proof.
  destruct o; simpl; try done; intros H; rewrite forallb_forall in H.
  - intros v (is & H1%elem_of_list_In & H2). apply H in H1. simpl in H1.
    rewrite N.eqb_refl in H1. destruct is; [inversion H2|done].
  - intros v b (is & H1%elem_of_list_In & H2). apply H in H1. simpl in H1.
    destruct is; [inversion H2|done].
  - intros b' (is & H1%elem_of_list_In & H2). apply H in H1. simpl in H1.
    apply has_key_id in H2. by rewrite H2 in H1.
  - intros v (is & H1%elem_of_list_In & H2). apply H in H1. simpl in H1.
    rewrite N.eqb_refl in H1. destruct is; [inversion H2|done].
Qed.

Lemma all_disciplinedb_sound os : ∀ l, all_disciplinedb os l = true → all_disciplined os l.
Proof.
  induction os as [|o os IH]; intros l H; simpl in *; [done|].
  apply andb_true_iff in H as [H1 H2]. split; [by apply disciplinedb_sound|].
  intros l' Hl. rewrite Hl in H2. by apply IH.
Qed.

Example C14_example :
  all_disciplined C14_history layout0 ∧
  (λ l, (parent_bb l 10, parent_bb l 11)) <$> lrun C14_history layout0 = Some (Some 2%N, None).
Proof.
  split; [apply all_disciplinedb_sound|]; vm_compute; reflexivity.
Qed.
