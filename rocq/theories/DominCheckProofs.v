(** Definitions that dominate their uses, checked by computation (for the examples of C59). *)
From Verif Require Import Base IdModel TypeModel IrModel LayoutModel DfgSpec UsesSpec ScopeSpec RawCheckProofs DominSpec.

Section check.
Context (fd : fdata).
Definition next_of (insts : list value) : list bblock :=
  match list.last insts with
  | Some v => match vals fd !! v with Some d => targets (v_kind d) | None => [] end
  | None => []
  end.
Definition mem (b : bblock) (l : list bblock) : bool := bool_decide (b ∈ l).
(** The blocks that control gets to without coming through [c]. *)
Definition spread (c : bblock) (l : list bblock) : list bblock :=
  l ++ filter (λ b, b ≠ c ∧ b ∉ l) (l_bbs (f_layout fd) ≫= λ e : bblock * list value, if mem e.1 l then next_of e.2 else []).
Definition without (c : bblock) : list bblock :=
  Nat.iter (length (l_bbs (f_layout fd))) (spread c)
    (match head (map fst (l_bbs (f_layout fd))) with Some b => if bool_decide (b = c) then [] else [b] | None => [] end).
Definition closed_b (c : bblock) (l : list bblock) : bool :=
  match head (map fst (l_bbs (f_layout fd))) with Some b => bool_decide (b = c) || mem b l | None => true end &&
  forallb (λ e : bblock * list value, negb (mem e.1 l) || forallb (λ b, bool_decide (b = c) || mem b l) (next_of e.2)) (l_bbs (f_layout fd)).
Definition dominates_b (c b : bblock) : bool := closed_b c (without c) && negb (mem b (without c)).
Lemma dominates_b_ok c b : dominates_b c b = true → dominates fd c b.
Proof.
  unfold dominates_b. generalize (without c) as l. intros l [Hc Hn]%andb_prop l' Hg. apply negb_true_iff, bool_decide_eq_false_1 in Hn.
  destruct (decide (c ∈ l')) as [|Hno]; [done|]. destruct Hn. apply andb_prop in Hc as [H1 H2].
  induction Hg as [b Hb|l' b c' Hg IH (insts & v & d & Hi & Hv & Hd & Ht)].
  - unfold first_block in Hb. rewrite Hb in H1. apply orb_prop in H1 as [H1|H1]; apply bool_decide_eq_true_1 in H1; [|done].
    destruct Hno. subst. by left.
  - apply not_elem_of_cons in Hno as [Hne Hno]. specialize (IH Hno). pose proof (lall_ok _ _ _ H2 Hi) as H. simpl in H. apply orb_prop in H as [H|H].
    + by apply negb_true_iff, bool_decide_eq_false_1 in H.
    + unfold next_of in H. rewrite Hv, Hd in H. pose proof (lall_ok _ _ _ H Ht) as H'. simpl in H'. apply orb_prop in H' as [H'|H']; apply bool_decide_eq_true_1 in H'; [by subst|done].
Qed.
Definition defined_b (u : value) (c : bblock) : bool :=
  match blks fd !! c with Some d => bool_decide (u ∈ bb_params d) | None => false end ||
  existsb (λ e : bblock * list value, bool_decide (e.1 = c) && bool_decide (u ∈ e.2)) (l_bbs (f_layout fd)).
Definition dominated_b : bool :=
  forallb (λ e : bblock * list value, forallb (λ v,
    match vals fd !! v with
    | Some d => forallb (λ u, forallb (λ c, negb (defined_b u c) || dominates_b c e.1)
        ((map_to_list (blks fd)).*1 ++ (l_bbs (f_layout fd)).*1)) (operands (v_kind d))
    | None => true end) e.2) (l_bbs (f_layout fd)).
Lemma dominated_b_ok : dominated_b = true → dominated fd.
Proof.
  intros H b insts v d u c Hi Hv Hd Hu Hc. pose proof (lall_ok _ _ _ H Hi) as H1. pose proof (lall_ok _ _ _ H1 Hv) as H2. simpl in H2. rewrite Hd in H2.
  pose proof (lall_ok _ _ _ H2 Hu) as H3. simpl in H3.
  assert (Hin : c ∈ (map_to_list (blks fd)).*1 ++ (l_bbs (f_layout fd)).*1).
  { apply elem_of_app. destruct Hc as [(bd & Hb & _)|(is & Hb & _)]; [left|right]; apply elem_of_list_fmap; [exists (c, bd)|exists (c, is)]; (split; [done|]); [by apply elem_of_map_to_list|done]. }
  pose proof (lall_ok _ _ _ H3 Hin) as H4. simpl in H4. apply orb_prop in H4 as [H4|H4]; [exfalso|by apply dominates_b_ok].
  apply negb_true_iff, orb_false_iff in H4 as [A B]. destruct Hc as [(bd & Hb & Hp)|(is & Hb & Hp)].
  - rewrite Hb in A. by apply bool_decide_eq_false_1 in A.
  - enough (X : existsb (λ e : bblock * list value, bool_decide (e.1 = c) && bool_decide (u ∈ e.2)) (l_bbs (f_layout fd)) = true) by (rewrite X in B; discriminate B).
    apply existsb_exists. exists (c, is). split; [by apply elem_of_list_In|]. simpl. rewrite !bool_decide_eq_true_2; done.
Qed.
End check.
Definition dominated_all (p : program) : bool := mall (λ _ fd, dominated_b fd) (p_funcs p).
Lemma dominated_all_ok p : dominated_all p = true → ∀ f fd, p_funcs p !! f = Some fd → dominated fd.
Proof. intros H f fd Hf. apply dominated_b_ok. exact (mall_ok _ _ _ _ H Hf). Qed.
