(** Raw programs hold the program they are built from (C53). *)
From Coq Require Import Lia ZifyBool ZifyNat ZifyN.
From Verif Require Import Base IdModel TypeModel IrModel LayoutModel BuilderModel WorldModel UsesSpec DfgSpec TypingSpec
  RawModel RawSpec RawBuildProofs RawWalkProofs RawTotalSpec RawMakeProofs RawFormSpec.
Ltac rb H a H1 := apply rbind_Done in H as (a & H1 & H).

Section form.
Context (ord : gset N → list N) (p : program).
(** What is known of an entry made during the building. *)
Definition done_at (s : bst) (t : task) : Prop :=
  match t with
  | TVal v => ∃ x d, h_vals s.1 !! v = Some (Some x) ∧ value_of p v d ∧ rv_ty x = v_ty d ∧ rv_name x = v_name d ∧
      rv_kind x = v_kind d ∧ s.2 !! v = Some (ord (v_used_by d)) ∧ ∀ u, u ∈ refs (v_kind d) → hasb s u = true
  | TBlk b => ∃ x d is, h_bbs s.1 !! b = Some (Some x) ∧ block_of p b d is ∧ rb_name x = bb_name d ∧
      rb_params x = bb_params d ∧ rb_insts x = is ∧ rb_used_by x = ord (bb_used_by d) ∧
      ∀ v, v ∈ bb_params d ∨ v ∈ ord (bb_used_by d) ∨ v ∈ is → hasb s (TVal v) = true
  | TFunc f => ∃ x fd, h_funcs s.1 !! f = Some (Some x) ∧ p_funcs p !! f = Some fd ∧ rf_ty x = f_ty fd ∧
      rf_name x = f_name fd ∧ rf_params x = f_params fd ∧ rf_bbs x = (l_bbs (f_layout fd)).*1 ∧
      (∀ v, v ∈ f_params fd → hasb s (TVal v) = true) ∧
      ∀ b, b ∈ (l_bbs (f_layout fd)).*1 → hasb s (TBlk b) = true
  end.
Definition keeps (s s' : bst) : Prop :=
  (∀ t, hasb s t = true → hasb s' t = true ∧ same_at s s' t) ∧
  (∀ t, hasb s t = false → hasb s' t = true → done_at s' t).
Lemma done_at_mono s s' t : (∀ u, hasb s u = true → hasb s' u = true) → same_at s s' t → done_at s t → done_at s' t.
Proof.
  intros Hm Hs. destruct t as [v|b|f]; simpl in *.
  - destruct Hs as [E1 E2]. intros (x & d & A & B & C & D & E & F & G). exists x, d. rewrite E1, E2.
    split_and!; try done. intros u Hu. by apply Hm, G.
  - intros (x & d & is & A & B & C & D & E & F & G). exists x, d, is. rewrite Hs.
    split_and!; try done. intros u Hu. by apply (Hm (TVal u)), G.
  - intros (x & d & A & B & C & D & E & F & G1 & G2). exists x, d. rewrite Hs.
    split_and!; try done; intros u Hu; [by apply (Hm (TVal u)), G1|by apply (Hm (TBlk u)), G2].
Qed.
Lemma same_at_trans s s1 s2 t : same_at s s1 t → same_at s1 s2 t → same_at s s2 t.
Proof. destruct t; simpl; [intros [] []; split; congruence|congruence..]. Qed.
Lemma same_at_hasb s s' t : same_at s s' t → hasb s' t = hasb s t.
Proof. destruct t; simpl; [intros [-> _]; done|intros ->; done..]. Qed.
Lemma keeps_refl s : keeps s s.
Proof. split; [by intros []|]. intros t H H'. congruence. Qed.
Lemma keeps_trans s s1 s2 : keeps s s1 → keeps s1 s2 → keeps s s2.
Proof.
  intros [A1 A2] [B1 B2]. split.
  - intros t Ht. destruct (A1 t Ht) as [H1 E1]. destruct (B1 t H1) as [H2 E2]. split; [done|].
    by eapply same_at_trans.
  - intros t Ht Ht2. destruct (hasb s1 t) eqn:E; [|exact (B2 t E Ht2)].
    eapply done_at_mono; [|exact (proj2 (B1 t E))|exact (A2 t Ht E)]. intros u Hu. by apply B1.
Qed.
(** An entry is reserved, the entries it needs are made, and it is filled in. *)
Lemma keeps_put s s0 s1 s2 t : hasb s t = false → (∀ u, u ≠ t → same_at s s0 u) → keeps s0 s1 →
  (∀ u, u ≠ t → same_at s1 s2 u) → hasb s2 t = true → ((∀ u, hasb s1 u = true → hasb s2 u = true) → done_at s2 t) →
  keeps s s2 ∧ hasb s2 t = true.
Proof.
  intros Hn H0 [K1 K2] H2 Ht Hd.
  assert (Hm : ∀ u, hasb s1 u = true → hasb s2 u = true).
  { intros u Hu. destruct (decide (u = t)) as [->|Hne]; [done|]. by rewrite (same_at_hasb _ _ _ (H2 u Hne)). }
  specialize (Hd Hm). split; [|done]. split.
  - intros u Hu. assert (Hne : u ≠ t) by congruence. destruct (K1 u) as [A B]; [by rewrite (same_at_hasb _ _ _ (H0 u Hne))|].
    split; [by apply Hm|]. eapply same_at_trans; [by apply H0|]. eapply same_at_trans; [exact B|by apply H2].
  - intros u Hu Hu2. destruct (decide (u = t)) as [->|Hne]; [done|].
    eapply done_at_mono; [exact Hm|by apply H2|]. apply K2.
    + by rewrite (same_at_hasb _ _ _ (H0 u Hne)).
    + by rewrite <- (same_at_hasb _ _ _ (H2 u Hne)).
Qed.
Lemma keeps_each n cf l :
  (∀ t s s', raw_build ord p n cf t s = Done s' → keeps s s' ∧ hasb s' t = true) →
  ∀ s s', each (raw_build ord p n cf) l s = Done s' → keeps s s' ∧ ∀ t, t ∈ l → hasb s' t = true.
Proof.
  intros Hg. induction l as [|t l IH]; intros s s' H; simpl in H.
  - injection H as ->. split; [apply keeps_refl|]. intros t Ht. by apply elem_of_nil in Ht.
  - rb H s1 H1. destruct (Hg _ _ _ H1) as [A B]. destruct (IH _ _ H) as [C D]. split; [by eapply keeps_trans|].
    intros u Hu. apply elem_of_cons in Hu as [->|Hu]; [by apply C|by apply D].
Qed.
Lemma put_val_same h us v x u : u ≠ TVal v → same_at (h, us) (put_val h v x, us) u.
Proof. destruct u; simpl; intros; [|done..]. by rewrite lookup_insert_ne by congruence. Qed.
Lemma put_val_same' h us v x l u : u ≠ TVal v → same_at (h, us) (put_val h v x, <[v := l]> us) u.
Proof. destruct u; simpl; intros; [|done..]. by rewrite !lookup_insert_ne by congruence. Qed.
Lemma put_bb_same h us v x u : u ≠ TBlk v → same_at (h, us) (put_bb h v x, us) u.
Proof. destruct u; simpl; intros; [done| |done]. by rewrite lookup_insert_ne by congruence. Qed.
Lemma put_fun_same h us v x u : u ≠ TFunc v → same_at (h, us) (put_fun h v x, us) u.
Proof. destruct u; simpl; intros; [done|done|]. by rewrite lookup_insert_ne by congruence. Qed.

Lemma raw_build_keeps n : ∀ cf t s s', fun_of p cf → raw_build ord p n cf t s = Done s' →
  keeps s s' ∧ hasb s' t = true.
Proof.
  induction n as [|n IH]; intros cf t s s' Hcf H; [done|].
  assert (IHe : ∀ cf l s s', fun_of p cf → each (raw_build ord p n cf) l s = Done s' →
    keeps s s' ∧ ∀ t, t ∈ l → hasb s' t = true).
  { intros cf' l s1 s2 Hf He. eapply keeps_each; [|exact He]. intros; by eapply IH. }
  destruct s as [h us]. destruct t as [v|b|f]; simpl in H.
  - destruct (h_vals h !! v) eqn:Ev.
    { injection H as <-. split; [apply keeps_refl|]. simpl. by rewrite Ev. }
    rb H d Hd. apply need_Done in Hd. rb H x Hn. rb H y He. destruct y as [h1 us1]. injection H as <-.
    rewrite kind_tasks_refs in He. destruct (IHe _ _ _ _ Hcf He) as [K T].
    eapply keeps_put; [| |exact K| | |].
    + simpl. by rewrite Ev.
    + intros; by apply put_val_same.
    + intros; by apply put_val_same'.
    + simpl. by rewrite lookup_insert.
    + intros Hm. eexists _, d. split; [apply lookup_insert|]. split_and!; try done.
      * destruct (is_global_id v); [by left|].
        apply bind_Some in Hd as (fd & -> & Hd). right. destruct (Hcf fd eq_refl) as [f Hf]. by exists f, fd.
      * simpl. apply lookup_insert.
      * intros u Hu. by apply Hm, T.
  - destruct (h_bbs h !! b) eqn:Ev.
    { injection H as <-. split; [apply keeps_refl|]. simpl. by rewrite Ev. }
    rb H fd Hfd. apply need_Done in Hfd. subst cf. rb H d Hd. apply need_Done in Hd. rb H x Hn. rb H s1 H1. rb H s2 H2.
    rb H is Hi. apply need_Done in Hi. rb H y H3. destruct y as [h3 us3]. injection H as <-.
    destruct (IHe _ _ _ _ Hcf H1) as [K1 T1]. destruct (IHe _ _ _ _ Hcf H2) as [K2 T2]. destruct (IHe _ _ _ _ Hcf H3) as [K3 T3].
    eapply keeps_put; [| |exact (keeps_trans _ _ _ K1 (keeps_trans _ _ _ K2 K3))| | |].
    + simpl. by rewrite Ev.
    + intros; by apply put_bb_same.
    + intros; by apply put_bb_same.
    + simpl. by rewrite lookup_insert.
    + intros Hm. eexists _, d, is. split; [apply lookup_insert|]. split_and!; try done.
      * destruct (Hcf fd eq_refl) as [f Hf]. exists f, fd. split; [done|]. split; [done|]. by apply find_bb_in.
      * intros v Hv. apply Hm. destruct Hv as [Hv|[Hv|Hv]].
        -- apply K3, K2, T1. apply elem_of_list_fmap. by exists v.
        -- apply K3, T2. apply elem_of_list_fmap. by exists v.
        -- apply T3. apply elem_of_list_fmap. by exists v.
  - destruct (h_funcs h !! f) eqn:Ev.
    { injection H as <-. split; [apply keeps_refl|]. simpl. by rewrite Ev. }
    rb H fd Hfd. apply need_Done in Hfd. rb H x Hn. rb H s1 H1. rb H y H2. destruct y as [h2 us2]. injection H as <-.
    assert (Hc : fun_of p (Some fd)) by (intros ? [= <-]; by exists f).
    destruct (IHe _ _ _ _ Hc H1) as [K1 T1]. destruct (IHe _ _ _ _ Hc H2) as [K2 T2].
    eapply keeps_put; [| |exact (keeps_trans _ _ _ K1 K2)| | |].
    + simpl. by rewrite Ev.
    + intros; by apply put_fun_same.
    + intros; by apply put_fun_same.
    + simpl. by rewrite lookup_insert.
    + intros Hm. eexists _, fd. split; [apply lookup_insert|]. split_and!; try done.
      * intros v Hv. apply Hm, K2, T1. apply elem_of_list_fmap. by exists v.
      * intros v Hv. apply Hm, T2. apply elem_of_list_fmap. by exists v.
Qed.

Lemma user_of_listed v d : regular p → use_lists_exact p → value_of p v d → ∀ u, u ∈ v_used_by d ↔ user_of p u v.
Proof.
  intros HR (U1 & U2 & _) [Hd|(f & fd & Hf & Hd)] u.
  - rewrite (U1 v d Hd). split.
    + intros [(du & A & B)|(f & fd & Hf & du & A & B)]; exists du; (split; [|done]); [by left|right; by exists f, fd].
    + intros (du & [A|(f & fd & Hf & A)] & B); [left; by exists du|right; exists f, fd; split; [done|by exists du]].
  - rewrite (U2 f fd v d Hf Hd). split.
    + intros (du & A & B). exists du. split; [right; by exists f, fd|done].
    + intros (du & [A|(f' & fd' & Hf' & A)] & B).
      * assert (Hg : is_Some (p_values p !! v)) by (apply (proj1 (rg_closed _ HR) u v); by exists du).
        apply (rg_global _ HR) in Hg. rewrite (rg_local _ HR f fd v Hf) in Hg by (by exists d). discriminate Hg.
      * assert (f' = f) as ->.
        { destruct (proj1 (proj2 (rg_closed _ HR)) f' fd' u v Hf') as [Hg|Hl]; [by exists du| |].
          - apply (rg_global _ HR) in Hg. rewrite (rg_local _ HR f fd v Hf) in Hg by (by exists d). discriminate Hg.
          - eapply (rg_own _ HR); [exact Hf'|exact Hf|exact Hl|by exists d]. }
        rewrite Hf in Hf'. injection Hf' as <-. by exists du.
Qed.
Lemma jump_of_listed b d is : regular p → use_lists_exact p → block_of p b d is → ∀ u, u ∈ bb_used_by d ↔ jump_of p u b.
Proof.
  intros HR (_ & _ & U3) (f & fd & Hf & Hb & Hl) u. rewrite (U3 f fd b d Hf Hb). split.
  - intros (du & A & B). exists du. split; [right; by exists f, fd|done].
  - intros (du & [A|(f' & fd' & Hf' & A)] & B).
    + apply elem_refs_blk in B. destruct (global_refs p HR u du A _ B) as (x & [=] & _).
    + assert (f' = f) as ->.
      { eapply (rg_own_bb _ HR); [exact Hf'|exact Hf| |by exists d].
        apply (proj2 (proj2 (rg_closed _ HR)) f' fd' u b Hf'). by exists du. }
      rewrite Hf in Hf'. injection Hf' as <-. by exists du.
Qed.

Lemma build_raw_form n r h : regular p → use_lists_exact p → lists_sets ord →
  build_on ord n p = Done (r, h) → raw_form p r h.
Proof.
  intros HR HU Hord H. unfold build_on in H. rb H s1 H1. rb H s2 H2. rb H h' H3. injection H as <- <-.
  assert (Hn : fun_of p None) by done.
  destruct (keeps_each n None _ (λ t s s', raw_build_keeps n None t s s' Hn) _ _ H1) as [K1 T1].
  destruct (keeps_each n None _ (λ t s s', raw_build_keeps n None t s s' Hn) _ _ H2) as [K2 T2].
  assert (K : ∀ t, hasb s2 t = true → done_at s2 t).
  { intros t. apply (proj2 (keeps_trans _ _ _ K1 K2)). by destruct t. }
  unfold fill_used_by in H3. destruct (forallb _ _) eqn:Hfa; [|done]. injection H3 as <-.
  set (h := Heap _ _ _).
  assert (Ht : ∀ t, hasb s2 t = true → there h t).
  { intros t Ht. apply K in Ht. destruct t as [v|b|f]; simpl in Ht |- *.
    - destruct Ht as (x & d & Hx & _). rewrite map_lookup_imap, Hx. by eexists.
    - destruct Ht as (x & d & is & Hx & _). by exists x.
    - destruct Ht as (x & fd & Hx & _). by exists x. }
  constructor; [done|done|..].
  - intros v Hv. apply Ht, K2, T1. apply elem_of_list_fmap. by exists v.
  - intros f Hf. apply Ht, T2. apply elem_of_list_fmap. by exists f.
  - intros v e He. simpl in He. rewrite map_lookup_imap in He. apply bind_Some in He as (y & Hy & He).
    destruct (K (TVal v)) as (x & d & Hx & Hd & E1 & E2 & E3 & Eu & Er); [simpl; by rewrite Hy|].
    rewrite Hx in Hy. injection Hy as <-. injection He as <-. eexists _, d. split; [reflexivity|].
    rewrite Eu. constructor; simpl; try done.
    + intros u. rewrite (Hord _ u). by apply user_of_listed.
    + intros t Hr. by apply Ht, Er.
    + intros u Hu. apply (Ht (TVal u)).
      rewrite forallb_forall in Hfa. specialize (Hfa (v, Some x)). simpl in Hfa. rewrite Eu in Hfa.
      specialize (Hfa ltac:(by apply elem_of_list_In, elem_of_map_to_list)). rewrite forallb_forall in Hfa.
      specialize (Hfa u ltac:(by apply elem_of_list_In)). simpl. by destruct (h_vals s2.1 !! u).
  - intros b e He. simpl in He.
    destruct (K (TBlk b)) as (x & d & is & Hx & Hd & E1 & E2 & E3 & Eu & Er); [simpl; by rewrite He|].
    rewrite Hx in He. injection He as <-. eexists x, d, is. split; [done|]. constructor; try done.
    + intros u. rewrite Eu, (Hord _ u). by eapply jump_of_listed.
    + intros v Hv. apply Ht, Er. by left.
    + intros v Hv. apply Ht, Er. by right; right.
    + intros v Hv. apply Ht, Er. right; left. by rewrite <- Eu.
  - intros f e He. simpl in He.
    destruct (K (TFunc f)) as (x & d & Hx & Hd & E1 & E2 & E3 & E4 & Er & Er2); [simpl; by rewrite He|].
    rewrite Hx in He. injection He as <-. eexists x, d. split; [done|]. constructor; try done.
    + intros v Hv. by apply Ht, Er.
    + intros v Hv. by apply Ht, Er2.
Qed.
End form.

Lemma raw_form_made ord p o n : regular p → discovered p o → buildable p o → lists_sets ord → length o < n →
  ∃ r h, build_on ord n p = Done (r, h) ∧ raw_form p r h ∧ ∀ t, t ∈ o → there h t.
Proof.
  intros HR Ho HB Hord Hn. destruct (make_program ord p o HR HB Ho Hord n Hn) as (r & h & E & Hf).
  exists r, h. split; [done|]. split; [eapply build_raw_form; [done|exact (bu_users _ _ HB)|done|exact E]|].
  intros t Ht. specialize (Hf t Ht). by destruct t.
Qed.
