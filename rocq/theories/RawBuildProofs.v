(** The raw form of a program holds the data of the program. *)
From Verif Require Import Base IdModel TypeModel IrModel LayoutModel BuilderModel WorldModel UsesSpec DfgSpec TypingSpec RawModel RawSpec.

(** ** Runs *)
Lemma rbind_Done {A B} (m : rr A) (k : A → rr B) b : m ≫= k = Done b → ∃ a, m = Done a ∧ k a = Done b.
Proof. destruct m; simpl; intros H; try done. by eexists. Qed.
Lemma need_Done {A} (o : option A) a : need o = Done a → o = Some a.
Proof. destruct o; simpl; intros H; by inversion H. Qed.
Ltac rb H a H1 := apply rbind_Done in H as (a & H1 & H).

Lemma each_ind {S} (go : task → S → rr S) (P : S → Prop) l :
  (∀ t s s', t ∈ l → go t s = Done s' → P s → P s') →
  ∀ s s', each go l s = Done s' → P s → P s'.
Proof.
  induction l as [|t l IH]; intros Hg s s' H Hs; simpl in H; [by injection H as ->|].
  rb H s1 H1. eapply IH; [|exact H|].
  - intros ? ? ? Ht. apply Hg. by right.
  - eapply Hg; [|exact H1|done]. by left.
Qed.

(** ** Tables *)
Record heap_ok (p : program) (h : heap) : Prop := {
  ho_val : ∀ v x, h_vals h !! v = Some (Some x) → ∃ d, value_of p v d ∧
    rv_ty x = v_ty d ∧ rv_name x = v_name d ∧ rv_kind x = v_kind d;
  ho_bb : ∀ b x, h_bbs h !! b = Some (Some x) → ∃ d, block_of p b d (rb_insts x) ∧
    rb_name x = bb_name d ∧ rb_params x = bb_params d;
  ho_fun : ∀ f x, h_funcs h !! f = Some (Some x) → ∃ fd, p_funcs p !! f = Some fd ∧
    rf_ty x = f_ty fd ∧ rf_name x = f_name fd ∧ rf_params x = f_params fd ∧
    rf_bbs x = (l_bbs (f_layout fd)).*1;
}.
Lemma heap_ok_put_val p h v x : heap_ok p h →
  (∀ y, x = Some y → ∃ d, value_of p v d ∧ rv_ty y = v_ty d ∧ rv_name y = v_name d ∧ rv_kind y = v_kind d) →
  heap_ok p (put_val h v x).
Proof.
  intros [H1 H2 H3] Hx. constructor; simpl; [|done|done].
  intros v' y Hy. destruct (decide (v' = v)) as [->|Hne].
  - rewrite lookup_insert in Hy. injection Hy as Hy. exact (Hx _ Hy).
  - rewrite lookup_insert_ne in Hy by done. exact (H1 _ _ Hy).
Qed.
Lemma heap_ok_put_bb p h b x : heap_ok p h →
  (∀ y, x = Some y → ∃ d, block_of p b d (rb_insts y) ∧ rb_name y = bb_name d ∧ rb_params y = bb_params d) →
  heap_ok p (put_bb h b x).
Proof.
  intros [H1 H2 H3] Hx. constructor; simpl; [done| |done].
  intros v' y Hy. destruct (decide (v' = b)) as [->|Hne].
  - rewrite lookup_insert in Hy. injection Hy as Hy. exact (Hx _ Hy).
  - rewrite lookup_insert_ne in Hy by done. exact (H2 _ _ Hy).
Qed.
Lemma heap_ok_put_fun p h f x : heap_ok p h →
  (∀ y, x = Some y → ∃ fd, p_funcs p !! f = Some fd ∧
    rf_ty y = f_ty fd ∧ rf_name y = f_name fd ∧ rf_params y = f_params fd ∧
    rf_bbs y = (l_bbs (f_layout fd)).*1) →
  heap_ok p (put_fun h f x).
Proof.
  intros [H1 H2 H3] Hx. constructor; simpl; [done|done|].
  intros v' y Hy. destruct (decide (v' = f)) as [->|Hne].
  - rewrite lookup_insert in Hy. injection Hy as Hy. exact (Hx _ Hy).
  - rewrite lookup_insert_ne in Hy by done. exact (H3 _ _ Hy).
Qed.
Lemma find_bb_in b l is : find_bb b l = Some is → (b, is) ∈ l.
Proof.
  induction l as [|[b' is'] l IH]; simpl; [done|]. destruct (N.eqb_spec b' b) as [->|].
  - intros [= ->]. left.
  - intros H. right. by apply IH.
Qed.

Section build.
Context (ord : gset N → list N) (p : program).
Definition fun_of (cf : option fdata) : Prop := ∀ fd, cf = Some fd → ∃ f, p_funcs p !! f = Some fd.
Lemma raw_build_ok n : ∀ cf t s s', fun_of cf → raw_build ord p n cf t s = Done s' →
  heap_ok p s.1 → heap_ok p s'.1.
Proof.
  induction n as [|n IH]; intros cf t s s' Hcf H Hs; [done|].
  assert (IHe : ∀ cf l s s', fun_of cf → each (raw_build ord p n cf) l s = Done s' → heap_ok p s.1 → heap_ok p s'.1).
  { intros cf' l s1 s2 Hf He Hs1. refine (each_ind _ (λ s, heap_ok p s.1) l _ _ _ He Hs1). intros t' ? ? _. by apply IH. }
  destruct s as [h us]. destruct t as [v|b|f]; simpl in H.
  - destruct (h_vals h !! v) eqn:Ev; [by injection H as <-|].
    rb H d Hd. apply need_Done in Hd. rb H x Hn. rb H y He. destruct y as [h1 us1]. injection H as <-. simpl.
    apply heap_ok_put_val.
    + eapply (IHe _ _ _ _ Hcf He). simpl. by apply heap_ok_put_val.
    + intros y [= <-]. exists d. simpl. split; [|done]. destruct (is_global_id v); [by left|].
      apply bind_Some in Hd as (fd & -> & Hd). right. destruct (Hcf fd eq_refl) as [f Hf]. by exists f, fd.
  - destruct (h_bbs h !! b) eqn:Ev; [by injection H as <-|].
    rb H fd Hfd. apply need_Done in Hfd. subst cf. rb H d Hd. apply need_Done in Hd. rb H x Hn. rb H s1 H1. rb H s2 H2.
    rb H is Hi. apply need_Done in Hi. rb H y H3. destruct y as [h3 us3]. injection H as <-. simpl.
    apply heap_ok_put_bb.
    + eapply (IHe _ _ _ _ Hcf H3). eapply (IHe _ _ _ _ Hcf H2). eapply (IHe _ _ _ _ Hcf H1). simpl. by apply heap_ok_put_bb.
    + intros y [= <-]. exists d. simpl. split; [|done]. destruct (Hcf fd eq_refl) as [f Hf]. exists f, fd.
      split; [done|]. split; [done|]. by apply find_bb_in.
  - destruct (h_funcs h !! f) eqn:Ev; [by injection H as <-|].
    rb H fd Hfd. apply need_Done in Hfd. rb H x Hn. rb H s1 H1. rb H y H2. destruct y as [h2 us2]. injection H as <-. simpl.
    assert (Hc : fun_of (Some fd)) by (intros ? [= <-]; by exists f).
    apply heap_ok_put_fun.
    + eapply (IHe _ _ _ _ Hc H2). eapply (IHe _ _ _ _ Hc H1). simpl. by apply heap_ok_put_fun.
    + intros y [= <-]. by exists fd.
Qed.
Lemma build_on_ok n r h : build_on ord n p = Done (r, h) →
  heap_ok p h ∧ r_values r = p_inst_layout p ∧ r_funcs r = p_func_layout p.
Proof.
  unfold build_on. intros H. rb H s1 H1. rb H s2 H2. rb H h' H3. injection H as <- <-. split; [|done].
  assert (Hn : fun_of None) by done.
  assert (Hs2 : heap_ok p s2.1).
  { refine (each_ind _ (λ s, heap_ok p s.1) _ _ _ _ H2 _); [intros ? ? ? _; by apply raw_build_ok|].
    refine (each_ind _ (λ s, heap_ok p s.1) _ _ _ _ H1 _); [intros ? ? ? _; by apply raw_build_ok|].
    by constructor. }
  unfold fill_used_by in H3. destruct (forallb _ _); [|done]. injection H3 as <-.
  destruct Hs2 as [A1 A2 A3]. constructor; simpl; [|done|done].
  intros v x Hx. rewrite map_lookup_imap in Hx. apply bind_Some in Hx as (y & Hy & Hx).
  injection Hx as Hx. destruct y as [y|]; simpl in Hx; [|done]. injection Hx as <-. exact (A1 _ _ Hy).
Qed.
End build.
