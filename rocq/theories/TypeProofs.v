(** Proofs about types (C03, C04). *)
From Verif Require Import Base TypeModel TypeSpec.
From Coq Require Import Lia ZifyBool ZifyNat ZifyN.

Lemma ty_eqb_eq a : ∀ b, ty_eqb a b = true ↔ a = b.
Proof.
  induction a as [| |x n IH|x IH|ps r IHps IHr] using ty_ind'; intros [| |y m|y|qs s];
    simpl; try (split; [discriminate|congruence]); try (split; reflexivity).
  - rewrite andb_true_iff, IH, N.eqb_eq. split; [intros [-> ->]; done|by intros [= -> ->]].
  - rewrite IH. split; [by intros ->|by intros [= ->]].
  - rewrite andb_true_iff, IHr. clear IHr.
    assert (∀ qs, (fix go (l1 l2 : list ty) : bool :=
         match l1, l2 with
         | [], [] => true
         | x :: l1', y :: l2' => ty_eqb x y && go l1' l2'
         | _, _ => false
         end) ps qs = true ↔ ps = qs) as Hl.
    { induction IHps as [|p ps Hp _ IH']; intros [|q qs']; try (split; [discriminate|congruence]);
        [done|]. rewrite andb_true_iff, Hp, IH'.
      split; [by intros [-> ->]|by intros [= -> ->]]. }
    rewrite Hl. split; [by intros [-> ->]|by intros [= -> ->]].
Qed.

Lemma ty_eqb_refl a : ty_eqb a a = true.
Proof. by apply ty_eqb_eq. Qed.

Global Instance ty_eq_dec : EqDecision ty.
Proof.
  intros a b. destruct (ty_eqb a b) eqn:E.
  - left. by apply ty_eqb_eq.
  - right. intros ->. by rewrite ty_eqb_refl in E.
Defined.

Lemma ty_eqb_decide a b : ty_eqb a b = bool_decide (a = b).
Proof.
  case_bool_decide as H; [by apply ty_eqb_eq|].
  destruct (ty_eqb a b) eqn:E; [|done]. by apply ty_eqb_eq in E.
Qed.

(** ** Sizes *)

Lemma size_mod ps t : (ps < two64)%N → size ps t = (byte_size ps t `mod` two64)%N.
Proof.
  intros Hps. induction t as [| |b n IH|b IH|? r] using ty_ind'; simpl; try done.
  - rewrite IH. by rewrite N.mul_mod_idemp_l.
  - by rewrite N.mod_small.
  - by rewrite N.mod_small.
Qed.

Lemma size_exact ps t :
  (ps < two64)%N → (byte_size ps t < two64)%N → size ps t = byte_size ps t.
Proof. intros. rewrite size_mod by done. by apply N.mod_small. Qed.

(** ** The interning pool *)

(** Invariant of the pool: it is exactly the inverse of the heap. *)
Definition pool_inv (p : pool) : Prop :=
  (∀ k a, pool_find k (pool_map p) = Some a ↔ heap p !! a = Some k) ∧
  (∀ a, is_Some (heap p !! a) → a < heap_next p)%N.

Lemma denotes_inj p : pool_inv p → ∀ t a b,
  denotes (heap p) a t → denotes (heap p) b t → a = b.
Proof.
  intros [Hp _].
  assert (Hinj : ∀ a b k, heap p !! a = Some k → heap p !! b = Some k → a = b).
  { intros a b k Ha Hb. apply Hp in Ha, Hb. congruence. }
  induction t as [| |x n IH|x IH|ts r IHts IHr] using ty_ind'; intros a b Ha Hb;
    inversion Ha; inversion Hb; simplify_eq; try by eapply Hinj.
  - match goal with H1 : denotes _ ?x _, H2 : denotes _ ?y _ |- _ =>
      assert (x = y) as -> by eauto end. by eapply Hinj.
  - match goal with H1 : denotes _ ?x _, H2 : denotes _ ?y _ |- _ =>
      assert (x = y) as -> by eauto end. by eapply Hinj.
  - match goal with H1 : denotes _ ?x r, H2 : denotes _ ?y r |- _ =>
      assert (x = y) as -> by eauto end.
    match goal with H1 : Forall2 _ ?x ts, H2 : Forall2 _ ?y ts |- _ =>
      assert (x = y) as ->;
      [clear - IHts H1 H2; revert x y H1 H2;
       induction IHts as [|t ts Ht _ IH]; intros xs ys H1 H2; inversion H1; inversion H2;
       simplify_eq; [done|f_equal; eauto]|] end.
    by eapply Hinj.
Qed.

Lemma denotes_fun h : ∀ t a u, denotes h a t → denotes h a u → t = u.
Proof.
  induction t as [| |x n IH|x IH|ts r IHts IHr] using ty_ind'; intros a u Ha Hb;
    inversion Ha; inversion Hb; simplify_eq; try done.
  - f_equal; eauto.
  - f_equal; eauto.
  - f_equal; [|by eauto].
    match goal with H1 : Forall2 _ ?ps ts, H2 : Forall2 _ ?ps ?us |- _ =>
      clear - IHts H1 H2; revert ps us H1 H2;
      induction IHts as [|t ts Ht _ IH]; intros ps us H1 H2;
      inversion H1; simplify_eq; inversion H2; simplify_eq; [done|f_equal; eauto] end.
Qed.

Lemma denotes_mono h h' : h ⊆ h' → ∀ t a, denotes h a t → denotes h' a t.
Proof.
  intros Hsub. induction t as [| |x n IH|x IH|ts r IHts IHr] using ty_ind'; intros a Ha;
    inversion Ha; simplify_eq.
  - apply den_i32. by eapply lookup_weaken.
  - apply den_unit. by eapply lookup_weaken.
  - eapply den_array; [by eapply lookup_weaken|by eauto].
  - eapply den_ptr; [by eapply lookup_weaken|by eauto].
  - eapply den_fun; [by eapply lookup_weaken| |by eauto].
    match goal with H1 : Forall2 _ ?ps ts |- _ =>
      clear - IHts H1; revert ps H1; induction IHts; intros ps H1; inversion H1;
      simplify_eq; constructor; eauto end.
Qed.

Lemma type_get_spec k p a p' :
  pool_inv p → type_get k p = (a, p') →
  pool_inv p' ∧ heap p ⊆ heap p' ∧ heap p' !! a = Some k.
Proof.
  intros [Hp Hn]. unfold type_get. destruct (pool_find k (pool_map p)) eqn:E.
  - intros [= <- <-]. split; [done|]. split; [done|]. by apply Hp.
  - intros [= <- <-]. simpl.
    assert (Hfresh : heap p !! heap_next p = None).
    { destruct (heap p !! heap_next p) eqn:E'; [|done].
      assert (heap_next p < heap_next p)%N by (apply Hn; by eauto). lia. }
    split; [|split].
    + split; simpl.
      * intros k' a'. destruct (decide (k' = k)) as [->|Hne].
        { split; [intros [= <-]; by rewrite lookup_insert|].
          intros H. destruct (decide (a' = heap_next p)) as [->|Ha']; [done|].
          rewrite lookup_insert_ne in H by done. apply Hp in H. congruence. }
        rewrite Hp. destruct (decide (a' = heap_next p)) as [->|Ha'].
        { rewrite lookup_insert, Hfresh. split; [done|]. congruence. }
        by rewrite lookup_insert_ne by done.
      * intros a' Ha'. destruct (decide (a' = heap_next p)) as [->|Hne]; [lia|].
        rewrite lookup_insert_ne in Ha' by done. apply Hn in Ha'. lia.
    + by apply insert_subseteq.
    + apply lookup_insert.
Qed.

Lemma Forall2_lookup_ex {A B} (P : A → B → Prop) l k i x :
  Forall2 P l k → l !! i = Some x → ∃ y, k !! i = Some y ∧ P x y.
Proof. intros H Hx. by eapply Forall2_lookup_l. Qed.

Lemma mapM_lookup_rel {A B} (P : A → B → Prop) l k (is : list nat) xs :
  Forall2 P l k → mapM (λ i, l !! i) is = Some xs →
  ∃ ys, mapM (λ i, k !! i) is = Some ys ∧ Forall2 P xs ys.
Proof.
  intros HP. revert xs. induction is as [|i is IH]; intros xs; simpl.
  - intros [= <-]. exists []. done.
  - destruct (l !! i) eqn:E; [|done]. simpl.
    destruct (mapM (λ i, l !! i) is) as [xs'|]; [|done]. simpl. intros [= <-].
    destruct (Forall2_lookup_ex _ _ _ _ _ HP E) as (y & Hy & Hxy).
    destruct (IH _ eq_refl) as (ys & Hys & Hall).
    rewrite Hy, Hys. simpl. eauto.
Qed.

Lemma resolve_denotes h hs ts r k :
  Forall2 (denotes h) hs ts → resolve hs r = Some k →
  ∃ t, req_ty ts r = Some t ∧ ∀ h' a, h ⊆ h' → h' !! a = Some k → denotes h' a t.
Proof.
  intros HR Hr. destruct r as [| |b n|b|ps r]; simpl in *.
  - simplify_eq. eexists; split; [done|]. intros. by apply den_i32.
  - simplify_eq. eexists; split; [done|]. intros. by apply den_unit.
  - destruct (hs !! b) eqn:E; [|done]. simpl in Hr. destruct (n =? 0)%N; [done|].
    simplify_eq. destruct (Forall2_lookup_ex _ _ _ _ _ HR E) as (t & Ht & Hd).
    rewrite Ht. simpl. eexists; split; [done|]. intros. eapply den_array; [done|].
    by eapply denotes_mono.
  - destruct (hs !! b) eqn:E; [|done]. simpl in Hr.
    simplify_eq. destruct (Forall2_lookup_ex _ _ _ _ _ HR E) as (t & Ht & Hd).
    rewrite Ht. simpl. eexists; split; [done|]. intros. eapply den_ptr; [done|].
    by eapply denotes_mono.
  - destruct (mapM _ ps) as [l|] eqn:El; [|done]. simpl in Hr.
    destruct (hs !! r) eqn:E; [|done]. simpl in Hr. simplify_eq.
    destruct (mapM_lookup_rel _ _ _ _ _ HR El) as (ys & Hys & Hall).
    destruct (Forall2_lookup_ex _ _ _ _ _ HR E) as (t & Ht & Hd).
    rewrite Hys. simpl. rewrite Ht. simpl. eexists; split; [done|].
    intros. eapply den_fun; [done| |by eapply denotes_mono].
    eapply Forall2_impl; [done|]. intros. by eapply denotes_mono.
Qed.

Lemma run_treqs_spec rs : ∀ hs ts p hs' p',
  pool_inv p → Forall2 (denotes (heap p)) hs ts →
  run_treqs rs hs p = Some (hs', p') →
  ∃ ts', req_tys rs ts = Some ts' ∧ pool_inv p' ∧ Forall2 (denotes (heap p')) hs' ts' ∧
    heap p ⊆ heap p' ∧ hs `prefix_of` hs'.
Proof.
  induction rs as [|r rs IH]; intros hs ts p hs' p' Hp HR Hrun; simpl in *.
  - simplify_eq. exists ts. split; [done|]. split; [done|]. split; [done|]. done.
  - destruct (resolve hs r) as [k|] eqn:Er; [|done]. simpl in Hrun.
    destruct (type_get k p) as [a p1] eqn:Eg.
    destruct (type_get_spec _ _ _ _ Hp Eg) as (Hp1 & Hsub & Ha).
    destruct (resolve_denotes _ _ _ _ _ HR Er) as (t & Ht & Hd).
    rewrite Ht. simpl.
    destruct (IH (hs ++ [a]) (ts ++ [t]) p1 hs' p' Hp1) as (ts' & H1 & H2 & H3 & H4 & H5).
    + apply Forall2_app.
      * eapply Forall2_impl; [done|]. intros. by eapply denotes_mono.
      * constructor; [|done]. by apply Hd.
    + done.
    + exists ts'. split; [done|]. split; [done|]. split; [done|].
      split; [by etrans|]. etrans; [|done]. by apply prefix_app_r.
Qed.

Lemma pool_inv0 : pool_inv pool0.
Proof.
  split.
  - intros k a. simpl. by rewrite lookup_empty.
  - intros a. simpl. rewrite lookup_empty. by intros [? ?].
Qed.

Lemma interning_structural rs hs p :
  run_treqs rs [] pool0 = Some (hs, p) →
  ∃ ts, req_tys rs [] = Some ts ∧ length ts = length hs ∧
    ∀ i j a b t u, hs !! i = Some a → hs !! j = Some b → ts !! i = Some t → ts !! j = Some u →
      (a = b ↔ t = u).
Proof.
  intros Hrun.
  destruct (run_treqs_spec rs [] [] pool0 hs p pool_inv0 (Forall2_nil _) Hrun)
    as (ts & Hts & Hp & HR & _).
  exists ts. split; [done|]. split; [symmetry; by eapply Forall2_length|].
  intros i j a b t u Ha Hb Ht Hu.
  assert (denotes (heap p) a t) as Hat by (by eapply Forall2_lookup_lr).
  assert (denotes (heap p) b u) as Hbu by (by eapply Forall2_lookup_lr).
  split.
  - intros ->. by eapply denotes_fun.
  - intros ->. by eapply denotes_inj.
Qed.

(** Handles keep their meaning: running more requests never changes the type an
    earlier handle points to. *)
Lemma interning_stable rs rs' hs p hs' p' ts :
  run_treqs rs [] pool0 = Some (hs, p) →
  req_tys rs [] = Some ts →
  run_treqs rs' hs p = Some (hs', p') →
  ∀ i a t, hs !! i = Some a → ts !! i = Some t →
    denotes (heap p) a t ∧ denotes (heap p') a t ∧ hs' !! i = Some a.
Proof.
  intros Hrun Hts Hrun' i a t Ha Ht.
  destruct (run_treqs_spec rs [] [] pool0 hs p pool_inv0 (Forall2_nil _) Hrun)
    as (ts0 & Hts0 & Hp & HR & _).
  simplify_eq.
  destruct (run_treqs_spec rs' hs ts p hs' p' Hp HR Hrun')
    as (ts' & _ & Hp' & HR' & Hsub & Hpre).
  assert (denotes (heap p) a t) as Hat by (by eapply Forall2_lookup_lr).
  split; [done|]. split; [by eapply denotes_mono|]. by eapply prefix_lookup.
Qed.
