(** The generator walks through the program and makes a renamed copy of what it meets (C40). *)
From Coq Require Import Lia ZifyBool ZifyNat ZifyN.
From Verif Require Import Base IdModel TypeModel IrModel LayoutModel BuilderModel WorldModel FrontModel
  UsesSpec UsesProofs DfgSpec DfgProofs WorldSpec WorldProofs TypingSpec TypingProofs TypingHistory HistoryProofs ViewProofs
  RawModel RawSpec RawBuildProofs RawWalkProofs RawInvProofs RawStepProofs RawBlockProofs.

(** ** The value for a raw kind *)
Definition rel (V B F : N → N → Prop) (t : task) (x : N) : Prop :=
  match t with TVal v => V v x | TBlk b => B b x | TFunc f => F f x end.
Definition const_kind (k : vkind) : bool :=
  match k with KInteger _ | KZeroInit | KUndef | KAggregate _ | KGlobalAlloc _ => true | _ => false end.
Definition makes_value (k : vkind) (r : breq) (s : gst) : rr (value * gst) :=
  if is_global_alloc k then g_global r s else if const_kind k then g_const r s else g_local r s.
Lemma g_each_app go a : ∀ b s, g_each go (a ++ b) s =
  ('(xs, s1) ← g_each go a s; '(ys, s2) ← g_each go b s1; Done (xs ++ ys, s2)).
Proof.
  induction a as [|t a IH]; intros b s; simpl.
  - by destruct (g_each go b s) as [[]| | |].
  - destruct (go t s) as [[x s1]| | |]; simpl; try done. rewrite IH.
    destruct (g_each go a s1) as [[xs s2]| | |]; simpl; try done. by destruct (g_each go b s2) as [[]| | |].
Qed.
Lemma rel_vals V B F l xs : Forall2 (rel V B F) (TVal <$> l) xs → Forall2 V l xs.
Proof.
  revert xs. induction l as [|v l IH]; intros xs H; inversion H; subst; constructor; [done|]. by apply IH.
Qed.
Lemma local_at_none r s x s' : g_cur s = None → g_local r s = Done (x, s') → False.
Proof. intros Hc H. unfold g_local, cur_info in H. rewrite Hc in H. simpl in H. discriminate H. Qed.
Lemma gen_kind_inv go t k s x s1 : gen_kind go t k s = Done (x, s1) →
  is_param k = false ∧ ∃ xs s0 r, g_each go (refs k) s = Done (xs, s0) ∧ makes_value k r s0 = Done (x, s1) ∧
    (∀ V B F, Forall2 (rel V B F) (refs k) xs → renamed V B F k (requested r)) ∧
    (own_type k = true → ∀ t', requested_ty r t' → t' = t) ∧
    (is_global_alloc k = false → local_req r = true) ∧ (const_kind k = true → global_req r = true).
Proof.
  intros H. destruct k as [z| | |l|j|j| |v|v|v d|y j|y j|op a b|c tt ff ta fa|tt a|f a|[v|]]; simpl in H; try discriminate H.
  - split; [done|]. exists [], s, (BInteger z). split; [done|]. split; [exact H|]. split; [constructor|]. done.
  - split; [done|]. exists [], s, (BZeroInit t). split; [done|]. split; [exact H|]. split; [constructor|]. done.
  - split; [done|]. exists [], s, (BUndef t). split; [done|]. split; [exact H|]. split; [constructor|]. done.
  - rb H l' Hl. destruct l' as [xs s0]. split; [done|]. exists xs, s0, (BAggregate xs). split; [exact Hl|]. split; [exact H|].
    split; [|done]. intros V B F HV. constructor. by apply rel_vals in HV.
  - destruct t as [| | |b|]; try discriminate H. split; [done|]. exists [], s, (BAlloc b). split; [done|].
    split; [exact H|]. split; [constructor|]. done.
  - rb H v' Hv. destruct v' as [v' s0]. split; [done|]. exists [v'], s0, (BGlobalAlloc v'). split; [simpl; by rewrite Hv|].
    split; [exact H|]. split; [|done]. intros V B F HV. inversion HV; subst. by constructor.
  - rb H v' Hv. destruct v' as [v' s0]. split; [done|]. exists [v'], s0, (BLoad v'). split; [simpl; by rewrite Hv|].
    split; [exact H|]. split; [|done]. intros V B F HV. inversion HV; subst. by constructor.
  - rb H v' Hv. destruct v' as [v' s0]. rb H d' Hd. destruct d' as [d' s2]. split; [done|]. exists [v'; d'], s2, (BStore v' d').
    split; [simpl; rewrite Hv; simpl; by rewrite Hd|].
    split; [exact H|]. split; [|done]. intros V B F HV. inversion HV as [|? ? ? ? Q1 Q2]; subst. inversion Q2; subst. by constructor.
  - rb H v' Hv. destruct v' as [v' s0]. rb H d' Hd. destruct d' as [d' s2]. split; [done|]. exists [v'; d'], s2, (BGetPtr v' d').
    split; [simpl; rewrite Hv; simpl; by rewrite Hd|].
    split; [exact H|]. split; [|done]. intros V B F HV. inversion HV as [|? ? ? ? Q1 Q2]; subst. inversion Q2; subst. by constructor.
  - rb H v' Hv. destruct v' as [v' s0]. rb H d' Hd. destruct d' as [d' s2]. split; [done|]. exists [v'; d'], s2, (BGetElemPtr v' d').
    split; [simpl; rewrite Hv; simpl; by rewrite Hd|].
    split; [exact H|]. split; [|done]. intros V B F HV. inversion HV as [|? ? ? ? Q1 Q2]; subst. inversion Q2; subst. by constructor.
  - rb H v' Hv. destruct v' as [v' s0]. rb H d' Hd. destruct d' as [d' s2]. split; [done|]. exists [v'; d'], s2, (BBinary op v' d').
    split; [simpl; rewrite Hv; simpl; by rewrite Hd|].
    split; [exact H|]. split; [|done]. intros V B F HV. inversion HV as [|? ? ? ? Q1 Q2]; subst. inversion Q2; subst. by constructor.
  - rb H c' Hc. destruct c' as [c' s2]. rb H t' Ht. destruct t' as [t' s3]. rb H f' Hf. destruct f' as [f' s4].
    rb H ta' Hta. destruct ta' as [ta' s5]. rb H fa' Hfa. destruct fa' as [fa' s6]. split; [done|].
    exists (c' :: t' :: f' :: (ta' ++ fa')), s6, (BBranchArgs c' t' f' ta' fa'). split.
    { cbn [refs g_each]. rewrite Hc. simpl. rewrite Ht. simpl. rewrite Hf. simpl.
      rewrite fmap_app, g_each_app, Hta. simpl. by rewrite Hfa. }
    split; [exact H|]. split; [|done]. intros V B F HV. cbn [refs] in HV.
    inversion HV as [|? ? ? ? Q1 HV2]; subst. inversion HV2 as [|? ? ? ? Q2 HV3]; subst. inversion HV3 as [|? ? ? ? Q3 HV4]; subst.
    apply rel_vals in HV4.
    assert (Hlen : length ta = length ta').
    { clear -Hta. revert s4 s5 ta' Hta. induction ta as [|a ta IH]; intros s4 s5 ta' H; simpl in H; [by injection H as <- _|].
      rb H y Hy. destruct y as [y sy]. rb H ys Hys. destruct ys as [ys s2]. injection H as <- _. simpl. f_equal. exact (IH _ _ _ Hys). }
    destruct (Forall2_app_inv _ _ _ _ _ Hlen HV4) as [U1 U2]. by constructor.
  - rb H t' Ht. destruct t' as [t' s2]. rb H a' Ha. destruct a' as [a' s3]. split; [done|].
    exists (t' :: a'), s3, (BJumpArgs t' a'). split; [simpl; rewrite Ht; simpl; by rewrite Ha|].
    split; [exact H|]. split; [|done]. intros V B F HV. cbn [refs] in HV. inversion HV as [|? ? ? ? Q1 Q2]; subst.
    apply rel_vals in Q2. by constructor.
  - rb H t' Ht. destruct t' as [t' s2]. rb H a' Ha. destruct a' as [a' s3]. split; [done|].
    exists (t' :: a'), s3, (BCall t' a'). split; [simpl; rewrite Ht; simpl; by rewrite Ha|].
    split; [exact H|]. split; [|done]. intros V B F HV. cbn [refs] in HV. inversion HV as [|? ? ? ? Q1 Q2]; subst.
    apply rel_vals in Q2. by constructor.
  - rb H v' Hv. destruct v' as [v' s0]. split; [done|]. exists [v'], s0, (BRet (Some v')). split; [simpl; by rewrite Hv|].
    split; [exact H|]. split; [|done]. intros V B F HV. inversion HV; subst. by constructor.
  - split; [done|]. exists [], s, (BRet None). split; [done|]. split; [exact H|]. split; [constructor|]. done.
Qed.

Section gen.
Context (p : program) (h : heap) (HR : regular p) (HH : heap_ok p h).
(** What may be asked for. *)
Definition owned (S : list task) (s : gst) (t : task) : Prop :=
  match t with
  | TVal v =>
      match g_cur s with
      | None => is_Some (p_values p !! v)
      | Some c => v ∈ p_inst_layout p ∨ ∃ fd d, p_funcs p !! c = Some fd ∧ vals fd !! v = Some d ∧
          (is_control (v_kind d) = true → ∃ b is, TBlk b ∈ S ∧ (b, is) ∈ l_bbs (f_layout fd) ∧ v ∈ is)
      end
  | TBlk b => ∃ c fd, g_cur s = Some c ∧ p_funcs p !! c = Some fd ∧ is_Some (blks fd !! b)
  | TFunc _ => ready p s
  end.
(** What the generator has made for a task. *)
Definition phi (s : gst) (t : task) (x : N) : Prop :=
  match t with
  | TVal v => g_vals s !! v = Some x ∨ ∃ c i, g_cur s = Some c ∧ g_funcs s !! c = Some i ∧ gi_vals i !! v = Some x
  | TBlk b => ∃ c i, g_cur s = Some c ∧ g_funcs s !! c = Some i ∧ gi_bbs i !! b = Some x
  | TFunc f => FM s f x
  end.
Lemma phi_grows s s' t x : grows s s' → g_cur s' = g_cur s → phi s t x → phi s' t x.
Proof.
  intros Hg Hc. pose proof Hg as [G1 G2]. destruct t as [v|b|f]; simpl.
  - intros [Hv|(c & i & Hc' & Hi & Hv)]; [left; by eapply lookup_weaken|right].
    destruct (G2 _ _ Hi) as (i' & Hi' & _ & _ & Hsub). exists c, i'. split; [congruence|]. split; [done|]. by eapply lookup_weaken.
  - intros (c & i & Hc' & Hi & Hv). destruct (G2 _ _ Hi) as (i' & Hi' & _ & Hsub & _). exists c, i'. split; [congruence|].
    split; [done|]. by eapply lookup_weaken.
  - by apply grows_FM.
Qed.
Lemma owned_grows S S' s s' t : (∀ t, t ∈ S → t ∈ S') → grows s s' → g_cur s' = g_cur s → owned S s t → owned S' s' t.
Proof.
  intros HS Hg Hc. destruct t as [v|b|f]; simpl; rewrite ?Hc.
  - destruct (g_cur s); [|done]. intros [?|(fd & d & H1 & H2 & H3)]; [by left|right]. exists fd, d. split; [done|]. split; [done|].
    intros Hk. destruct (H3 Hk) as (b & is & Hb & ?). exists b, is. split; [by apply HS|done].
  - done.
  - by apply grows_ready.
Qed.
Definition gspec (go : task → gst → rr (N * gst)) : Prop :=
  ∀ t S O s x s', go t s = Done (x, s') → Inv p S O s → owned S s t →
    ∃ out, walk p S [t] out ∧ Inv p (S ++ out) O s' ∧ grows s s' ∧ g_cur s' = g_cur s ∧ phi s' t x.
Lemma each_ok go l : gspec go → ∀ S O s xs s', g_each go l s = Done (xs, s') → Inv p S O s →
  (∀ t, t ∈ l → owned S s t) →
  ∃ out, walk p S l out ∧ Inv p (S ++ out) O s' ∧ grows s s' ∧ g_cur s' = g_cur s ∧ Forall2 (phi s') l xs.
Proof.
  intros Hgo. induction l as [|t l IH]; intros S O s xs s' H I Ho; simpl in H.
  - injection H as <- <-. exists []. rewrite app_nil_r. split; [constructor|]. split; [done|]. split; [apply grows_refl|]. split; [done|]. constructor.
  - rb H y Hy. destruct y as [x s1]. rb H ys Hys. destruct ys as [xs' s2]. injection H as <- <-.
    destruct (Hgo _ _ _ _ _ _ Hy I (Ho t ltac:(left))) as (o1 & W1 & I1 & G1 & C1 & P1).
    destruct (IH _ _ _ _ _ Hys I1) as (o2 & W2 & I2 & G2 & C2 & P2).
    { intros t' Ht'. eapply (owned_grows S); [|exact G1|exact C1|apply Ho; by right]. intros ? ?. apply elem_of_app. by left. }
    exists (o1 ++ o2). split; [by apply walk_cons|]. rewrite app_assoc. split; [done|].
    split; [eapply grows_trans; eassumption|]. split; [congruence|]. constructor; [|done]. by eapply phi_grows.
Qed.
(** Operands of what may be asked for. *)
Lemma refs_owned S O s v d t : Inv p S O s → owned S s (TVal v) → value_of p v d → g_vals s !! v = None →
  t ∈ refs (v_kind d) → owned S s t.
Proof.
  intros I Ho Hd Hn Ht. simpl in Ho. destruct (g_cur s) as [c|] eqn:Hc.
  - destruct (iv_cur _ _ _ _ I _ Hc) as [_ Hr]. destruct Ho as [Ho|(fd & d' & Hf & Hd' & _)].
    { destruct (Hr _ Ho) as [? Hx]. by rewrite Hn in Hx. }
    assert (d' = d) as -> by (apply (value_of_det p HR v); [right; by exists c, fd|done]).
    destruct t as [u|b|f]; simpl; rewrite ?Hc.
    + apply elem_refs_val in Ht. assert (Hu : uses (vals fd) v u) by (by exists d).
      destruct (proj1 (proj2 (rg_closed _ HR)) c fd v u Hf Hu) as [H|[du H]].
      * left. by eapply (rg_listed _ HR).
      * right. exists fd, du. split; [done|]. split; [done|]. rewrite (rg_control _ HR c fd v u du Hf Hu H). done.
    + apply elem_refs_blk in Ht. exists c, fd. split; [done|]. split; [done|].
      eapply (proj2 (proj2 (rg_closed _ HR))); [exact Hf|]. by exists d.
    + exact Hr.
  - assert (Hd' : p_values p !! v = Some d) by (by apply (global_data p HR)).
    destruct (global_refs p HR _ _ Hd' _ Ht) as (u & -> & Hu). simpl. by rewrite Hc.
Qed.
(** A value that is not known yet. *)
Lemma not_known S O s v d : Inv p S O s → owned S s (TVal v) → value_of p v d → g_vals s !! v = None →
  (∀ c i, g_cur s = Some c → g_funcs s !! c = Some i → gi_vals i !! v = None) → TVal v ∉ S.
Proof.
  intros I Ho Hd Hn Hl Hin. apply (iv_sv _ _ _ _ I) in Hin as [[? H]|(f & i & Hi & [v' Hv'])]; [by rewrite Hn in H|].
  destruct (iv_f _ _ _ _ I _ _ Hi) as (fd & x & K1 & _ & K3 & _). destruct (fi_v _ _ _ _ _ _ _ _ K3 _ _ Hv') as (d' & _ & Hd' & _).
  simpl in Ho. destruct (g_cur s) as [c|] eqn:Hc.
  - destruct Ho as [Ho|(fdc & dc & Hfc & Hdc & _)].
    + destruct (proj2 (iv_cur _ _ _ _ I _ Hc) _ Ho) as [? H]. by rewrite Hn in H.
    + assert (f = c) as -> by (eapply (rg_own _ HR f c); [done|done|by eexists|by eexists]). by rewrite (Hl _ _ eq_refl Hi) in Hv'.
  - eapply (local_not_global p HR f fd v); [done|by eexists|done].
Qed.
Lemma cur_info_Done s c i : cur_info s = Done (c, i) → g_cur s = Some c ∧ g_funcs s !! c = Some i.
Proof.
  unfold cur_info. intros H. apply need_Done in H. destruct (g_cur s) as [c'|]; simpl in H; [|discriminate H].
  destruct (g_funcs s !! c') as [i'|] eqn:E; simpl in H; [|discriminate H]. injection H as <- <-. done.
Qed.
(** The new value. *)
Lemma value_step S O s v d r x s1 s2 :
  Inv p S O s → owned S s (TVal v) → value_of p v d → g_vals s !! v = None → TVal v ∉ S → is_param (v_kind d) = false →
  makes_value (v_kind d) r s = Done (x, s1) → keep_value v (v_name d) x s1 = Done s2 →
  renamed (λ a b, phi s (TVal a) b) (λ a b, phi s (TBlk a) b) (λ a b, phi s (TFunc a) b) (v_kind d) (requested r) →
  (own_type (v_kind d) = true → ∀ t, requested_ty r t → t = v_ty d) →
  (is_global_alloc (v_kind d) = false → local_req r = true) → (const_kind (v_kind d) = true → global_req r = true) →
  Acc (opnd p) v →
  Inv p (S ++ [TVal v]) O s2 ∧ grows s s2 ∧ g_cur s2 = g_cur s ∧ phi s2 (TVal v) x.
Proof.
  intros I Ho Hd Hgn Hn Hk Hm Hkeep Hren Hty Hlr Hgr Hacc. simpl in Ho. destruct (g_cur s) as [c|] eqn:Hc.
  - destruct (iv_cur _ _ _ _ I _ Hc) as [_ Hr]. destruct Ho as [Ho|(fd & d' & Hf & Hd' & _)].
    { destruct (Hr _ Ho) as [? Hx]. by rewrite Hgn in Hx. }
    assert (d' = d) as -> by (apply (value_of_det p HR v); [right; by exists c, fd|done]).
    assert (Hga : is_global_alloc (v_kind d) = false).
    { pose proof (λ i, rg_allocs _ HR _ _ _ _ i Hf Hd') as Ha. destruct (v_kind d); try reflexivity. by destruct (Ha init). }
    assert (Hm' : g_local r s = Done (x, s1)).
    { unfold makes_value, g_const in Hm. rewrite Hga, Hc in Hm. by destruct (const_kind (v_kind d)). }
    clear Hm. rename Hm' into Hm. unfold g_local in Hm. rb Hm y Hy. destruct y as [c' i].
    apply cur_info_Done in Hy as [Hc' Hi]. rewrite Hc in Hc'. injection Hc' as <-.
    rb Hm y Hy. destruct y as [y w1]. injection Hm as <- <-. apply need_Done in Hy.
    unfold keep_value in Hkeep. simpl in Hkeep. rewrite Hc in Hkeep. rb Hkeep z Hz. destruct z as [c' i'].
    apply cur_info_Done in Hz as [Hc' Hi']. simpl in Hc', Hi'. rewrite Hc in Hc'. injection Hc' as <-.
    rewrite Hi in Hi'. injection Hi' as <-. rb Hkeep w2 Hw. injection Hkeep as <-. apply need_Done in Hw. simpl in Hw.
    destruct (step_local p HR S O s c i fd v d r y w1 w2 I Hc Hi Hf Hd' Hn Hk (Hlr Hga) Hy Hw) as [I2 G2]; [|done|done|].
    { revert Hren. apply renamed_mono; simpl.
      - intros a b [?|(c' & i' & E & E' & ?)]; [by left|right]. rewrite Hc in E. injection E as <-. rewrite Hi in E'. by injection E' as <-.
      - intros a b (c' & i' & E & E' & ?). rewrite Hc in E. injection E as <-. rewrite Hi in E'. by injection E' as <-.
      - done. }
    split; [exact I2|]. split; [exact G2|]. split; [done|]. right. eexists c, _. simpl. split; [done|]. rewrite lookup_insert.
    split; [done|]. simpl. apply lookup_insert.
  - assert (Hd' : p_values p !! v = Some d) by (by apply (global_data p HR)).
    assert (Hck : const_kind (v_kind d) = true).
    { unfold makes_value, g_const in Hm. destruct (const_kind (v_kind d)) eqn:E; [done|]. exfalso.
      destruct (is_global_alloc (v_kind d)) eqn:E'; [|by eapply local_at_none]. destruct (v_kind d); discriminate. }
    assert (Hm' : g_global r s = Done (x, s1)).
    { unfold makes_value, g_const in Hm. rewrite Hc, Hck in Hm. by destruct (is_global_alloc (v_kind d)). }
    unfold g_global in Hm'. rb Hm' y Hy. destruct y as [y w1]. injection Hm' as <- <-. apply need_Done in Hy.
    unfold keep_value in Hkeep. simpl in Hkeep. rewrite Hc in Hkeep. rb Hkeep w2 Hw. injection Hkeep as <-.
    apply need_Done in Hw. simpl in Hw.
    destruct (step_global p HR S O s v d r y w1 w2 I Hc Hd' Hn (Hgr Hck) Hy Hw) as [I2 G2]; [|done|done|].
    { pose proof (global_kind p HR _ _ Hd') as (Hta & Hct & Hca).
      assert (Hren' : renamed (pairs (g_vals s)) (λ a b, phi s (TBlk a) b) (λ a b, phi s (TFunc a) b) (v_kind d) (requested r)).
      { revert Hren. apply renamed_mono; [|done|done]. simpl. intros a b [?|(c' & i' & E & _)]; [done|]. by rewrite Hc in E. }
      clear -Hck Hren'. inversion Hren' as [| | | | | | | | | | | | | ? ? ? ? ? ? ? ? ? ? ? ? ? ? ? E| ? ? ? ? ? ? E| ? ? ? ? ? ? E| |]; subst;
        try (by constructor); match goal with E : _ = v_kind d |- _ => rewrite <- E in Hck; discriminate Hck end. }
    split; [exact I2|]. split; [exact G2|]. split; [done|]. left. simpl. apply lookup_insert.
Qed.
Lemma set_gcur_inv S O s c' : Inv p S O s → (∀ c, c' = Some c → is_Some (g_funcs s !! c) ∧ ready p s) → Inv p S O (set_gcur c' s).
Proof. intros [I1 I2 I3 I4 I5 I6 I7 I8 I9 I10 I11 I12 I13 I14 I15 I16] H. constructor; assumption. Qed.
Lemma phi_local S O s v x c i fd : Inv p S O s → p_funcs p !! c = Some fd → is_Some (vals fd !! v) →
  g_cur s = Some c → g_funcs s !! c = Some i → phi s (TVal v) x → gi_vals i !! v = Some x.
Proof.
  intros I Hf Hv Hc Hi [H|(c' & i' & E & E' & H)].
  - exfalso. destruct (iv_g _ _ _ _ I _ _ H) as (d & _ & Hd & _). eapply (local_not_global p HR c fd v); [done|done|by eexists].
  - rewrite Hc in E. injection E as <-. rewrite Hi in E'. by injection E' as <-.
Qed.
Lemma insts_ok go b x c fd l0 : gspec go → p_funcs p !! c = Some fd → (b, l0) ∈ l_bbs (f_layout fd) →
  ∀ l done S O s s', (∀ v, v ∈ l → v ∈ l0) → gen_insts go x l s = Done s' → Inv p S O s → g_cur s = Some c →
  phi s (TBlk b) x → TBlk b ∈ S → O !! b = Some done →
  ∃ out, walk p S (TVal <$> l) out ∧ Inv p (S ++ out) (<[b := done ++ l]> O) s' ∧ grows s s' ∧ g_cur s' = g_cur s.
Proof.
  intros Hgo Hf Hl0. induction l as [|v l IH]; intros dn S O s s' Hl H I Hc Hb HbS HO; simpl in H.
  - injection H as <-. exists []. rewrite !app_nil_r, insert_id by done. split; [constructor|]. split; [done|].
    split; [apply grows_refl|done].
  - rb H y Hy. destruct y as [y s1]. rb H ci Hci. destruct ci as [c' i]. rb H w Hw. apply need_Done in Hw.
    assert (Hv : is_Some (vals fd !! v)). { eapply (rg_insts _ HR); [exact Hf|exact Hl0|]. apply Hl. by left. }
    destruct (Hgo _ _ _ _ _ _ Hy I) as (o1 & W1 & I1 & G1 & C1 & P1).
    { simpl. rewrite Hc. right. destruct Hv as [d Hd]. exists fd, d. split; [done|]. split; [done|]. intros _. exists b, l0.
      split; [done|]. split; [done|]. apply Hl. by left. }
    apply cur_info_Done in Hci as [Hc' Hi]. assert (c' = c) as -> by congruence.
    pose proof (phi_grows _ _ _ _ G1 C1 Hb) as Hb1. pose proof Hb1 as (c2 & i2 & E1 & E2 & Hbb).
    rewrite Hc' in E1. injection E1 as <-. rewrite Hi in E2. injection E2 as <-.
    pose proof (phi_local _ _ _ _ _ _ _ _ I1 Hf Hv Hc' Hi P1) as Hvy.
    destruct (step_inst p HR _ _ _ _ _ _ _ _ _ _ _ _ I1 Hi Hf HO Hbb Hvy Hw) as [I2 G2].
    destruct (IH (dn ++ [v]) _ _ _ _ ltac:(intros ? ?; apply Hl; by right) H I2) as (o2 & W2 & I3 & G3 & C3).
    + done.
    + by apply (phi_grows s1).
    + apply elem_of_app. by left.
    + by rewrite lookup_insert.
    + exists (o1 ++ o2). split; [rewrite fmap_cons; by apply walk_cons|]. rewrite app_assoc.
      rewrite insert_insert, <- (app_assoc dn) in I3. split; [exact I3|].
      split; [exact (grows_trans _ _ _ G1 (grows_trans _ _ _ G2 G3))|]. simpl in C3. congruence.
Qed.
(** A new function. *)
Lemma fun_made S O s f fd bs ts r y w1 xs :
  Inv p S O s → p_funcs p !! f = Some fd → TFunc f ∉ S → f_ty fd = TFun ts r → bs = (l_bbs (f_layout fd)).*1 →
  match bs with
  | [] => need (w_new_func_decl (f_name fd) ts r (g_world s))
  | _ => if decide (length (f_params fd) = length ts) then
           ps ← raw_params h (f_params fd);
           need (w_new_func_def (f_name fd) (zip ps.*1 ts) r (g_world s))
         else Fails EFuncParamNumMismatch
  end = Done (y, w1) →
  f_params <$> p_funcs (w_prog w1) !! y = Some xs →
  let s1 := put_info f (GInfo y ∅ (zip_into (f_params fd) xs ∅)) (set_gworld w1 s) in
  Inv p (S ++ TFunc f :: (TVal <$> f_params fd)) O s1 ∧ grows s s1 ∧ FM s1 f y.
Proof.
  intros I Hf HnS Ety T4 Hy Hxs. destruct (rg_params _ HR _ _ Hf) as (ts0 & r0 & Ety0 & Hpar).
  rewrite Ety in Ety0. injection Ety0 as <- <-.
  destruct bs as [|b0 bs0].
  - apply need_Done in Hy. destruct (view_new_decl _ _ _ _ _ _ _ Hy (iv_room _ _ _ _ I)) as (W1 & W2 & W3 & W4 & W5).
    rewrite decide_True in Hpar by (by destruct (l_bbs (f_layout fd))).
    assert (xs = []) as ->.
    { assert (Hx : fvs w1 !! y = Some (FView (f_name fd) (TFun ts r) [] ∅ ∅ [])) by (by rewrite W2, lookup_insert).
      rewrite lookup_fmap in Hx. apply fmap_Some in Hx as (fd' & Hx & E). rewrite Hx in Hxs. simpl in Hxs. injection Hxs as <-.
      apply (f_equal w_pars) in E. by simpl in E. }
    apply (step_fun p HR S O s f fd y [] ∅ w1 I Hf HnS W1); [by rewrite Ety|exact W3|exact W4|exact W5| | | | |].
    + apply (evolves_op (ONewFuncDecl (f_name fd) ts r)); [done..|]. cbn [step]. by rewrite Hy.
    + constructor.
    + by rewrite Hpar.
    + done.
    + rewrite Hpar. by intros [|?].
  - rewrite decide_False in Hpar by (intros E; rewrite E in T4; discriminate T4).
    destruct Hpar as [Hlen Hpar]. rewrite decide_True in Hy by done. rb Hy ps Hps. apply need_Done in Hy.
    apply (raw_params_ok p h _ HH) in Hps as [Hl2 Hdat].
    destruct (view_new_def _ _ _ _ _ _ _ Hy (iv_room _ _ _ _ I)) as (m & vs & W1 & W2 & W3 & W4 & W5 & A1 & A2 & A3 & A4 & A5).
    assert (Ets : map snd (zip ps.*1 ts) = ts).
    { change (map snd (zip ps.*1 ts)) with ((zip ps.*1 ts).*2). apply snd_zip. rewrite fmap_length. lia. }
    assert (Hlz : length (zip ps.*1 ts) = length ts) by (rewrite zip_with_length, fmap_length; lia).
    assert (xs = vs) as ->.
    { assert (Hx : fvs w1 !! y = Some (FView (f_name fd) (TFun (map snd (zip ps.*1 ts)) r) vs m ∅ [])) by (by rewrite W2, lookup_insert).
      rewrite lookup_fmap in Hx. apply fmap_Some in Hx as (fd' & Hx & E). rewrite Hx in Hxs. simpl in Hxs. injection Hxs as <-.
      apply (f_equal w_pars) in E. by simpl in E. }
    rewrite Ets in W2.
    apply (step_fun p HR S O s f fd y vs m w1 I Hf HnS W1); [by rewrite Ety|exact W3|exact W4|exact W5| |exact A1| | |].
    + apply (evolves_op (ONewFuncDef (f_name fd) (zip ps.*1 ts) r)); [done..|]. cbn [step]. by rewrite Hy.
    + lia.
    + intros v' Hv'. by rewrite A4.
    + intros j v v' Hjv Hjv'. destruct (Hdat _ _ Hjv) as (dv & Hdv & Hp).
      destruct (lookup_lt_is_Some_2 ts j) as [t Ht]. { rewrite <- Hlen. by eapply lookup_lt_Some. }
      destruct (Hpar j v t Hjv Ht) as (dv' & Hdv' & Hkind & Htd).
      assert (dv' = dv) as ->. { apply (value_of_det p HR v); [right; by exists f, fd|done]. }
      exists dv. split; [done|]. rewrite Hkind, Htd. eapply A5; [done|]. rewrite lookup_zip_with, list_lookup_fmap, Hp. simpl. by rewrite Ht.
Qed.
Lemma gen_spec n : gspec (raw_gen h n).
Proof.
  induction n as [|n IH]; intros t S O s x s' H I Ho; [discriminate H|]. cbn [raw_gen] in H.
  destruct t as [v|b|f].
  - rb H found Hfound.
    assert (Hknown : ∀ y, found = Some y → phi s (TVal v) y).
    { intros y ->. destruct (g_vals s !! v) as [z|] eqn:Hg.
      - injection Hfound as ->. by left.
      - destruct (g_cur s) as [c|] eqn:Hc; [|discriminate Hfound]. rb Hfound ci Hci. destruct ci as [c' i].
        apply cur_info_Done in Hci as [E1 E2]. rewrite Hc in E1. injection E1 as <-. injection Hfound as Hy. right. by exists c, i. }
    destruct found as [y|].
    + injection H as <- <-. specialize (Hknown _ eq_refl). exists []. rewrite app_nil_r. split.
      { apply W_known; [|constructor]. apply (iv_sv _ _ _ _ I). destruct Hknown as [?|(c & i & _ & Hi & Hv)]; [left; by eexists|right].
        exists c, i. split; [done|]. by eexists. }
      split; [done|]. split; [apply grows_refl|]. split; [done|done].
    + clear Hknown. assert (Hgn : g_vals s !! v = None). { by destruct (g_vals s !! v). }
      rb H rd Hrd. apply need_Done in Hrd. destruct (h_vals h !! v) as [[y|]|] eqn:Hv; simpl in Hrd; try discriminate Hrd.
      injection Hrd as ->. destruct (ho_val _ _ HH _ _ Hv) as (d & Hd & T1 & T2 & T3). rewrite T1, T2, T3 in H.
      rb H y Hy. destruct y as [y s1]. rb H s2 Hkeep. injection H as -> ->.
      assert (HnS : TVal v ∉ S).
      { eapply not_known; [exact I|exact Ho|exact Hd|exact Hgn|]. intros c i Hc Hi. rewrite Hgn, Hc in Hfound.
        rb Hfound ci Hci. destruct ci as [c' i']. apply cur_info_Done in Hci as [E1 E2]. rewrite Hc in E1. injection E1 as <-.
        rewrite Hi in E2. injection E2 as <-. by injection Hfound. }
      apply gen_kind_inv in Hy as (Hk & xs & s0 & r & He & Hm & Hren & Hty & Hlr & Hgr).
      destruct (each_ok _ _ IH _ _ _ _ _ He I) as (o & W & I1 & G1 & C1 & P1).
      { intros t Ht. by eapply refs_owned. }
      pose proof (walk_acc p HR _ _ _ W (iv_acc _ _ _ _ I)) as [_ Hopn].
      assert (Hacc : Acc (opnd p) v).
      { constructor. intros u (d' & Hd' & Hu). rewrite (value_of_det p HR _ _ _ Hd' Hd) in Hu. apply Hopn. by apply elem_refs_val. }
      assert (Hno : TVal v ∉ o).
      { simpl in Ho. destruct (g_cur s) as [c|] eqn:Hc.
        - destruct (iv_cur _ _ _ _ I _ Hc) as [Hci Hr]. destruct Ho as [Ho|(fd & d' & Hf & Hd' & Hcon)].
          { destruct (Hr _ Ho) as [? Hx]. by rewrite Hgn in Hx. }
          assert (d' = d) as -> by (apply (value_of_det p HR v); [right; by exists c, fd|done]).
          eapply (no_reentry_local p HR c fd v d S o Hf Hd' Hk); [by apply (iv_sf _ _ _ _ I)|apply (iv_acc _ _ _ _ I)|exact Hcon|exact W].
        - eapply (no_reentry_global p HR v d S o); [by apply (global_data p HR)|apply (iv_acc _ _ _ _ I)|exact W]. }
      assert (HnSo : TVal v ∉ S ++ o). { intros Hin. apply elem_of_app in Hin as [?|?]; contradiction. }
      assert (Hgn0 : g_vals s0 !! v = None).
      { apply eq_None_not_Some. intros Hs. apply HnSo. apply (iv_sv _ _ _ _ I1). by left. }
      destruct (value_step (S ++ o) O s0 v d r x s1 s' I1) as (I2 & G2 & C2 & P2).
      * eapply (owned_grows S); [|exact G1|exact C1|exact Ho]. intros ? ?. apply elem_of_app. by left.
      * exact Hd.
      * exact Hgn0.
      * exact HnSo.
      * exact Hk.
      * exact Hm.
      * exact Hkeep.
      * apply Hren. eapply list.Forall2_impl; [exact P1|]. intros [u|u|u] z Hz; exact Hz.
      * exact Hty.
      * exact Hlr.
      * exact Hgr.
      * exact Hacc.
      * exists (o ++ [TVal v]). split.
        { rewrite <- (app_nil_r (o ++ [TVal v])). apply (W_value p S v d [] o []); [exact HnS|exact Hd|exact Hk|exact W|constructor]. }
        rewrite app_assoc. split; [exact I2|]. split; [eapply grows_trans; eassumption|]. split; [congruence|exact P2].
  - rb H ci Hci. destruct ci as [c i]. apply cur_info_Done in Hci as [Hc Hi].
    destruct (gi_bbs i !! b) as [y|] eqn:Hb.
    + injection H as <- <-. exists []. rewrite app_nil_r. split.
      { apply W_known; [|constructor]. apply (iv_sb _ _ _ _ I). exists c, i. split; [done|]. by eexists. }
      split; [done|]. split; [apply grows_refl|]. split; [done|]. by exists c, i.
    + rb H rd Hrd. apply need_Done in Hrd. destruct (h_bbs h !! b) as [[y|]|] eqn:Hv; simpl in Hrd; try discriminate Hrd.
      injection Hrd as ->. destruct (ho_bb _ _ HH _ _ Hv) as (d & Hd & T1 & T2). rewrite T1, T2 in H.
      rb H ps Hps. rb H y Hy. destruct y as [y w1]. rb H w2 Hw2. rb H xs Hxs. rb H s2 Hin. injection H as -> ->.
      apply need_Done in Hy, Hw2, Hxs.
      destruct Ho as (c' & fd & Hc' & Hf & Hbf). rewrite Hc in Hc'. injection Hc' as <-.
      assert (blks fd !! b = Some d ∧ (b, rb_insts rd) ∈ l_bbs (f_layout fd)) as [Hbd Hlist].
      { destruct Hd as (f' & fd' & Hf' & Hb' & Hl'). assert (f' = c) as -> by (eapply (rg_own_bb _ HR f' c); [done|done|by eexists|done]).
        rewrite Hf in Hf'. injection Hf' as <-. done. }
      assert (HnS : TBlk b ∉ S).
      { intros Hin'. apply (iv_sb _ _ _ _ I) in Hin' as (g & j & Hj & [b' Hb']). destruct (iv_f _ _ _ _ I _ _ Hj) as (fd' & z & K1 & _ & K3 & _).
        destruct (fi_b _ _ _ _ _ _ _ _ K3 _ _ Hb') as (? & ? & ? & _).
        assert (g = c) as -> by (eapply (rg_own_bb _ HR g c); [done|done|by eexists|done]). rewrite Hi in Hj. injection Hj as <-. by rewrite Hb in Hb'. }
      destruct (step_bb p HR S O s c i fd b d ps x w1 w2 xs I Hi Hf Hbd HnS (raw_params_ok p h _ HH _ Hps) Hy Hw2 Hxs) as [I1 G1].
      set (s1 := put_info c _ _) in *.
      assert (Hphi : phi s1 (TBlk b) x).
      { eexists c, _. simpl. split; [done|]. rewrite lookup_insert. split; [done|]. simpl. apply lookup_insert. }
      destruct (insts_ok _ b x c fd (rb_insts rd) IH Hf Hlist (rb_insts rd) [] _ _ _ _ (λ v H, H) Hin I1 Hc Hphi) as (o & W & I2 & G2 & C2).
      { apply elem_of_app. right. by left. }
      { by rewrite lookup_insert. }
      simpl in I2. rewrite insert_insert in I2.
      apply (step_close p HR _ _ _ c fd b (rb_insts rd)) in I2; [|done|by eexists|by rewrite lookup_insert|done].
      assert (HO : O !! b = None). { apply eq_None_not_Some. intros Hs. apply HnS. by apply (iv_O _ _ _ _ I). }
      rewrite delete_insert in I2 by done.
      exists ((TBlk b :: (TVal <$> bb_params d)) ++ o). split.
      { rewrite <- (app_nil_r (_ ++ o)). apply (W_block p S b d (rb_insts rd) [] o []); [exact HnS|exact Hd|exact W|constructor]. }
      rewrite app_assoc. split; [exact I2|]. split; [eapply grows_trans; eassumption|]. split; [exact C2|].
      by apply (phi_grows s1).
  - destruct (g_funcs s !! f) as [i|] eqn:Hi.
    + injection H as <- <-. exists []. rewrite app_nil_r. split.
      { apply W_known; [|constructor]. apply (iv_sf _ _ _ _ I). by eexists. }
      split; [done|]. split; [apply grows_refl|]. split; [done|]. by exists i.
    + rb H rd Hrd. apply need_Done in Hrd. destruct (h_funcs h !! f) as [[y|]|] eqn:Hv; simpl in Hrd; try discriminate Hrd.
      injection Hrd as ->. destruct (ho_fun _ _ HH _ _ Hv) as (fd & Hf & T1 & T2 & T3 & T4).
      assert (HnS : TFunc f ∉ S). { intros Hin. apply (iv_sf _ _ _ _ I) in Hin as [? Hx]. by rewrite Hi in Hx. }
      destruct (rg_params _ HR _ _ Hf) as (ts & r & Ety & Hpar). rewrite T1, Ety in H.
      rb H y Hy. destruct y as [y w1]. rb H xs Hxs. apply need_Done in Hxs. rewrite T2, T3 in *.
      assert (Hstep : let s1 := put_info f (GInfo y ∅ (zip_into (f_params fd) xs ∅)) (set_gworld w1 s) in
        Inv p (S ++ TFunc f :: (TVal <$> f_params fd)) O s1 ∧ grows s s1 ∧ FM s1 f y) by (by apply (fun_made S O s f fd (rf_bbs rd) ts r)).
      cbv zeta in Hstep. set (s1 := put_info f _ _) in *. destruct Hstep as (I1 & G1 & F1).
      assert (Hres : ∃ o, walk p (S ++ TFunc f :: (TVal <$> f_params fd)) (TBlk <$> (l_bbs (f_layout fd)).*1) o ∧
        Inv p ((S ++ TFunc f :: (TVal <$> f_params fd)) ++ o) O s' ∧ grows s1 s' ∧ g_cur s' = g_cur s ∧ x = y).
      { rewrite <- T4. destruct (rf_bbs rd) as [|b0 bs0] eqn:Eb.
        - injection H as -> <-. exists []. split; [constructor|]. rewrite app_nil_r. split; [done|]. split; [apply grows_refl|]. done.
        - rb H z Hz. destruct z as [zs s2]. injection H as -> <-.
          assert (Hr : ready p s1) by (by eapply grows_ready).
          destruct (each_ok _ _ IH _ _ _ _ _ Hz (set_gcur_inv _ _ _ (Some f) I1 ltac:(intros c [= <-]; split; [destruct F1 as (i & Hi' & _); by exists i|done])))
            as (o & W & I2 & G2 & C2 & _).
          { intros t Ht. apply elem_of_list_fmap in Ht as (b & -> & Hin). exists f, fd. split; [done|]. split; [done|].
            apply (rg_bbs _ HR _ _ _ Hf). by rewrite <- T4. }
          exists o. split; [exact W|]. split.
          + apply set_gcur_inv; [exact I2|]. intros c Hc. destruct (iv_cur _ _ _ _ I1 c Hc) as [[j Hj] _].
            destruct (proj2 G2 _ _ Hj) as (j' & Hj' & _). split; [by exists j'|]. exact (grows_ready p _ _ G2 Hr).
          + split; [exact G2|]. done. }
      destruct Hres as (o & W & I2 & G2 & C2 & ->).
      exists ((TFunc f :: (TVal <$> f_params fd)) ++ o). split.
      { rewrite <- (app_nil_r (_ ++ o)). apply (W_func p S f fd [] o []); [exact HnS|exact Hf|exact W|constructor]. }
      rewrite app_assoc. split; [exact I2|]. split; [eapply grows_trans; eassumption|]. split; [exact C2|]. by apply (grows_FM s1).
Qed.
End gen.
