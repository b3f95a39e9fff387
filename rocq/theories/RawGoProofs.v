(** The steps of the generator succeed (C40). *)
From Coq Require Import Lia ZifyBool ZifyNat ZifyN.
From Verif Require Import Base IdModel TypeModel IrModel LayoutModel BuilderModel WorldModel FrontModel
  UsesSpec UsesProofs DfgSpec DfgProofs WorldSpec WorldProofs TypingSpec TypingProofs TypingHistory HistoryProofs
  CleanProofs FaithSpec RoundProofs ViewProofs FaithProofs AcceptSpec AcceptProofs AcceptFunProofs AcceptTopProofs
  RawModel RawSpec RawBuildProofs RawWalkProofs RawInvProofs RawStepProofs RawBlockProofs RawGenProofs RawTopProofs RawTotalSpec RawMakeProofs.

(** ** Calls of the library *)
Lemma local_go f fd r t k w : p_funcs (w_prog w) !! f = Some fd → room 0 w → local_req r = true → left_in (1 + k) (w_ids w) →
  has_type (local_env (w_prog w) fd) (requested r) t → requested_ty r t →
  ∃ v w', w_new_local f r w = Some (v, w') ∧ left_in k (w_ids w').
Proof.
  intros Hf R Hr Hl Ht Hq. set (s := set_world w (bstate0 (w_ids w) 0 0)).
  destruct (goes_new f (fv fd) r t k s) as (v & s' & Hc & _ & _ & _ & Hk); [| | | | |exact Hq|].
  - change (fvs w !! f = Some (fv fd)). by rewrite lookup_fmap, Hf.
  - exact R.
  - exact Hr.
  - exact Hl.
  - eapply has_type_ext; [..|exact Ht]; simpl; intros u.
    + rewrite <- map_fmap_union, lookup_fmap. by destruct ((p_values (w_prog w) ∪ vals fd) !! u).
    + rewrite <- map_fmap_union, lookup_fmap. by destruct ((p_values (w_prog w) ∪ vals fd) !! u).
    + rewrite lookup_fmap. by destruct (blks fd !! u).
    + rewrite !lookup_fmap. by destruct (p_funcs (w_prog w) !! u).
  - apply clean_prog in Hc as (w' & Hw & ->). exists v, w'. done.
Qed.
Definition name_ok (n : option string) : Prop := ∀ s, n = Some s → well_named s.
Lemma name_ok_valid n : name_ok n → valid_opt_name n = true.
Proof. destruct n as [s|]; [|done]. intros H. simpl. by apply well_named_valid, H. Qed.
Lemma name_local_go f fd v n w : p_funcs (w_prog w) !! f = Some fd → is_Some (vals fd !! v) → name_ok n →
  ∃ w', w_name_local f v n w = Some w' ∧ w_ids w' = w_ids w.
Proof.
  intros Hf [d Hd] Hn. unfold w_name_local, on_dfg. rewrite Hf. simpl. unfold dfg_set_value_name. rewrite Hd. simpl.
  unfold set_name. rewrite (name_ok_valid _ Hn). simpl. by eexists.
Qed.
Lemma name_global_go v n w : is_Some (p_values (w_prog w) !! v) → name_ok n →
  ∃ w', w_name_global v n w = Some w' ∧ w_ids w' = w_ids w.
Proof.
  intros [d Hd] Hn. unfold w_name_global, prog_set_value_name. rewrite Hd. simpl.
  unfold set_name. rewrite (name_ok_valid _ Hn). simpl. by eexists.
Qed.
Lemma push_bb_go f x h w : fvs w !! f = Some x → h ∉ (w_lay x).*1 → ∃ w', w_push_bb f h w = Some w' ∧ w_ids w' = w_ids w.
Proof.
  intros Hx Hlay. rewrite lookup_fmap in Hx. apply fmap_Some in Hx as (fd & Hf & Ef).
  apply (f_equal w_lay) in Ef. simpl in Ef. unfold w_push_bb. rewrite Hf. simpl. unfold bb_insert. rewrite <- Ef.
  replace (has_key fst h (w_lay x)) with false; [simpl; by eexists|]. symmetry. apply not_true_is_false.
  intros (u & Hu & E)%existsb_exists. apply N.eqb_eq in E. apply Hlay. apply elem_of_list_fmap. exists u. split; [done|]. by apply elem_of_list_In.
Qed.
Lemma push_inst_go f x b v is w : fvs w !! f = Some x → find_bb b (w_lay x) = Some is → v ∉ is →
  ∃ w', w_push_inst f b v w = Some w' ∧ w_ids w' = w_ids w.
Proof.
  intros Hx Hb Hv. rewrite lookup_fmap in Hx. apply fmap_Some in Hx as (fd & Hf & Ef).
  apply (f_equal w_lay) in Ef. simpl in Ef. unfold w_push_inst. rewrite Hf. simpl. unfold inst_insert. rewrite <- Ef, Hb.
  simpl. replace (has_key id v is) with false; [simpl; by eexists|]. symmetry.
  unfold has_key. apply not_true_is_false. intros (u & Hu & E)%existsb_exists. apply N.eqb_eq in E. unfold id in E. subst u.
  by apply elem_of_list_In in Hu.
Qed.

(** ** Types of renamed values *)
Lemma forall2_through {A A' C C'} (V : A → A' → Prop) (W : C → C' → Prop) (P : A → C → Prop) (Q : A' → C' → Prop) a c :
  Forall2 P a c → (∀ x y x' y', V x x' → W y y' → P x y → Q x' y') → ∀ a' c', Forall2 V a a' → Forall2 W c c' → Forall2 Q a' c'.
Proof.
  intros H HQ. induction H as [|x y a c Hxy _ IH]; intros a' c' Ha Hc; inversion Ha; subst; inversion Hc; subst; constructor.
  - by eapply HQ.
  - by apply IH.
Qed.
Lemma renamed_has_type V B F E E' k k' t :
  renamed V B F k k' → has_type E k t →
  (∀ u u', V u u' → e_ty E' u' = e_ty E u) →
  (∀ u u', V u u' → e_const E' u' = e_const E u) →
  (∀ b b' ps, B b b' → e_bb E b = Some ps → ∃ ps', e_bb E' b' = Some ps' ∧ Forall2 V ps ps') →
  (∀ a b c, B a c → B b c → a = b) →
  (∀ f f', F f f' → e_fun E' f' = e_fun E f) →
  has_type E' k' t.
Proof.
  intros HR H HV HC HB HI HF.
  assert (Hargs : ∀ b b' a a', B b b' → Forall2 V a a' → args_match E b a → args_match E' b' a').
  { intros b b' a a' Hb Ha (ps & Hps & Hm). destruct (HB _ _ _ Hb Hps) as (ps' & Hps' & Hpp). exists ps'. split; [done|].
    eapply (forall2_through V V); [exact Hm| |exact Hpp|exact Ha]. intros x y x' y' Hx Hy (t0 & E1 & E2). exists t0.
    by rewrite (HV _ _ Hx), (HV _ _ Hy). }
  destruct HR as [| | |l l' Hl| | | |v v' Hv|v v' Hv|v v' d d' Hv Hd|x x' i i' Hx Hi|x x' i i' Hx Hi|op l l' r r' Hl Hr|c c' t0 t0' f f' ta ta' fa fa' Hc Ht Hf Hta Hfa|t0 t0' a a' Ht Ha|f f' a a' Hf Ha| |v v' Hv].
  - inversion H; subst. constructor.
  - inversion H; subst. by constructor.
  - inversion H; subst. by constructor.
  - inversion H as [| | |? t1 Hne Hu He| | | | | | | | | | | |]; subst. rewrite (Forall2_length _ _ _ Hl). constructor; [|done|].
    + intros ->. inversion Hl; subst. done.
    + intros e' Hin. apply elem_of_list_lookup in Hin as [j Hj]. destruct (Forall2_lookup_r _ _ _ _ _ Hl Hj) as (e & He' & Hee).
      rewrite (HV _ _ Hee), (HC _ _ Hee). apply He. by eapply elem_of_list_lookup_2.
  - inversion H.
  - inversion H.
  - inversion H; subst. by constructor.
  - inversion H; subst. econstructor; [by rewrite (HV _ _ Hv)|done].
  - inversion H; subst. econstructor. by rewrite (HV _ _ Hv).
  - inversion H; subst. econstructor; [by rewrite (HV _ _ Hv)|by rewrite (HV _ _ Hd)].
  - inversion H; subst. econstructor; [by rewrite (HV _ _ Hx)|by rewrite (HV _ _ Hi)].
  - inversion H; subst. econstructor; [by rewrite (HV _ _ Hx)|by rewrite (HV _ _ Hi)].
  - inversion H; subst. econstructor; [by rewrite (HV _ _ Hl)|by rewrite (HV _ _ Hr)].
  - inversion H as [| | | | | | | | | | |? ? ? ? ? Hc1 Hm1 Hm2 Heq| | | |]; subst. constructor.
    + by rewrite (HV _ _ Hc).
    + by eapply Hargs.
    + by eapply Hargs.
    + intros <-. rewrite (HI _ _ _ Ht Hf) in Heq. destruct (Heq eq_refl) as [-> ->]. inversion Hta; subst. by inversion Hfa; subst.
  - inversion H; subst. constructor. by eapply Hargs.
  - inversion H as [| | | | | | | | | | | | |? ? ps ret Hfun Hargs'| |]; subst. econstructor; [by rewrite (HF _ _ Hf)|].
    eapply (forall2_through eq V); [exact Hargs'| |apply Forall2_same_length_lookup; split; [done|by intros ? ? ? -> [= ->]]|exact Ha].
    intros x y x' y' <- Hy E1. by rewrite (HV _ _ Hy).
  - inversion H; subst. constructor.
  - inversion H; subst. econstructor; [by rewrite (HV _ _ Hv)|done].
Qed.
Lemma renamed_const V B F k k' : renamed V B F k k' → is_const k' = is_const k.
Proof. by destruct 1. Qed.

(** ** What a kind asks for *)
Lemma gen_kind_go go E t k s xs s0 : is_param k = false → has_type E k t → g_each go (refs k) s = Done (xs, s0) →
  ∃ r, gen_kind go t k s = makes_value k r s0 ∧
    (∀ V B F, Forall2 (rel V B F) (refs k) xs → renamed V B F k (requested r)) ∧ requested_ty r t ∧
    (is_global_alloc k = false → local_req r = true) ∧ (const_kind k = true → global_req r = true).
Proof.
  intros Hp Ht He. destruct k as [z| | |l|j|j| |v|v|v d|y j|y j|op a b|c tt ff ta fa|tt a|f a|[v|]]; simpl in Hp; try discriminate Hp.
  - injection He as <- <-. exists (BInteger z). split; [done|]. split; [constructor|]. done.
  - injection He as <- <-. exists (BZeroInit t). split; [done|]. split; [constructor|]. done.
  - injection He as <- <-. exists (BUndef t). split; [done|]. split; [constructor|]. done.
  - simpl in He. exists (BAggregate xs). simpl. rewrite He. split; [done|]. split; [|done].
    intros V B F HV. constructor. by apply rel_vals in HV.
  - injection He as <- <-. inversion Ht; subst. eexists (BAlloc _). split; [done|]. split; [constructor|]. done.
  - simpl in He. rb He y Hv. destruct y as [v' s1]. injection He as <- <-. exists (BGlobalAlloc v'). simpl. rewrite Hv. split; [done|].
    split; [|done]. intros V B F HV. inversion HV; subst. by constructor.
  - simpl in He. rb He y Hv. destruct y as [v' s1]. injection He as <- <-. exists (BLoad v'). simpl. rewrite Hv. split; [done|].
    split; [|done]. intros V B F HV. inversion HV; subst. by constructor.
  - simpl in He. rb He y Hv. destruct y as [v' s1]. rb He y Hy. destruct y as [ys s2]. rb Hy y2 Hd. destruct y2 as [d' s3].
    injection Hy as <- <-. injection He as <- <-. exists (BStore v' d'). simpl. rewrite Hv. simpl. rewrite Hd. split; [done|].
    split; [|done]. intros V B F HV. inversion HV as [|? ? ? ? Q1 Q2]; subst. inversion Q2; subst. by constructor.
  - simpl in He. rb He y2 Hv. destruct y2 as [v' s1]. rb He y2 Hy. destruct y2 as [ys s2]. rb Hy y2 Hd. destruct y2 as [d' s3].
    injection Hy as <- <-. injection He as <- <-. exists (BGetPtr v' d'). simpl. rewrite Hv. simpl. rewrite Hd. split; [done|].
    split; [|done]. intros V B F HV. inversion HV as [|? ? ? ? Q1 Q2]; subst. inversion Q2; subst. by constructor.
  - simpl in He. rb He y2 Hv. destruct y2 as [v' s1]. rb He y2 Hy. destruct y2 as [ys s2]. rb Hy y2 Hd. destruct y2 as [d' s3].
    injection Hy as <- <-. injection He as <- <-. exists (BGetElemPtr v' d'). simpl. rewrite Hv. simpl. rewrite Hd. split; [done|].
    split; [|done]. intros V B F HV. inversion HV as [|? ? ? ? Q1 Q2]; subst. inversion Q2; subst. by constructor.
  - simpl in He. rb He y Hv. destruct y as [v' s1]. rb He y Hy. destruct y as [ys s2]. rb Hy y2 Hd. destruct y2 as [d' s3].
    injection Hy as <- <-. injection He as <- <-. exists (BBinary op v' d'). simpl. rewrite Hv. simpl. rewrite Hd. split; [done|].
    split; [|done]. intros V B F HV. inversion HV as [|? ? ? ? Q1 Q2]; subst. inversion Q2; subst. by constructor.
  - cbn [refs g_each] in He. rb He y Hc. destruct y as [c' s1]. rb He y Hy. destruct y as [ys s2]. injection He as <- <-.
    rb Hy y Ht'. destruct y as [t' s3]. rb Hy y Hy2. destruct y as [ys2 s4]. injection Hy as <- <-.
    rb Hy2 y Hf'. destruct y as [f' s5]. rb Hy2 y Hy3. destruct y as [ys3 s6]. injection Hy2 as <- <-.
    rewrite fmap_app, g_each_app in Hy3. rb Hy3 y Hta. destruct y as [ta' s7]. rb Hy3 y Hfa. destruct y as [fa' s8]. injection Hy3 as <- <-.
    exists (BBranchArgs c' t' f' ta' fa'). split.
    { cbn [gen_kind]. rewrite Hc. cbn [mbind rr_bind]. rewrite Ht'. cbn [mbind rr_bind]. rewrite Hf'. cbn [mbind rr_bind].
      rewrite Hta. cbn [mbind rr_bind]. by rewrite Hfa. }
    split; [|done]. intros V B F HV. cbn [refs] in HV.
    inversion HV as [|? ? ? ? Q1 HV2]; subst. inversion HV2 as [|? ? ? ? Q2 HV3]; subst. inversion HV3 as [|? ? ? ? Q3 HV4]; subst.
    apply rel_vals in HV4.
    assert (Hlen : length ta = length ta').
    { clear -Hta. revert s5 s7 ta' Hta. induction ta as [|a ta IH]; intros s4 s5 ta' H; simpl in H; [by injection H as <- _|].
      rb H y Hy. destruct y as [y sy]. rb H ys Hys. destruct ys as [ys s2]. injection H as <- _. simpl. f_equal. exact (IH _ _ _ Hys). }
    destruct (Forall2_app_inv _ _ _ _ _ Hlen HV4) as [U1 U2]. by constructor.
  - cbn [refs g_each] in He. rb He y Hc. destruct y as [t' s1]. rb He y Hy. destruct y as [ys s2]. injection He as <- <-.
    exists (BJumpArgs t' ys). split; [cbn [gen_kind]; rewrite Hc; cbn [mbind rr_bind]; by rewrite Hy|].
    split; [|done]. intros V B F HV. cbn [refs] in HV. inversion HV as [|? ? ? ? Q1 Q2]; subst. apply rel_vals in Q2. by constructor.
  - cbn [refs g_each] in He. rb He y Hc. destruct y as [t' s1]. rb He y Hy. destruct y as [ys s2]. injection He as <- <-.
    exists (BCall t' ys). split; [cbn [gen_kind]; rewrite Hc; cbn [mbind rr_bind]; by rewrite Hy|].
    split; [|done]. intros V B F HV. cbn [refs] in HV. inversion HV as [|? ? ? ? Q1 Q2]; subst. apply rel_vals in Q2. by constructor.
  - simpl in He. rb He y Hv. destruct y as [v' s1]. injection He as <- <-. exists (BRet (Some v')). simpl. rewrite Hv. split; [done|].
    split; [|done]. intros V B F HV. inversion HV; subst. by constructor.
  - injection He as <- <-. exists (BRet None). split; [done|]. split; [constructor|]. done.
Qed.

Section go.
Context (p : program) (h : heap) (o0 : list task) (HR : regular p) (HH : heap_ok p h) (HB : buildable p o0).
Lemma vname_ok v d : value_of p v d → name_ok (v_name d).
Proof. intros Hd s Hs. by apply (bu_vname _ _ HB v d s Hd). Qed.
(** Constness of what is made. *)
Lemma env_const S O s c i fd fdw u u' : Inv p S O s → g_funcs s !! c = Some i → p_funcs p !! c = Some fd →
  p_funcs (w_prog (g_world s)) !! gi_func i = Some fdw →
  pairs (g_vals s) u u' ∨ pairs (gi_vals i) u u' →
  e_const (local_env (w_prog (g_world s)) fdw) u' = e_const (local_env p fd) u.
Proof.
  intros I Hc Hfd Hw [Hu|Hu]; simpl.
  - destruct (iv_g _ _ _ _ I _ _ Hu) as (d & k' & Hd & Hd' & Hren).
    rewrite lookup_fmap in Hd'. apply fmap_Some in Hd' as (d' & Hd' & E).
    rewrite (lookup_union_Some_l _ _ _ _ Hd), (lookup_union_Some_l _ _ _ _ Hd'). apply renamed_const in Hren.
    unfold vi in E. congruence.
  - destruct (iv_f _ _ _ _ I _ _ Hc) as (fd0 & x & H1 & H2 & H3 & _). rewrite Hfd in H1. injection H1 as <-.
    destruct (fi_v _ _ _ _ _ _ _ _ H3 _ _ Hu) as (d & k' & Hd & Hd' & Hren).
    rewrite lookup_fmap, Hw in H2. injection H2 as <-.
    pose proof Hd' as Hs. simpl in Hd'. rewrite lookup_fmap in Hd'. apply fmap_Some in Hd' as (d' & Hd' & E).
    assert (N1 : p_values p !! u = None).
    { apply eq_None_not_Some. intros Hx. eapply (local_not_global p HR c fd u); [done|by eexists|done]. }
    assert (N2 : p_values (w_prog (g_world s)) !! u' = None).
    { apply eq_None_not_Some. intros Hx. pose proof (iv_room _ _ _ _ I) as R.
      destruct (room_gv _ _ R) as [R1 R2]. destruct (room_lv _ _ R) as (R3 & R4 & R5).
      apply R2 in Hx. assert (Hf : fvs (g_world s) !! gi_func i = Some (fv fdw)) by (by rewrite lookup_fmap, Hw).
      pose proof (R5 _ _ u' Hf ltac:(by eexists)). lia. }
    rewrite (lookup_union_r _ _ _ N1), (lookup_union_r _ _ _ N2), Hd, Hd'. apply renamed_const in Hren. unfold vi in E. congruence.
Qed.
Lemma room_zero k w : room k w → room 0 w.
Proof. apply room_mono. lia. Qed.
Lemma cur_info_go S O s c : Inv p S O s → g_cur s = Some c → ∃ i, g_funcs s !! c = Some i ∧ cur_info s = Done (c, i).
Proof.
  intros I Hc. destruct (iv_cur _ _ _ _ I _ Hc) as [[i Hi] _]. exists i. split; [done|]. unfold cur_info. rewrite Hc. simpl. by rewrite Hi.
Qed.
(** The new value. *)
Lemma value_go S O s v d r k :
  Inv p S O s → owned p S s (TVal v) → value_of p v d → g_vals s !! v = None → is_param (v_kind d) = false →
  renamed (λ a b, phi s (TVal a) b) (λ a b, phi s (TBlk a) b) (λ a b, phi s (TFunc a) b) (v_kind d) (requested r) →
  requested_ty r (v_ty d) →
  (is_global_alloc (v_kind d) = false → local_req r = true) → (const_kind (v_kind d) = true → global_req r = true) →
  left_in (1 + k) (w_ids (g_world s)) →
  ∃ x s1 s2, makes_value (v_kind d) r s = Done (x, s1) ∧ keep_value v (v_name d) x s1 = Done s2 ∧ left_in k (w_ids (g_world s2)).
Proof.
  intros I Ho Hd Hgn Hk Hren Hty Hlr Hgr Hl. simpl in Ho. destruct (g_cur s) as [c|] eqn:Hc.
  - destruct (iv_cur _ _ _ _ I _ Hc) as [_ Hr]. destruct Ho as [Ho|(fd & d' & Hf & Hd' & _)].
    { destruct (Hr _ Ho) as [? Hx]. by rewrite Hgn in Hx. }
    assert (d' = d) as -> by (apply (value_of_det p HR v); [right; by exists c, fd|done]).
    assert (Hga : is_global_alloc (v_kind d) = false).
    { pose proof (λ i, rg_allocs _ HR _ _ _ _ i Hf Hd') as Ha. destruct (v_kind d); try reflexivity. by destruct (Ha init). }
    destruct (cur_info_go _ _ _ _ I Hc) as (i & Hi & Eci).
    destruct (iv_f _ _ _ _ I _ _ Hi) as (fd0 & y & K1 & K2 & K3 & _). rewrite Hf in K1. injection K1 as <-.
    pose proof K2 as Hw. rewrite lookup_fmap in Hw. apply fmap_Some in Hw as (fdw & Hw & ->).
    assert (Hren' : renamed (either (g_vals s) (gi_vals i)) (pairs (gi_bbs i)) (FM s) (v_kind d) (requested r)).
    { revert Hren. apply renamed_mono; simpl.
      - intros a b [?|(c' & i' & E & E' & ?)]; [by left|right]. rewrite Hc in E. injection E as <-. rewrite Hi in E'. by injection E' as <-.
      - intros a b (c' & i' & E & E' & ?). rewrite Hc in E. injection E as <-. rewrite Hi in E'. by injection E' as <-.
      - done. }
    pose proof (proj2 (rg_typed _ HR) _ _ _ _ Hf Hd') as Hpt. rewrite Hk in Hpt.
    assert (Ht : has_type (local_env (w_prog (g_world s)) fdw) (requested r) (v_ty d)).
    { eapply renamed_has_type; [exact Hren'|exact Hpt| | | | |].
      - intros u u' Hu. by eapply (env_vals p HR _ _ _ _ _ _ _ u u' I Hi Hf Hw).
      - intros u u' Hu. by eapply (env_const _ _ _ _ _ _ _ u u' I Hi Hf Hw).
      - intros b b' ps Hb Hps. simpl in Hps. destruct (fi_b _ _ _ _ _ _ _ _ K3 _ _ Hb) as (bd & ps' & Hbd & Hb' & Hpp).
        simpl in Hb'. rewrite lookup_fmap in Hb'. apply fmap_Some in Hb' as (bd' & Hb' & E'). rewrite Hbd in Hps. injection Hps as <-.
        exists ps'. simpl. rewrite Hb'. unfold bv in E'. split; [simpl; congruence|].
        eapply list.Forall2_impl; [exact Hpp|]. intros ? ? ?. by right.
      - intros a b e. apply (fi_binj _ _ _ _ _ _ _ _ K3).
      - intros f f' HF. simpl. by apply (env_funs p S O s f f'). }
    destruct (local_go _ _ _ _ _ _ Hw (room_zero _ _ (iv_room _ _ _ _ I)) (Hlr Hga) Hl Ht Hty) as (x & w1 & Hx & Hl1).
    destruct (new_local_view _ _ _ _ _ _ Hx (iv_room _ _ _ _ I)) as (fdw' & t' & Hw' & Hon & Hn & _).
    apply only_after in Hon. rewrite lookup_fmap in Hon. apply fmap_Some in Hon as (fd1 & Hf1 & E1).
    destruct (name_local_go _ _ x (v_name d) _ Hf1) as (w2 & Hw2 & Ei).
    { apply (f_equal w_vals) in E1. simpl in E1. assert (Hs : vim (vals fd1) !! x = Some (None, (t', requested r))) by (by rewrite <- E1, lookup_insert).
      rewrite lookup_fmap in Hs. apply fmap_Some in Hs as (? & Hs & _). by eexists. }
    { by eapply vname_ok. }
    exists x, (set_gworld w1 s). eexists. split; [|split].
    + assert (Hm : g_local r s = Done (x, set_gworld w1 s)). { unfold g_local. rewrite Eci. simpl. by rewrite Hx. }
      unfold makes_value, g_const. rewrite Hga, Hc. by destruct (const_kind (v_kind d)).
    + unfold keep_value. simpl. rewrite Hc. unfold cur_info. simpl. rewrite Hc. simpl. rewrite Hi. simpl. rewrite Hw2. simpl. reflexivity.
    + simpl. by rewrite Ei.
  - assert (Hd' : p_values p !! v = Some d) by (by apply (global_data p HR)).
    pose proof (proj1 (rg_typed _ HR) _ _ Hd') as Hpt.
    assert (Hren' : renamed (pairs (g_vals s)) (λ a b, phi s (TBlk a) b) (λ a b, phi s (TFunc a) b) (v_kind d) (requested r)).
    { revert Hren. apply renamed_mono; [|done|done]. simpl. intros a b [?|(c' & i' & E & _)]; [done|]. by rewrite Hc in E. }
    assert (Hck : const_kind (v_kind d) = true).
    { destruct (bu_global _ _ HB _ _ Hd') as [E|[i E]]; [|by rewrite E]. by destruct (v_kind d). }
    assert (Hren2 : renamed (pairs (g_vals s)) (λ _ _, False) (λ _ _, False) (v_kind d) (requested r)).
    { clear -Hck Hren'. inversion Hren' as [| | | | | | | | | | | | | ? ? ? ? ? ? ? ? ? ? ? ? ? ? ? E| ? ? ? ? ? ? E| ? ? ? ? ? ? E| |]; subst;
        try (by constructor); match goal with E : _ = v_kind d |- _ => rewrite <- E in Hck; discriminate Hck end. }
    assert (Ht : has_type (genv (gvs (g_world s))) (requested r) (v_ty d)).
    { eapply renamed_has_type; [exact Hren2|exact Hpt| | | | |].
      - intros u u' Hu. simpl. destruct (iv_g _ _ _ _ I _ _ Hu) as (du & k' & Hdu & Hdu' & _).
        rewrite Hdu, Hdu'. done.
      - intros u u' Hu. simpl. destruct (iv_g _ _ _ _ I _ _ Hu) as (du & k' & Hdu & Hdu' & Hru).
        rewrite Hdu, Hdu'. simpl. by apply renamed_const in Hru.
      - intros b b' ps _ Hps. discriminate Hps.
      - intros a b e [].
      - intros f f' []. }
    pose proof (vals_size p _ _ _ _ I ltac:(by eexists) Hgn) as Hsz.
    pose proof (iv_room _ _ _ _ I) as R.
    replace (N.of_nat (base.size (p_values p)) - N.of_nat (base.size (g_vals s)))%N
      with (1 + (N.of_nat (base.size (p_values p)) - N.of_nat (base.size (g_vals s)) - 1))%N in R by lia.
    destruct (new_global_go _ _ _ _ R (Hgr Hck) Ht Hty) as (x & w1 & Hx & _ & _ & Hg1 & _ & _ & Hl1).
    destruct (name_global_go x (v_name d) w1) as (w2 & Hw2 & Ei).
    { assert (Hs : gvs w1 !! x = Some (None, (v_ty d, requested r))) by (by rewrite Hg1, lookup_insert).
      rewrite lookup_fmap in Hs. apply fmap_Some in Hs as (? & Hs & _). by eexists. }
    { by eapply vname_ok. }
    exists x, (set_gworld w1 s). eexists. split; [|split].
    + assert (Hm : g_global r s = Done (x, set_gworld w1 s)). { unfold g_global. by rewrite Hx. }
      unfold makes_value, g_const. rewrite Hc, Hck. by destruct (is_global_alloc (v_kind d)).
    + unfold keep_value. simpl. rewrite Hc, Hw2. simpl. reflexivity.
    + simpl. rewrite Ei. apply Hl1. eapply left_mono; [|exact Hl]. lia.
Qed.
(** ** One task *)
Definition one (n : nat) (S : list task) (t : task) (o : list task) : Prop :=
  ∀ k O s, Inv p S O s → owned p S s t → left_in (N.of_nat (length o) + k) (w_ids (g_world s)) →
    ∃ x s', raw_gen h n t s = Done (x, s') ∧ left_in k (w_ids (g_world s')).
Definition runs (n : nat) (S l o : list task) : Prop :=
  ∀ k O s, Inv p S O s → (∀ t, t ∈ l → owned p S s t) → left_in (N.of_nat (length o) + k) (w_ids (g_world s)) →
    ∃ xs s', g_each (raw_gen h n) l s = Done (xs, s') ∧ left_in k (w_ids (g_world s')).
Definition runs_insts (n : nat) (S l o : list task) : Prop :=
  ∀ b x c fd dn is k O s, l = TVal <$> is → NoDup (dn ++ is) → p_funcs p !! c = Some fd →
    (b, dn ++ is) ∈ l_bbs (f_layout fd) → Inv p S O s → g_cur s = Some c → phi s (TBlk b) x → TBlk b ∈ S →
    O !! b = Some dn → left_in (N.of_nat (length o) + k) (w_ids (g_world s)) →
    ∃ s', gen_insts (raw_gen h n) x is s = Done s' ∧ left_in k (w_ids (g_world s')).
Lemma known_one n S t : t ∈ S → one (Datatypes.S n) S t [].
Proof.
  intros Ht k O s I Ho Hl. cbn [raw_gen]. destruct t as [v|b|f].
  - assert (Hx : ∃ x, phi s (TVal v) x).
    { apply (iv_sv _ _ _ _ I) in Ht as [[x Hx]|(f & i & Hi & [x Hx])]; [exists x; by left|].
      destruct (iv_f _ _ _ _ I _ _ Hi) as (fd & z & K1 & _ & K3 & _). destruct (fi_v _ _ _ _ _ _ _ _ K3 _ _ Hx) as (d' & _ & Hd' & _).
      simpl in Ho. destruct (g_cur s) as [c|] eqn:Hc.
      - destruct Ho as [Ho|(fdc & dc & Hfc & Hdc & _)].
        + destruct (proj2 (iv_cur _ _ _ _ I _ Hc) _ Ho) as [y Hy]. exists y. by left.
        + assert (f = c) as -> by (eapply (rg_own _ HR f c); [done|done|by eexists|by eexists]). exists x. right. by exists c, i.
      - exfalso. eapply (local_not_global p HR f fd v); [done|by eexists|done]. }
    destruct Hx as [x Hx]. destruct (g_vals s !! v) as [y|] eqn:Hv.
    + cbn [mbind rr_bind]. exists y, s. done.
    + destruct Hx as [Hx|(c & i & Hc & Hi & Hx)]; [simpl in Hx; congruence|].
      rewrite Hc. unfold cur_info. rewrite Hc. simpl. rewrite Hi. simpl. rewrite Hx. simpl. exists x, s. done.
  - destruct Ho as (c & fd & Hc & Hf & Hb). apply (iv_sb _ _ _ _ I) in Ht as (f & i & Hi & [x Hx]).
    destruct (iv_f _ _ _ _ I _ _ Hi) as (fd' & z & K1 & _ & K3 & _). destruct (fi_b _ _ _ _ _ _ _ _ K3 _ _ Hx) as (d & _ & Hd & _).
    assert (f = c) as -> by (eapply (rg_own_bb _ HR f c); [done|done|by eexists|done]).
    unfold cur_info. rewrite Hc. simpl. rewrite Hi. simpl. rewrite Hx. exists x, s. done.
  - apply (iv_sf _ _ _ _ I) in Ht as [i Hi]. rewrite Hi. exists (gi_func i), s. done.
Qed.
Lemma elem_at (l : list (bblock * list value)) b is : NoDup l.*1 → (b, is) ∈ l → find_bb b l = Some is.
Proof.
  intros Hnd Hin. destruct (find_bb_go b l) as [is' H']. { by apply (elem_of_list_fmap_1 fst) in Hin. }
  rewrite H'. f_equal. apply find_bb_in in H'.
  apply elem_of_list_lookup in Hin as [i Hi], H' as [j Hj].
  assert (i = j) as ->.
  { eapply (NoDup_lookup l.*1 i j b); [done| |]; rewrite list_lookup_fmap; [by rewrite Hi|by rewrite Hj]. }
  congruence.
Qed.
Lemma inst_go S O s c i fd b dn v x y : Inv p S O s → g_funcs s !! c = Some i → p_funcs p !! c = Some fd →
  O !! b = Some dn → gi_bbs i !! b = Some x → gi_vals i !! v = Some y → v ∉ dn → TBlk b ∈ S →
  ∃ w2, w_push_inst (gi_func i) x y (g_world s) = Some w2 ∧ w_ids w2 = w_ids (g_world s).
Proof.
  intros I Hc Hfd HO Hb Hv Hn HS.
  destruct (iv_f _ _ _ _ I _ _ Hc) as (fd0 & z & K1 & K2 & K3 & K4). rewrite Hfd in K1. injection K1 as <-.
  destruct (fi_b _ _ _ _ _ _ _ _ K3 _ _ Hb) as (bd & ? & Hbd & _).
  assert (Hin : b ∈ blocks_in p S c).
  { unfold RawSpec.blocks_in. apply elem_of_list_omap. exists (TBlk b). split; [done|]. rewrite Hfd, Hbd. done. }
  pose proof (fi_lay _ _ _ _ _ _ _ _ K3) as Hlay.
  apply elem_of_list_lookup in Hin as [j Hj]. destruct (Forall2_lookup_l _ _ _ _ _ Hlay Hj) as ([x' is'] & He & Hbx & is & Hpr & Hvs).
  simpl in Hbx, Hvs. rewrite Hb in Hbx. injection Hbx as <-. unfold progress in Hpr. rewrite HO in Hpr. subst is.
  assert (Hfind : find_bb x (w_lay z) = Some is').
  { apply elem_at; [|by eapply elem_of_list_lookup_2]. apply NoDup_alt. intros j1 j2 e E1 E2.
    rewrite list_lookup_fmap in E1, E2. apply fmap_Some in E1 as (e1 & E1 & ->), E2 as (e2 & E2 & Ee).
    destruct (Forall2_lookup_r _ _ _ _ _ Hlay E1) as (b1 & B1 & Q1 & _), (Forall2_lookup_r _ _ _ _ _ Hlay E2) as (b2 & B2 & Q2 & _).
    rewrite Ee in Q1. pose proof (fi_binj _ _ _ _ _ _ _ _ K3 _ _ _ Q1 Q2) as ->.
    exact (NoDup_lookup _ _ _ _ (fi_nd _ _ _ _ _ _ _ _ K3) B1 B2). }
  apply (push_inst_go _ _ _ _ _ _ K2 Hfind). intros Hy. apply Hn.
  apply elem_of_list_lookup in Hy as [q Hq]. destruct (Forall2_lookup_r _ _ _ _ _ Hvs Hq) as (u & Hu & Hp).
  rewrite <- (fi_vinj _ _ _ _ _ _ _ _ K3 _ _ _ Hp Hv). by eapply elem_of_list_lookup_2.
Qed.
Lemma runs_nil n S : runs n S [] [].
Proof. intros k O s I _ Hl. by exists [], s. Qed.
Lemma runs_cons n S t l o1 o2 : walk p S [t] o1 → one n S t o1 → runs n (S ++ o1) l o2 → runs n S (t :: l) (o1 ++ o2).
Proof.
  intros W H1 H2 k O s I Ho Hl. rewrite app_length in Hl.
  destruct (H1 (N.of_nat (length o2) + k)%N O s I (Ho t ltac:(left))) as (x & s1 & E1 & L1). { eapply left_mono; [|exact Hl]. lia. }
  destruct (gen_spec p h HR HH n _ _ _ _ _ _ E1 I (Ho t ltac:(left))) as (o & W' & I1 & G1 & C1 & P1).
  rewrite (walk_det p HR _ _ _ W' _ W) in I1.
  destruct (H2 k O s1 I1) as (xs & s2 & E2 & L2); [|done|].
  { intros t' Ht'. eapply (owned_grows p S); [|exact G1|exact C1|apply Ho; by right]. intros ? ?. apply elem_of_app. by left. }
  exists (x :: xs), s2. cbn [g_each]. rewrite E1. cbn [mbind rr_bind]. rewrite E2. done.
Qed.
Lemma runs_insts_nil n S : runs_insts n S [] [].
Proof. intros b x c fd dn [|? ?] k O s Hl; [|discriminate Hl]. intros _ _ _ _ _ _ _ _ Hk. exists s. done. Qed.
Lemma runs_insts_cons n S t l o1 o2 : walk p S [t] o1 → one n S t o1 → runs_insts n (S ++ o1) l o2 → runs_insts n S (t :: l) (o1 ++ o2).
Proof.
  intros W H1 H2 b x c fd dn is k O s El Hnd Hf Hlist I Hc Hb HbS HO Hl. rewrite app_length in Hl.
  destruct is as [|v is]; [discriminate El|]. rewrite fmap_cons in El. injection El as -> ->.
  assert (Hv : is_Some (vals fd !! v)). { eapply (rg_insts _ HR); [exact Hf|exact Hlist|]. apply elem_of_app. right. by left. }
  assert (Ho : owned p S s (TVal v)).
  { simpl. rewrite Hc. right. destruct Hv as [d Hd]. exists fd, d. split; [done|]. split; [done|]. intros _. exists b, (dn ++ v :: is).
    split; [done|]. split; [done|]. apply elem_of_app. right. by left. }
  destruct (H1 (N.of_nat (length o2) + k)%N O s I Ho) as (y & s1 & E1 & L1). { eapply left_mono; [|exact Hl]. lia. }
  destruct (gen_spec p h HR HH n _ _ _ _ _ _ E1 I Ho) as (o & W' & I1 & G1 & C1 & P1).
  rewrite (walk_det p HR _ _ _ W' _ W) in I1. rewrite Hc in C1.
  pose proof (phi_grows _ _ _ _ G1 (eq_trans C1 (eq_sym Hc)) Hb) as Hb1. pose proof Hb1 as (c2 & i & E & Hi & Hbb).
  rewrite C1 in E. injection E as <-.
  pose proof (phi_local p HR _ _ _ _ _ _ _ _ I1 Hf Hv C1 Hi P1) as Hvy.
  assert (Hvd : v ∉ dn). { intros Hin. apply list.NoDup_app in Hnd as (_ & Hd & _). apply (Hd v Hin). by left. }
  destruct (inst_go _ _ _ _ _ _ _ _ _ _ _ I1 Hi Hf HO Hbb Hvy Hvd) as (w2 & Ew & Ei). { apply elem_of_app. by left. }
  destruct (step_inst p HR _ _ _ _ _ _ _ _ _ _ _ _ I1 Hi Hf HO Hbb Hvy Ew) as [I2 G2].
  rewrite (cons_middle v dn is), app_assoc in Hnd, Hlist.
  destruct (H2 b x c fd (dn ++ [v]) is k (<[b := dn ++ [v]]> O) (set_gworld w2 s1) eq_refl Hnd Hf Hlist I2 C1) as (s' & E' & L').
  { by apply (phi_grows s1). }
  { apply elem_of_app. by left. }
  { by rewrite lookup_insert. }
  { simpl. by rewrite Ei. }
  exists s'. split; [|done]. cbn [gen_insts]. rewrite E1. cbn [mbind rr_bind]. unfold cur_info. rewrite C1. simpl. rewrite Hi. simpl.
  rewrite Ew. exact E'.
Qed.
Lemma raw_params_go l : (∀ v, v ∈ l → filled h (TVal v)) → ∃ ps, raw_params h l = Done ps.
Proof.
  induction l as [|v l IH]; intros Hl; [by exists []|]. cbn [raw_params]. destruct (Hl v ltac:(left)) as [x Hx].
  destruct IH as [ps Hps]. { intros u Hu. apply Hl. by right. } rewrite Hx. simpl. rewrite Hps. by eexists.
Qed.
Lemma params_names l ps : data_of p l ps → (∀ v d, v ∈ l → value_of p v d → v_ty d ≠ TUnit) →
  Forall (λ q : option string * ty, valid_opt_name q.1 = true ∧ q.2 ≠ TUnit) ps.
Proof.
  intros [Hlen Hd] Hu. apply list.Forall_forall. intros q Hq. apply elem_of_list_lookup in Hq as [j Hj].
  destruct (lookup_lt_is_Some_2 l j) as [v Hv]. { rewrite <- Hlen. by eapply lookup_lt_Some. }
  destruct (Hd _ _ Hv) as (d & Hd' & Hq). rewrite Hj in Hq. injection Hq as ->. simpl. split.
  - apply name_ok_valid. by eapply vname_ok.
  - eapply Hu; [|exact Hd']. by eapply elem_of_list_lookup_2.
Qed.
Lemma param_ty f fd v d d' : p_funcs p !! f = Some fd → vals fd !! v = Some d → is_param (v_kind d) = true → value_of p v d' → v_ty d' ≠ TUnit.
Proof.
  intros Hf Hv Hk Hd. assert (d' = d) as -> by (apply (value_of_det p HR v); [done|right; by exists f, fd]).
  pose proof (proj2 (rg_typed _ HR) _ _ _ _ Hf Hv) as H. by rewrite Hk in H.
Qed.
Lemma value_one n S v d o : TVal v ∉ S → value_of p v d → is_param (v_kind d) = false → walk p S (refs (v_kind d)) o →
  filled h (TVal v) → runs n S (refs (v_kind d)) o → one (Datatypes.S n) S (TVal v) (o ++ [TVal v]).
Proof.
  intros HnS Hd Hk W [rd Hrd] Hr k O s I Ho Hl. rewrite app_length in Hl. cbn [raw_gen].
  assert (Hgn : g_vals s !! v = None). { apply eq_None_not_Some. intros Hs. apply HnS. apply (iv_sv _ _ _ _ I). by left. }
  assert (Hf : ∀ (A : Type) (g : option N → rr A),
    ((match g_vals s !! v with Some x => Done (Some x) | None => match g_cur s with None => Done None
       | Some _ => '(_, i) ← cur_info s; Done (gi_vals i !! v) end end) ≫= g) = g None).
  { intros A g. rewrite Hgn. destruct (g_cur s) as [c|] eqn:Hc; [|done].
    destruct (cur_info_go _ _ _ _ I Hc) as (i & Hi & ->). simpl. replace (gi_vals i !! v) with (@None N); [done|].
    symmetry. apply eq_None_not_Some. intros Hs. apply HnS. apply (iv_sv _ _ _ _ I). right. by exists c, i. }
  rewrite Hf. clear Hf. rewrite Hrd. cbn [mjoin option_join need mbind rr_bind].
  destruct (ho_val _ _ HH _ _ Hrd) as (d' & Hd' & T1 & T2 & T3). rewrite (value_of_det p HR _ _ _ Hd' Hd) in *. rewrite T1, T2, T3.
  assert (Hro : ∀ t, t ∈ refs (v_kind d) → owned p S s t) by (intros t Ht; exact (refs_owned p HR S O s v d t I Ho Hd Hgn Ht)).
  destruct (Hr (1 + k)%N O s I Hro) as (xs & s0 & E0 & L0). { eapply left_mono; [|exact Hl]. simpl. lia. }
  destruct (each_ok p _ _ (gen_spec p h HR HH n) _ _ _ _ _ E0 I Hro) as (o' & W' & I1 & G1 & C1 & P1).
  rewrite (walk_det p HR _ _ _ W' _ W) in I1. clear o' W'.
  assert (Hno : TVal v ∉ o).
  { simpl in Ho. destruct (g_cur s) as [c|] eqn:Hc.
    - destruct (iv_cur _ _ _ _ I _ Hc) as [Hci Hrdy]. destruct Ho as [Ho|(fd & d1 & Hf & Hd1 & Hcon)].
      { destruct (Hrdy _ Ho) as [? Hx]. by rewrite Hgn in Hx. }
      assert (d1 = d) as -> by (apply (value_of_det p HR v); [right; by exists c, fd|done]).
      eapply (no_reentry_local p HR c fd v d S o Hf Hd1 Hk); [by apply (iv_sf _ _ _ _ I)|apply (iv_acc _ _ _ _ I)|exact Hcon|exact W].
    - eapply (no_reentry_global p HR v d S o); [by apply (global_data p HR)|apply (iv_acc _ _ _ _ I)|exact W]. }
  assert (HnSo : TVal v ∉ S ++ o). { intros Hin. apply elem_of_app in Hin as [?|?]; contradiction. }
  assert (Hgn0 : g_vals s0 !! v = None).
  { apply eq_None_not_Some. intros Hs. apply HnSo. apply (iv_sv _ _ _ _ I1). by left. }
  assert (Ht : ∃ E, has_type E (v_kind d) (v_ty d)).
  { destruct Hd as [Hg|(f & fd & Hf & Hv)]; [eexists; by apply (proj1 (rg_typed _ HR) _ _ Hg)|].
    pose proof (proj2 (rg_typed _ HR) _ _ _ _ Hf Hv) as Ht. rewrite Hk in Ht. by eexists. }
  destruct Ht as [E Ht].
  destruct (gen_kind_go _ _ _ _ _ _ _ Hk Ht E0) as (r & Eg & Hren & Hty & Hlr & Hgr).
  destruct (value_go (S ++ o) O s0 v d r k I1) as (x & s1 & s2 & Em & Ek & Lk).
  - eapply (owned_grows p S); [|exact G1|exact C1|exact Ho]. intros ? ?. apply elem_of_app. by left.
  - exact Hd.
  - exact Hgn0.
  - exact Hk.
  - apply Hren. eapply list.Forall2_impl; [exact P1|]. intros [u|u|u] z Hz; exact Hz.
  - exact Hty.
  - exact Hlr.
  - exact Hgr.
  - exact L0.
  - exists x, s2. rewrite Eg, Em. cbn [mbind rr_bind]. rewrite Ek. done.
Qed.
Lemma block_one n S b d is o : TBlk b ∉ S → block_of p b d is → filled h (TBlk b) → (∀ v, v ∈ bb_params d → filled h (TVal v)) →
  runs_insts n (S ++ TBlk b :: (TVal <$> bb_params d)) (TVal <$> is) o →
  one (Datatypes.S n) S (TBlk b) ((TBlk b :: (TVal <$> bb_params d)) ++ o).
Proof.
  intros HnS Hd [rd Hrd] Hps Hr k O s I (c & fd & Hc & Hf & Hbf) Hl. cbn [raw_gen].
  destruct (cur_info_go _ _ _ _ I Hc) as (i & Hi & Eci). rewrite Eci. cbn [mbind rr_bind].
  assert (Hb : gi_bbs i !! b = None).
  { apply eq_None_not_Some. intros Hs. apply HnS. apply (iv_sb _ _ _ _ I). by exists c, i. }
  rewrite Hb, Hrd. cbn [mjoin option_join need mbind rr_bind].
  destruct (ho_bb _ _ HH _ _ Hrd) as (d' & Hd' & T1 & T2). destruct (block_of_det p HR _ _ _ _ _ Hd Hd') as [<- Eis]. rewrite T1, T2, <- Eis.
  destruct Hd as (f' & fd' & Hf' & Hbd & Hlist). assert (f' = c) as -> by (eapply (rg_own_bb _ HR f' c); [done|done|by eexists|done]).
  rewrite Hf in Hf'. injection Hf' as <-.
  destruct (raw_params_go _ Hps) as [ps Eps]. rewrite Eps. cbn [mbind rr_bind].
  pose proof (raw_params_ok p h _ HH _ Eps) as Hdat. pose proof Hdat as [Hlen _].
  destruct (iv_f _ _ _ _ I _ _ Hi) as (fd0 & z & K1 & K2 & K3 & K4). rewrite Hf in K1. injection K1 as <-.
  destruct (new_bb_go (gi_func i) (bb_name d) ps z (set_world (g_world s) (bstate0 (w_ids (g_world s)) 0 0)) (N.of_nat (length o) + k)%N)
    as (x & w1 & E1 & L1).
  { exact K2. }
  { apply name_ok_valid. intros nm Hn. by apply (bu_bname _ _ HB c fd b d nm Hf Hbd). }
  { eapply params_names; [exact Hdat|]. intros v dv Hv Hdv. destruct (bb_params_kind p HR _ _ _ _ _ Hf Hbd Hv) as (d1 & j & Hd1 & Hk1).
    eapply (param_ty c fd v d1); [done|done|by rewrite Hk1|done]. }
  { simpl. eapply left_mono; [|exact Hl]. simpl. rewrite app_length, fmap_length. lia. }
  simpl in E1. rewrite E1. cbn [need mbind rr_bind].
  destruct (view_new_bb _ _ _ _ _ _ _ E1 (iv_room _ _ _ _ I)) as (y0 & m & vs & Hon & Hx & _).
  pose proof (proj1 Hon) as Hy. rewrite K2 in Hy. injection Hy as <-.
  pose proof (only_after _ _ _ _ _ Hon) as Ha.
  destruct (push_bb_go _ _ x _ Ha) as (w2 & E2 & Ei2).
  { simpl. intros Hin. apply elem_of_list_fmap in Hin as ([x' is'] & -> & Hin). apply elem_of_list_lookup in Hin as [j Hj].
    destruct (Forall2_lookup_r _ _ _ _ _ (fi_lay _ _ _ _ _ _ _ _ K3) Hj) as (b' & _ & Hb' & _). simpl in Hb', Hx.
    destruct (fi_b _ _ _ _ _ _ _ _ K3 _ _ Hb') as (? & ? & _ & Hw & _). by rewrite Hx in Hw. }
  rewrite E2. cbn [need mbind rr_bind].
  assert (Hxs : ∃ xs, (fd' ← p_funcs (w_prog w2) !! gi_func i; bb_params <$> d_bbs (f_dfg fd') !! x) = Some xs).
  { destruct (view_push_bb _ _ _ _ E2) as (y1 & Ho2). pose proof (only_after _ _ _ _ _ Ho2) as Hf2.
    pose proof (proj1 Ho2) as Hf1. rewrite Ha in Hf1. apply (inj Some) in Hf1. subst y1.
    rewrite lookup_fmap in Hf2. apply fmap_Some in Hf2 as (fd2 & Hf2 & E). rewrite Hf2. simpl. apply (f_equal w_bbs) in E. simpl in E.
    assert (Hq : is_Some (bvm (blks fd2) !! x)) by (rewrite <- E, lookup_insert; by eexists). rewrite lookup_fmap in Hq.
    destruct (blks fd2 !! x) as [q|]; [|by destruct Hq]. by exists (bb_params q). }
  destruct Hxs as [xs Hxs]. rewrite Hxs. cbn [need mbind rr_bind].
  destruct (step_bb p HR S O s c i fd b d ps x w1 w2 xs I Hi Hf Hbd HnS Hdat E1 E2 Hxs) as [I1 G1].
  set (s1 := put_info c _ _) in *.
  assert (Hphi : phi s1 (TBlk b) x).
  { eexists c, _. simpl. split; [done|]. rewrite lookup_insert. split; [done|]. simpl. apply lookup_insert. }
  destruct (Hr b x c fd [] is k (<[b := []]> O) s1 eq_refl) as (s' & E' & L').
  { by apply (bu_insts _ _ HB c fd b). }
  { done. }
  { done. }
  { exact I1. }
  { exact Hc. }
  { exact Hphi. }
  { apply elem_of_app. right. by left. }
  { by rewrite lookup_insert. }
  { simpl. by rewrite Ei2. }
  exists x, s'. rewrite E'. done.
Qed.
Lemma fun_one n S f fd o : TFunc f ∉ S → p_funcs p !! f = Some fd → filled h (TFunc f) → (∀ v, v ∈ f_params fd → filled h (TVal v)) →
  runs n (S ++ TFunc f :: (TVal <$> f_params fd)) (TBlk <$> (l_bbs (f_layout fd)).*1) o →
  one (Datatypes.S n) S (TFunc f) ((TFunc f :: (TVal <$> f_params fd)) ++ o).
Proof.
  intros HnS Hf [rd Hrd] Hps Hr k O s I Ho Hl. cbn [raw_gen]. simpl in Ho.
  assert (Hi : g_funcs s !! f = None). { apply eq_None_not_Some. intros Hs. apply HnS. by apply (iv_sf _ _ _ _ I). }
  rewrite Hi, Hrd. cbn [mjoin option_join need mbind rr_bind].
  destruct (ho_fun _ _ HH _ _ Hrd) as (fd' & Hf' & T1 & T2 & T3 & T4). rewrite Hf in Hf'. injection Hf' as <-.
  destruct (rg_params _ HR _ _ Hf) as (ts & r & Ety & Hpar). rewrite T1, T2, T3, Ety.
  assert (Hu : Forall (λ t, t ≠ TUnit) ts).
  { apply list.Forall_forall. intros t Ht ->. exact (bu_unit _ _ HB _ _ _ _ Hf Ety Ht). }
  assert (Hnew : ∃ y w1, match rf_bbs rd with
    | [] => need (w_new_func_decl (f_name fd) ts r (g_world s))
    | _ => if decide (length (f_params fd) = length ts) then
             ps ← raw_params h (f_params fd);
             need (w_new_func_def (f_name fd) (zip ps.*1 ts) r (g_world s))
           else Fails EFuncParamNumMismatch end = Done (y, w1) ∧ left_in (N.of_nat (length o) + k) (w_ids w1) ∧
    is_Some (p_funcs (w_prog w1) !! y)).
  { destruct (rf_bbs rd) as [|b0 bs0] eqn:Eb.
    - destruct (new_func_decl_go (f_name fd) ts r (N.of_nat (length o) + k)%N (g_world s)) as (y & w1 & E1 & L1); [|done| |].
      + apply (bu_fname _ _ HB _ _ Hf).
      + eapply left_mono; [|exact Hl]. simpl. rewrite app_length. lia.
      + exists y, w1. rewrite E1. split; [done|]. split; [done|].
        destruct (view_new_decl _ _ _ _ _ _ _ E1 (iv_room _ _ _ _ I)) as (_ & W2 & _).
        assert (Hx : is_Some (fvs w1 !! y)) by (rewrite W2, lookup_insert; by eexists).
        rewrite lookup_fmap in Hx. by apply fmap_is_Some in Hx.
    - rewrite decide_False in Hpar by (intros E; rewrite E in T4; discriminate T4). destruct Hpar as [Hlen Hpar].
      rewrite decide_True by done. destruct (raw_params_go _ Hps) as [ps Eps]. rewrite Eps. cbn [mbind rr_bind].
      pose proof (raw_params_ok p h _ HH _ Eps) as Hdat. pose proof Hdat as [Hlp _].
      assert (Hnames : Forall (λ q : option string * ty, valid_opt_name q.1 = true ∧ q.2 ≠ TUnit) ps).
      { eapply params_names; [exact Hdat|]. intros v dv Hv Hdv. destruct (params_kind p HR _ _ _ Hf Hv) as (d1 & j & Hd1 & Hk1).
        eapply (param_ty f fd v d1); [done|done|by rewrite Hk1|done]. }
      destruct (new_func_def_go (f_name fd) (zip ps.*1 ts) r (N.of_nat (length o) + k)%N (g_world s)) as (y & w1 & E1 & L1).
      + apply (bu_fname _ _ HB _ _ Hf).
      + apply list.Forall_forall. intros [q t] Hq. split; simpl.
        * apply elem_of_zip_l in Hq. apply elem_of_list_fmap in Hq as (e & -> & He). rewrite list.Forall_forall in Hnames. by apply Hnames.
        * apply elem_of_zip_r in Hq. rewrite list.Forall_forall in Hu. by apply Hu.
      + eapply left_mono; [|exact Hl]. rewrite zip_with_length, fmap_length. simpl. rewrite app_length, fmap_length. lia.
      + exists y, w1. rewrite E1. split; [done|]. split; [done|].
        destruct (view_new_def _ _ _ _ _ _ _ E1 (iv_room _ _ _ _ I)) as (m & vs & _ & W2 & _).
        assert (Hx : is_Some (fvs w1 !! y)) by (rewrite W2, lookup_insert; by eexists).
        rewrite lookup_fmap in Hx. by apply fmap_is_Some in Hx. }
  destruct Hnew as (y & w1 & E1 & L1 & [fd1 Hy]). rewrite E1. cbn [mbind rr_bind]. rewrite Hy. cbn [fmap option_fmap option_map need mbind rr_bind].
  destruct (fun_made p h HR HH S O s f fd (rf_bbs rd) ts r y w1 (f_params fd1) I Hf HnS Ety T4 E1) as (I1 & G1 & F1). { by rewrite Hy. }
  cbv zeta in I1, G1, F1. set (s1 := put_info f _ _) in *. destruct (rf_bbs rd) as [|b0 bs0] eqn:Eb.
  - exists y, s1. split; [done|]. eapply left_mono; [|exact L1]. lia.
  - assert (Hrdy : ready p s1) by (by eapply grows_ready).
    destruct (Hr k O (set_gcur (Some f) s1)) as (xs & s2 & E2 & L2).
    + apply (set_gcur_inv p); [exact I1|]. intros c [= <-]. split; [|done]. destruct F1 as (i & Hi' & _). by exists i.
    + intros t Ht. apply elem_of_list_fmap in Ht as (b & -> & Hin). exists f, fd. split; [done|]. split; [done|].
      by apply (rg_bbs _ HR _ _ _ Hf).
    + exact L1.
    + exists y, (set_gcur (g_cur s) s2). rewrite <- T4 in E2. split; [|done]. match goal with |- context [g_each ?a ?b ?c] => change (g_each a b c) with (g_each (raw_gen h n) (TBlk <$> b0 :: bs0) (set_gcur (Some f) s1)) end. rewrite E2. done.
Qed.
Lemma walk_runs S l o : walk p S l o → (∀ t, t ∈ o → filled h t) → ∀ n, length o < n → runs n S l o ∧ runs_insts n S l o.
Proof.
  induction 1 as [S|S t l o Hin W IH|S v d l o o' Hn Hd Hk W1 IH1 W2 IH2|S b d is l o o' Hn Hd W1 IH1 W2 IH2|S f fd l o o' Hn Hd W1 IH1 W2 IH2];
    intros Hfill n Hlen.
  - split; [apply runs_nil|apply runs_insts_nil].
  - destruct n as [|n]; [lia|]. destruct (IH Hfill (Datatypes.S n) Hlen) as [R1 R2].
    assert (W0 : walk p S [t] []) by (apply W_known; [done|constructor]).
    rewrite <- (app_nil_r S) in R1, R2.
    split; [eapply (runs_cons _ S t l [] o)|eapply (runs_insts_cons _ S t l [] o)]; try done; by apply known_one.
  - rewrite !app_length in Hlen. simpl in Hlen. destruct n as [|n]; [lia|].
    assert (W0 : walk p S [TVal v] (o ++ [TVal v])).
    { rewrite <- (app_nil_r (o ++ [TVal v])). apply (W_value p S v d [] o []); [done|done|done|done|constructor]. }
    destruct (IH1 ltac:(intros t Ht; apply Hfill, elem_of_app; left; apply elem_of_app; by left) n ltac:(lia)) as [R1 _].
    destruct (IH2 ltac:(intros t Ht; apply Hfill, elem_of_app; by right) (Datatypes.S n) ltac:(lia)) as [R2 R3].
    assert (H1 : one (Datatypes.S n) S (TVal v) (o ++ [TVal v])).
    { apply (value_one n S v d o Hn Hd Hk W1); [|done]. apply Hfill, elem_of_app. left. apply elem_of_app. right. by left. }
    split; [by apply runs_cons|by apply runs_insts_cons].
  - rewrite !app_length in Hlen. simpl in Hlen. destruct n as [|n]; [lia|].
    assert (W0 : walk p S [TBlk b] ((TBlk b :: (TVal <$> bb_params d)) ++ o)).
    { rewrite <- (app_nil_r (_ ++ o)). apply (W_block p S b d is [] o []); [done|done|done|constructor]. }
    destruct (IH1 ltac:(intros t Ht; apply Hfill, elem_of_app; left; apply elem_of_app; by right) n ltac:(lia)) as [_ R1].
    destruct (IH2 ltac:(intros t Ht; apply Hfill, elem_of_app; by right) (Datatypes.S n) ltac:(lia)) as [R2 R3].
    assert (H1 : one (Datatypes.S n) S (TBlk b) ((TBlk b :: (TVal <$> bb_params d)) ++ o)).
    { apply (block_one n S b d is o Hn Hd); [| |done].
      - apply Hfill, elem_of_app. left. apply elem_of_app. left. by left.
      - intros v Hv. apply Hfill, elem_of_app. left. apply elem_of_app. left. right. by apply elem_of_list_fmap_1. }
    split; [by apply runs_cons|by apply runs_insts_cons].
  - rewrite !app_length in Hlen. simpl in Hlen. destruct n as [|n]; [lia|].
    assert (W0 : walk p S [TFunc f] ((TFunc f :: (TVal <$> f_params fd)) ++ o)).
    { rewrite <- (app_nil_r (_ ++ o)). apply (W_func p S f fd [] o []); [done|done|done|constructor]. }
    destruct (IH1 ltac:(intros t Ht; apply Hfill, elem_of_app; left; apply elem_of_app; by right) n ltac:(lia)) as [R1 _].
    destruct (IH2 ltac:(intros t Ht; apply Hfill, elem_of_app; by right) (Datatypes.S n) ltac:(lia)) as [R2 R3].
    assert (H1 : one (Datatypes.S n) S (TFunc f) ((TFunc f :: (TVal <$> f_params fd)) ++ o)).
    { apply (fun_one n S f fd o Hn Hd); [| |done].
      - apply Hfill, elem_of_app. left. apply elem_of_app. left. by left.
      - intros v Hv. apply Hfill, elem_of_app. left. apply elem_of_app. left. right. by apply elem_of_list_fmap_1. }
    split; [by apply runs_cons|by apply runs_insts_cons].
Qed.
Lemma walk_split l2 S l o : walk p S l o → ∀ l1, l = l1 ++ l2 → ∃ o1 o2, o = o1 ++ o2 ∧ walk p S l1 o1 ∧ walk p (S ++ o1) l2 o2.
Proof.
  assert (Hbase : ∀ S l o, walk p S l o → ∃ o1 o2, o = o1 ++ o2 ∧ walk p S [] o1 ∧ walk p (S ++ o1) l o2).
  { intros S' l' o' H. exists [], o'. split; [done|]. split; [constructor|]. by rewrite app_nil_r. }
  induction 1 as [S|S t l o Hin W IH|S v d l o o' Hn Hd Hk W1 _ W2 IH2|S b d is l o o' Hn Hd W1 _ W2 IH2|S f fd l o o' Hn Hd W1 _ W2 IH2];
    intros l1 El; (destruct l1 as [|t1 l1]; [simpl in El; subst l2; apply Hbase|]).
  - constructor.
  - discriminate El.
  - by apply W_known.
  - simpl in El. injection El as <- ->. destruct (IH l1 eq_refl) as (o1 & o2 & -> & A & B). exists o1, o2. split; [done|]. split; [by apply W_known|done].
  - by eapply W_value.
  - simpl in El. injection El as <- ->. destruct (IH2 l1 eq_refl) as (o1 & o2 & -> & A & B). exists ((o ++ [TVal v]) ++ o1), o2. rewrite (app_assoc _ o1 o2). split; [done|].
    split; [by eapply W_value|]. rewrite <- (app_assoc S) in B. exact B.
  - by eapply W_block.
  - simpl in El. injection El as <- ->. destruct (IH2 l1 eq_refl) as (o1 & o2 & -> & A & B). exists (((TBlk b :: (TVal <$> bb_params d)) ++ o) ++ o1), o2. rewrite (app_assoc _ o1 o2). split; [done|].
    split; [by eapply W_block|]. rewrite <- (app_assoc S) in B. exact B.
  - by eapply W_func.
  - simpl in El. injection El as <- ->. destruct (IH2 l1 eq_refl) as (o1 & o2 & -> & A & B). exists (((TFunc f :: (TVal <$> f_params fd)) ++ o) ++ o1), o2. rewrite (app_assoc _ o1 o2). split; [done|].
    split; [by eapply W_func|]. rewrite <- (app_assoc S) in B. exact B.
Qed.
Lemma generate_go i n r o : discovered p o → (∀ t, t ∈ o → filled h t) → length o < n →
  r_values r = p_inst_layout p → r_funcs r = p_func_layout p → counting i →
  (next_gv i + N.of_nat (base.size (p_values p)) ≤ local_value_id_starts_from)%N →
  left_in (N.of_nat (length o)) i → ∃ p' i', generate_program i n r h = Done (p', i').
Proof.
  intros Ho Hfill Hn E1 E2 C Hsz Hl. unfold generate_program. rewrite E1, E2. unfold discovered in Ho.
  destruct (walk_split _ _ _ _ Ho _ eq_refl) as (o1 & o2 & -> & W1 & W2). rewrite app_length in *.
  pose proof (inv_start p i C Hsz) as I0. set (s0 := GSt (World i program0) ∅ ∅ None) in *.
  assert (Ho1 : ∀ t, t ∈ TVal <$> p_inst_layout p → owned p [] s0 t).
  { intros t Ht. apply elem_of_list_fmap in Ht as (v & -> & Hv). simpl. by apply (rg_layout _ HR). }
  destruct (walk_runs _ _ _ W1 ltac:(intros t Ht; apply Hfill, elem_of_app; by left) n ltac:(lia)) as [R1 _].
  destruct (R1 (N.of_nat (length o2)) ∅ s0 I0 Ho1) as (xs & s1 & H1 & L1). { simpl. eapply left_mono; [|exact Hl]. lia. }
  destruct (each_ok p _ _ (gen_spec p h HR HH n) _ _ _ _ _ H1 I0 Ho1) as (o1' & W1' & I1 & G1 & C1 & P1).
  rewrite (walk_det p HR _ _ _ W1' _ W1) in I1.
  assert (Hr : ready p s1).
  { intros v Hv. apply elem_of_list_lookup in Hv as [j Hj].
    destruct (Forall2_lookup_l _ _ _ j (TVal v) P1) as (x & _ & Hx). { by rewrite list_lookup_fmap, Hj. }
    destruct Hx as [Hx|(c & ? & Hc & _)]; [by eexists|]. by rewrite C1 in Hc. }
  destruct (walk_runs _ _ _ W2 ltac:(intros t Ht; apply Hfill, elem_of_app; by right) n ltac:(lia)) as [R2 _].
  destruct (R2 0%N ∅ s1 I1) as (ys & s2 & H2 & L2).
  { intros t Ht. apply elem_of_list_fmap in Ht as (v & -> & Hv). exact Hr. }
  { eapply left_mono; [|exact L1]. lia. }
  rewrite H1. cbn [mbind rr_bind]. rewrite H2. by eexists _, _.
Qed.
End go.

(** The raw form can be made and read back. *)
Lemma raw_total ord p o i : regular p → discovered p o → buildable p o → lists_sets ord → counting i →
  (next_gv i + N.of_nat (base.size (p_values p)) ≤ local_value_id_starts_from)%N → numbers_left (N.of_nat (length o)) i →
  ∀ nb ng, length o < nb → length o < ng →
  ∃ r h p' i', build_on ord nb p = Done (r, h) ∧ generate_program i ng r h = Done (p', i').
Proof.
  intros HR Ho HB Hord C Hsz Hl nb ng Hnb Hng. destruct (make_program ord p o HR HB Ho Hord nb Hnb) as (r & h & Eb & Hfill).
  destruct (build_on_ok _ _ _ _ _ Eb) as (HH & E1 & E2).
  destruct (generate_go p h o HR HH HB i ng r o Ho Hfill Hng E1 E2 C Hsz Hl) as (p' & i' & Eg). by exists r, h, p', i'.
Qed.
Lemma raw_any_order_total ord p o i nb ng : regular p → discovered p o → buildable p o → lists_sets ord →
  counting i → (next_gv i + N.of_nat (base.size (p_values p)) ≤ local_value_id_starts_from)%N →
  numbers_left (N.of_nat (length o)) i → length o < nb → length o < ng →
  ∃ r h p' i', build_on ord nb p = Done (r, h) ∧ generate_program i ng r h = Done (p', i') ∧
    isomorphic_as (allocs_in p o) (funcs_in o) (blocks_in p o) p p' ∧
    (∀ f, f ∈ p_func_layout p → f ∈ funcs_in o) ∧
    (∀ f b, f ∈ funcs_in o → b ∈ listed_blocks p f → b ∈ blocks_in p o f).
Proof.
  intros HR Ho HB Hord C Hsz Hl Hnb Hng. destruct (raw_total ord p o i HR Ho HB Hord C Hsz Hl nb ng Hnb Hng) as (r & h & p' & i' & Eb & Eg).
  exists r, h, p', i'. split; [done|]. split; [done|].
  destruct (raw_any_order _ _ _ _ _ _ _ _ _ HR C Hsz Eb Eg) as (o' & Ho' & H). by rewrite (walk_det p HR _ _ _ Ho _ Ho').
Qed.
Lemma raw_round_trip_total ord p o i nb ng : regular p → in_discovery_order p → discovered p o → buildable p o → lists_sets ord →
  counting i → (next_gv i + N.of_nat (base.size (p_values p)) ≤ local_value_id_starts_from)%N →
  numbers_left (N.of_nat (length o)) i → length o < nb → length o < ng →
  ∃ r h p' i', build_on ord nb p = Done (r, h) ∧ generate_program i ng r h = Done (p', i') ∧ isomorphic p p'.
Proof.
  intros HR Hd Ho HB Hord C Hsz Hl Hnb Hng. destruct (raw_total ord p o i HR Ho HB Hord C Hsz Hl nb ng Hnb Hng) as (r & h & p' & i' & Eb & Eg).
  exists r, h, p', i'. split; [done|]. split; [done|]. by eapply raw_round_trip.
Qed.
