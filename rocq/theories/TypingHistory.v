(** Programs built with the builders alone are well typed (C11, second part). *)
From Verif Require Import Base IdModel TypeModel IrModel LayoutModel BuilderModel WorldModel
  UsesSpec UsesProofs DfgSpec DfgProofs WorldSpec WorldProofs SkelProofs TypingSpec TypingProofs
  TypeProofs ProgLayoutProofs EqSpec EqHistory.
From Coq Require Import Lia.

Lemma args_match_frame E E' b args :
  args_match E b args →
  (∀ v t, v ∈ args → e_ty E v = Some t → e_ty E' v = Some t) →
  (∀ ps, e_bb E b = Some ps → e_bb E' b = Some ps ∧
     ∀ p t, p ∈ ps → e_ty E p = Some t → e_ty E' p = Some t) →
  args_match E' b args.
Proof.
  intros (ps & Hb & Hf) Ha Hp. destruct (Hp _ Hb) as [Hb' Hp']. exists ps. split; [done|].
  clear Hb Hb' Hp. induction Hf as [|p a ps args (t & H1 & H2) Hf IH]; constructor.
  - exists t. split; [apply Hp'; [by left|done]|apply Ha; [by left|done]].
  - apply IH; [intros v t' Hv; apply Ha; by right|intros v t' Hv; apply Hp'; by right].
Qed.

Lemma has_type_frame E E' k t :
  has_type E k t →
  (∀ v t, v ∈ operands k → e_ty E v = Some t → e_ty E' v = Some t) →
  (∀ v, v ∈ operands k → e_const E v = true → e_const E' v = true) →
  (∀ b ps, b ∈ targets k → e_bb E b = Some ps → e_bb E' b = Some ps ∧
     ∀ p t, p ∈ ps → e_ty E p = Some t → e_ty E' p = Some t) →
  (∀ c a ft, k = KCall c a → e_fun E c = Some ft → e_fun E' c = Some ft) →
  has_type E' k t.
Proof.
  intros H Ht Hc Hb Hf.
  destruct H; simpl in *; try (econstructor; (done || (apply Ht; [set_solver|done]))).
  - constructor; [done|done|]. intros e He. destruct (H1 e He). split; [by apply Ht|by apply Hc].
  - constructor.
    + apply Ht; [by left|done].
    + eapply args_match_frame; [done| |intros ps; apply Hb; by left].
      intros v t' Hv. apply Ht. right. apply elem_of_app. by left.
    + eapply args_match_frame; [done| |intros ps; apply Hb; right; by left].
      intros v t' Hv. apply Ht. right. apply elem_of_app. by right.
    + done.
  - constructor. eapply args_match_frame; [done|done|]. intros ps. apply Hb. by left.
  - econstructor; [by eapply Hf|].
    assert (∀ v t, v ∈ args → e_ty E v = Some t → e_ty E' v = Some t) as Hargs by done.
    clear H Hf Hb Hc Ht. induction H0 as [|p a ps args Ha Hf IH]; constructor.
    + apply Hargs; [by left|done].
    + apply IH. intros v t' Hv. apply Hargs. by right.
Qed.

Lemma has_type_ext E E' k t :
  (∀ v, e_ty E v = e_ty E' v) → (∀ v, e_const E v = e_const E' v) →
  (∀ b, e_bb E b = e_bb E' b) → (∀ f, e_fun E f = e_fun E' f) →
  has_type E k t → has_type E' k t.
Proof.
  intros H1 H2 H3 H4 H. eapply has_type_frame; [done|..].
  - intros v t' _. by rewrite H1.
  - intros v _. by rewrite H2.
  - intros b ps _. rewrite H3. intros ->. split; [done|]. intros p t' _. by rewrite H1.
  - intros c a ft _. by rewrite H4.
Qed.

Lemma has_type_operands E k t :
  has_type E k t → ∀ v, v ∈ operands k → is_Some (e_ty E v).
Proof.
  assert (∀ (P : N → N → Prop) ps args v, Forall2 P ps args → v ∈ args → ∃ p, p ∈ ps ∧ P p v) as HF.
  { intros P ps args v Hf Hv. apply elem_of_list_lookup in Hv as [i Hi].
    destruct (Forall2_lookup_r _ _ _ _ _ Hf Hi) as (p & Hp & HP). exists p.
    split; [|done]. by eapply elem_of_list_lookup_2. }
  assert (∀ b args v, args_match E b args → v ∈ args → is_Some (e_ty E v)) as HA.
  { intros b args v (ps & _ & Hf) Hv. destruct (HF _ _ _ _ Hf Hv) as (p & _ & t' & _ & ->). by eauto. }
  intros H v Hv. destruct H; simpl in Hv.
  all: repeat (apply elem_of_cons in Hv as [->|Hv]; [by eauto|]); try (by inversion Hv).
  - destruct (H1 v Hv) as [-> _]. by eauto.
  - apply elem_of_app in Hv as [Hv|Hv]; (eapply HA; [|exact Hv]; done).
  - by eapply HA.
  - apply elem_of_list_lookup in Hv as [i Hi].
    destruct (Forall2_lookup_r _ _ _ _ _ H0 Hi) as (p & Hp & ->). by eauto.
Qed.

Lemma has_type_targets E k t :
  has_type E k t → ∀ b, b ∈ targets k → is_Some (e_bb E b).
Proof.
  intros H b Hb. destruct H; simpl in Hb.
  all: repeat (apply elem_of_cons in Hb as [->|Hb]; [|]); try (by inversion Hb).
  - destruct H0 as (ps & -> & _). by eauto.
  - destruct H1 as (ps & -> & _). by eauto.
  - destruct H as (ps & -> & _). by eauto.
Qed.

(** ** Environments from skeletons *)

Definition senv (gs vs : gmap N (ty * vkind)) (bs : gmap N (list N)) (F : N → option ty) : env :=
  Env (λ v, fst <$> (gs ∪ vs) !! v)
      (λ v, match (gs ∪ vs) !! v with Some y => is_const y.2 | None => false end)
      (λ b, bs !! b) F.

Lemma skm_union (gs vs : gmap N vdata) : skm (gs ∪ vs) = skm gs ∪ skm vs.
Proof. apply map_fmap_union. Qed.

Lemma local_env_senv p fd k t :
  has_type (local_env p fd) k t ↔
  has_type (senv (skm (p_values p)) (skm (vals fd)) (pbm (blks fd))
              (λ f, f_ty <$> p_funcs p !! f)) k t.
Proof.
  assert (∀ v, (skm (p_values p) ∪ skm (vals fd)) !! v = sk <$> (p_values p ∪ vals fd) !! v) as Hu.
  { intros v. by rewrite <-skm_union, lookup_fmap. }
  split; apply has_type_ext; simpl; intros x; rewrite ?Hu, ?lookup_fmap; try done;
    by destruct ((p_values p ∪ vals fd) !! x).
Qed.

Lemma global_env_senv p k t :
  has_type (global_env p) k t ↔
  has_type (senv (skm (p_values p)) ∅ ∅ (λ _, None)) k t.
Proof.
  assert (∀ v, (skm (p_values p) ∪ ∅) !! v = sk <$> p_values p !! v) as Hu.
  { intros v. by rewrite right_id_L, lookup_fmap by apply _. }
  split; apply has_type_ext; simpl; intros x; rewrite ?Hu, ?lookup_fmap; try done;
    by destruct (p_values p !! x).
Qed.

Definition okv (E : env) (y : ty * vkind) : Prop :=
  if is_param y.2 then y.1 ≠ TUnit else has_type E y.2 y.1.

Lemma okv_frame E E' y :
  okv E y →
  (∀ v t, v ∈ operands y.2 → e_ty E v = Some t → e_ty E' v = Some t) →
  (∀ v, v ∈ operands y.2 → e_const E v = true → e_const E' v = true) →
  (∀ b ps, b ∈ targets y.2 → e_bb E b = Some ps → e_bb E' b = Some ps ∧
     ∀ p t, p ∈ ps → e_ty E p = Some t → e_ty E' p = Some t) →
  (∀ c a ft, y.2 = KCall c a → e_fun E c = Some ft → e_fun E' c = Some ft) →
  okv E' y.
Proof. unfold okv. destruct (is_param y.2); [done|]. apply has_type_frame. Qed.

(** Parameters of different blocks are different values, all created before. *)
Definition params_ok (hi : N) (bs : gmap N (list N)) : Prop :=
  (∀ b b' ps ps' p, bs !! b = Some ps → bs !! b' = Some ps' → p ∈ ps → p ∈ ps' → b = b') ∧
  (∀ b ps p, bs !! b = Some ps → p ∈ ps → (local_value_id_starts_from ≤ p < hi)%N).

Definition fok (hi : N) (gs vs : gmap N (ty * vkind)) (bs : gmap N (list N))
    (F : N → option ty) : Prop :=
  (∀ v y, vs !! v = Some y → okv (senv gs vs bs F) y) ∧ params_ok hi bs.

Definition gok (gs : gmap N (ty * vkind)) : Prop :=
  ∀ v y, gs !! v = Some y → has_type (senv gs ∅ ∅ (λ _, None)) y.2 y.1.

Definition tinv (i : ids) (p : program) : Prop :=
  gok (skm (p_values p)) ∧
  ∀ f fd, p_funcs p !! f = Some fd →
    fok (ub (next_lv i)) (skm (p_values p)) (skm (vals fd)) (pbm (blks fd))
      (λ f, f_ty <$> p_funcs p !! f).

Lemma tinv_well_typed i p : tinv i p → well_typed p.
Proof.
  intros (Hg & Hf). split.
  - intros v d Hv. apply global_env_senv. apply (Hg v (sk d)). by rewrite lookup_fmap, Hv.
  - intros f fd v d Hfd Hv. destruct (Hf f fd Hfd) as [H _].
    specialize (H v (sk d)). rewrite lookup_fmap, Hv in H. specialize (H eq_refl).
    unfold okv in H. simpl in H. destruct (is_param (v_kind d)); [done|].
    by apply local_env_senv.
Qed.

Lemma params_ok_mono hi hi' bs : (hi ≤ hi')%N → params_ok hi bs → params_ok hi' bs.
Proof. intros Hle [H1 H2]. split; [done|]. intros b ps p Hb Hp. specialize (H2 b ps p Hb Hp). lia. Qed.

(** Replacing the data flow graph of one function. *)
Lemma tinv_set_func i p f fd i' gs' g' :
  tinv i p → p_funcs p !! f = Some fd → skm gs' = skm (p_values p) →
  (ub (next_lv i) ≤ ub (next_lv i'))%N →
  fok (ub (next_lv i')) (skm (p_values p)) (skm (d_values g')) (pbm (d_bbs g'))
    (λ f, f_ty <$> p_funcs p !! f) →
  tinv i' (set_func (set_values p gs') f (set_dfg fd g')).
Proof.
  intros (H1 & H3) Hf Hg Hle Hok.
  assert (∀ f', f_ty <$> <[f := set_dfg fd g']> (p_funcs p) !! f' = f_ty <$> p_funcs p !! f') as Hty.
  { intros f'. destruct (decide (f' = f)) as [->|]; [by rewrite lookup_insert, Hf|].
    by rewrite lookup_insert_ne. }
  assert (∀ hi vs bs,
    fok hi (skm (p_values p)) vs bs (λ f, f_ty <$> p_funcs p !! f) →
    fok hi (skm gs') vs bs (λ f', f_ty <$> <[f := set_dfg fd g']> (p_funcs p) !! f')) as Hx.
  { intros hi vs bs [Ha Hb]. split; [|done]. intros v y Hy. specialize (Ha v y Hy).
    eapply okv_frame; [done|..]; simpl; rewrite ?Hg; try done.
    intros c a ft _. by rewrite Hty. }
  split; simpl; [by rewrite Hg|].
  intros f' fd' Hf'. destruct (decide (f' = f)) as [->|Hne].
  - rewrite lookup_insert in Hf'. injection Hf' as <-. by apply Hx.
  - rewrite lookup_insert_ne in Hf' by done. apply Hx.
    destruct (H3 _ _ Hf') as [Ha Hb]. split; [done|]. by eapply params_ok_mono.
Qed.

Lemma lookup_union_fresh (gs vs : gmap N (ty * vkind)) v y x z :
  vs !! v = None → gs !! v = None →
  (gs ∪ vs) !! x = Some z → (gs ∪ <[v := y]> vs) !! x = Some z.
Proof.
  intros Hv Hg. rewrite !lookup_union_Some_raw. intros [?|[? Hx]]; [by left|].
  right. split; [done|]. rewrite lookup_insert_ne; [done|]. intros <-. congruence.
Qed.

(** Adding a well-typed fresh value. *)
Lemma fok_insert hi hi' gs vs bs F v y :
  fok hi gs vs bs F → vs !! v = None → gs !! v = None → (hi ≤ hi')%N →
  okv (senv gs vs bs F) y → fok hi' gs (<[v := y]> vs) bs F.
Proof.
  intros [H1 H2] Hv Hg Hle Hy. split; [|by eapply params_ok_mono].
  assert (∀ z, okv (senv gs vs bs F) z → okv (senv gs (<[v := y]> vs) bs F) z) as Hmono.
  { assert (∀ x t, fst <$> (gs ∪ vs) !! x = Some t →
                   fst <$> (gs ∪ <[v := y]> vs) !! x = Some t) as Ht.
    { intros x t Hx. apply fmap_Some in Hx as (z & Hx & ->).
      by rewrite (lookup_union_fresh gs vs v y x z). }
    intros z Hz. eapply okv_frame; [done|..]; simpl.
    - intros x t _. apply Ht.
    - intros x _ Hx. destruct ((gs ∪ vs) !! x) as [c|] eqn:E; [|done].
      by rewrite (lookup_union_fresh gs vs v y x c).
    - intros b ps _ Hb. split; [done|]. intros x t _. apply Ht.
    - done. }
  intros x z Hx. apply Hmono. destruct (decide (x = v)) as [->|Hne].
  - rewrite lookup_insert in Hx. by injection Hx as <-.
  - rewrite lookup_insert_ne in Hx by done. by eapply H1.
Qed.

(** What the local querier knows is the environment. *)
Lemma local_querier_env p fd k t :
  (∀ f, p_func_tys p !! f = f_ty <$> p_funcs p !! f) →
  has_type (env_of (local_querier (p_values p) (p_func_tys p) (f_dfg fd))) k t ↔
  has_type (local_env p fd) k t.
Proof.
  intros Hf.
  assert (∀ v, dfg_data (p_values p) (f_dfg fd) v = (p_values p ∪ vals fd) !! v) as Hd.
  { intros v. unfold dfg_data. destruct (p_values p !! v) eqn:E.
    - by rewrite (lookup_union_Some_l _ _ _ _ E).
    - by rewrite lookup_union_r. }
  split; apply has_type_ext; simpl; intros x; rewrite ?Hd, ?Hf; try done;
    by destruct ((p_values p ∪ vals fd) !! x).
Qed.

Lemma global_querier_env p k t :
  has_type (env_of (global_querier p)) k t ↔ has_type (global_env p) k t.
Proof.
  split; apply has_type_ext; simpl; intros x; try done; by destruct (p_values p !! x).
Qed.

Lemma q_ok_local gs ft g : q_ok (local_querier gs ft g).
Proof. intros v. simpl. by rewrite !fmap_is_Some. Qed.

Lemma q_ok_global p : q_ok (global_querier p).
Proof. intros v. simpl. by rewrite !fmap_is_Some. Qed.

Lemma requested_not_param r : is_param (requested r) = false.
Proof. by destruct r. Qed.

Lemma requested_users r d : d = new_vdata (v_ty d) (requested r) → v_kind d = requested r.
Proof. intros ->. done. Qed.

(** A value nothing uses can go: the typing of the others does not mention it. *)
Lemma fok_delete hi gs vs bs F v :
  fok hi gs vs bs F →
  (∀ x y, vs !! x = Some y → v ∉ operands y.2) →
  (∀ b ps, bs !! b = Some ps → v ∉ ps) →
  fok hi gs (delete v vs) bs F.
Proof.
  intros [H1 H2] Hu Hp. split; [|done]. intros x y Hx. apply lookup_delete_Some in Hx as [Hne Hx].
  assert (∀ z, z ≠ v → (gs ∪ delete v vs) !! z = (gs ∪ vs) !! z) as Hl.
  { intros z Hz. apply option_eq. intros c. rewrite !lookup_union_Some_raw.
    by rewrite lookup_delete_ne. }
  eapply okv_frame; [by eapply H1|..]; simpl.
  - intros z t Hz. rewrite Hl; [done|]. intros ->. by eapply Hu.
  - intros z Hz. rewrite Hl; [done|]. intros ->. by eapply Hu.
  - intros b ps _ Hb. split; [done|]. intros z t Hz. rewrite Hl; [done|].
    intros ->. by eapply Hp.
  - done.
Qed.

Lemma uses_skm m u v : uses m u v ↔ ∃ y, skm m !! u = Some y ∧ v ∈ operands y.2.
Proof.
  split.
  - intros (d & Hd & Hv). exists (sk d). by rewrite lookup_fmap, Hd.
  - intros (y & Hy & Hv). rewrite lookup_fmap in Hy. apply fmap_Some in Hy as (d & Hd & ->).
    by exists d.
Qed.

Lemma ub_mono_next i v i' :
  next_local_value_id i = Some (v, i') → (next_lv i < two32)%N →
  (ub (next_lv i) ≤ ub (next_lv i'))%N.
Proof.
  intros H Hlt. apply next_local_spec in H as (-> & Hne & ->). simpl.
  rewrite ub_next by done. unfold ub. destruct (N.eqb_spec (next_lv i) 0); lia.
Qed.

Lemma new_local_tinv w F f r v w' :
  winv (w_ids w) (w_prog w) F → pinv (w_ids w) (w_prog w) → tinv (w_ids w) (w_prog w) →
  w_new_local f r w = Some (v, w') → tinv (w_ids w') (w_prog w').
Proof.
  intros HW HP HT H.
  apply on_dfg_inv in H as (fd & i' & gs' & g' & Hf & H & ->).
  apply bind_Some in H as (d & Hd & H).
  assert (Hf' : F !! f = Some fd) by (eapply lookup_weaken; [done|apply HW]).
  pose proof (winv_dstate _ _ _ _ _ HW Hf') as Hst.
  apply new_value_sk in H as (Hid & E1 & E2 & E3 & Hex).
  destruct (fresh_local _ _ _ _ _ _ Hst Hid) as (Fr1 & Fr2 & _).
  assert (ub (next_lv (w_ids w)) ≤ ub (next_lv i'))%N as Hle.
  { eapply ub_mono_next; [done|]. apply HW. }
  simpl. eapply tinv_set_func; [done|done|done|done|].
  rewrite E2, E3. eapply fok_insert; [exact (proj2 HT _ _ Hf)| | |done|].
  - by rewrite lookup_fmap, Fr1.
  - by rewrite lookup_fmap, Fr2.
  - apply build_sound in Hd as (-> & Hty & _). simpl in Hty. unfold okv, sk. simpl.
    rewrite requested_not_param. apply local_env_senv. apply local_querier_env; [apply HP|done].
Qed.

Lemma replace_tinv w F f v r w' :
  winv (w_ids w) (w_prog w) F → pinv (w_ids w) (w_prog w) → tinv (w_ids w) (w_prog w) →
  builders_only (OReplace f v r) w →
  w_replace f v r w = Some w' → tinv (w_ids w') (w_prog w').
Proof.
  intros HW HP HT [_ Hb] H. unfold w_replace in H.
  apply bind_Some in H as ([[] w1] & H & Hw). injection Hw as <-.
  apply on_dfg_inv in H as (fd & i' & gs' & g' & Hf & H & ->).
  apply bind_Some in H as (d & Hd & H). apply bind_Some in H as ([gs1 g1] & H & Hx).
  injection Hx as <- <- <-.
  assert (Hf' : F !! f = Some fd) by (eapply lookup_weaken; [done|apply HW]).
  pose proof (winv_dstate _ _ _ _ _ HW Hf') as Hst.
  apply replace_sk in H as ([old Hold] & E1 & E2 & E3 & _).
  destruct (Hb fd old Hf Hold) as (Hty & Hrt & Hc).
  pose proof Hty as Hty'.
  rewrite <-local_querier_env in Hty' by apply HP.
  pose proof (build_complete _ r _ (q_ok_local _ _ _) Hty' Hrt) as Hd'.
  rewrite Hd in Hd'. injection Hd' as ->.
  simpl. eapply tinv_set_func; [done|done|done|done|].
  rewrite E2, E3. set (y := sk (new_vdata (v_ty old) (requested r))).
  destruct HT as [Hg HT]. destruct (HT f fd Hf) as [H1 H2]. split; [|done].
  assert (p_values (w_prog w) !! v = None) as Hgv.
  { destruct (p_values (w_prog w) !! v) eqn:E; [|done].
    assert (is_Some (p_values (w_prog w) !! v)) as Hs by eauto.
    apply (ds_gid _ _ _ _ Hst) in Hs. assert (is_Some (vals fd !! v)) as Hs' by eauto.
    apply (ds_lid _ _ _ _ Hst) in Hs'. lia. }
  set (gs := skm (p_values (w_prog w))) in *. set (vs := skm (vals fd)) in *.
  assert (gs !! v = None) as Gv by (subst gs; by rewrite lookup_fmap, Hgv).
  assert (vs !! v = Some (sk old)) as Vv by (subst vs; by rewrite lookup_fmap, Hold).
  assert (∀ x z, (gs ∪ vs) !! x = Some z → ∃ z', (gs ∪ <[v := y]> vs) !! x = Some z' ∧
    z'.1 = z.1 ∧ (is_const z.2 = true → is_const z'.2 = true)) as Hl.
  { intros x z Hx. destruct (decide (x = v)) as [->|Hne].
    - exists y. rewrite lookup_union_r, lookup_insert by done. split; [done|].
      rewrite lookup_union_r, Vv in Hx by done. injection Hx as <-. split; [done|]. exact Hc.
    - exists z. split; [|done]. apply lookup_union_Some_raw.
      rewrite lookup_insert_ne by done. by apply lookup_union_Some_raw. }
  assert (∀ z, okv (senv gs vs (pbm (blks fd)) (λ f, f_ty <$> p_funcs (w_prog w) !! f)) z →
     okv (senv gs (<[v := y]> vs) (pbm (blks fd)) (λ f, f_ty <$> p_funcs (w_prog w) !! f)) z) as Hm.
  { assert (∀ x t, fst <$> (gs ∪ vs) !! x = Some t →
                   fst <$> (gs ∪ <[v := y]> vs) !! x = Some t) as Ht.
    { intros x t Hx. apply fmap_Some in Hx as (z & Hx & ->).
      apply Hl in Hx as (z' & -> & <- & _). done. }
    intros z Hz. eapply okv_frame; [done|..]; simpl.
    - intros x t _. apply Ht.
    - intros x _ Hx. destruct ((gs ∪ vs) !! x) as [c|] eqn:E; [|done].
      apply Hl in E as (z' & -> & _ & Hcc). by apply Hcc.
    - intros b ps _ Hbb. split; [done|]. intros x t _. apply Ht.
    - done. }
  intros x z Hx. apply Hm. destruct (decide (x = v)) as [->|Hne].
  - rewrite lookup_insert in Hx. injection Hx as <-. unfold okv, y, sk. simpl.
    rewrite requested_not_param. by apply local_env_senv.
  - rewrite lookup_insert_ne in Hx by done. by eapply H1.
Qed.

Lemma remove_local_tinv w F f v d w' :
  winv (w_ids w) (w_prog w) F → tinv (w_ids w) (w_prog w) →
  builders_only (ORemoveLocal f v) w →
  w_remove_local f v w = Some (d, w') → tinv (w_ids w') (w_prog w').
Proof.
  intros HW HT Hb H.
  apply on_dfg_inv in H as (fd & i' & gs' & g' & Hf & H & ->).
  apply bind_Some in H as ([[d1 gs1] g1] & H & Hx). injection Hx as <- <- <- <-.
  assert (Hf' : F !! f = Some fd) by (eapply lookup_weaken; [done|apply HW]).
  apply remove_value_sk in H as (Hd & Hu & E1 & E2 & E3).
  simpl. eapply tinv_set_func; [done|done|done|done|].
  rewrite E2, E3. apply fok_delete; [exact (proj2 HT _ _ Hf)| |].
  - intros x y Hx Hin.
    assert (uses (vals fd) x v) as Hux by (apply uses_skm; by eauto).
    apply (wi_loc _ _ _ HW f fd v d1 Hf' Hd) in Hux. rewrite Hu in Hux. set_solver.
  - intros b ps Hps. rewrite lookup_fmap in Hps. apply fmap_Some in Hps as (bd & Hbd & ->).
    by eapply Hb.
Qed.

Lemma new_bb_tinv w F f n ps b w' :
  winv (w_ids w) (w_prog w) F → tinv (w_ids w) (w_prog w) →
  w_new_bb f n ps w = Some (b, w') → tinv (w_ids w') (w_prog w').
Proof.
  intros HW HT H.
  apply on_dfg_inv in H as (fd & i' & gs' & g' & Hf & H & ->).
  assert (Hf' : F !! f = Some fd) by (eapply lookup_weaken; [done|apply HW]).
  pose proof (winv_dstate _ _ _ _ _ HW Hf') as Hst.
  unfold basic_block_with_param_names in H.
  apply bind_Some in H as ([] & _ & H). apply bind_Some in H as ([] & Has & H).
  apply bind_Some in H as ([[[vs i1] gs1] g1] & Ha & H).
  apply bind_Some in H as ([[b1 i2] g2] & Hb & H). injection H as <- <- <- <-.
  pose proof (new_block_args_post _ _ _ _ _ _ _ _ _ _ Hst Ha) as HP.
  eapply new_block_args_sk in Ha as (E1 & E2 & E3 & E4 & E5); [|done].
  unfold dfg_new_bb_data in Hb. apply bind_Some in Hb as ([b2 i3] & Hid & Hb).
  injection Hb as <- <- <-. simpl in *.
  apply next_bb_spec in Hid as (-> & Hne & ->).
  simpl. eapply tinv_set_func; [done|done|done| |]; simpl.
  { apply HP. }
  destruct HT as [Hg HT]. destruct (HT f fd Hf) as [H1 [H2 H3]].
  set (gs := skm (p_values (w_prog w))) in *.
  assert (pbm (blks fd) !! next_bb i1 = None) as Hnb.
  { rewrite lookup_fmap. destruct (blks fd !! next_bb i1) eqn:E; [|done].
    assert (is_Some (blks fd !! next_bb i1)) as Hs by eauto.
    apply (ds_bid _ _ _ _ Hst) in Hs. pose proof (dp_bb _ _ _ _ _ _ _ HP). 
    assert (ub (next_bb i1) = next_bb i1) by (unfold ub; by destruct (N.eqb_spec (next_bb i1) 0)).
    lia. }
  rewrite fmap_insert, E2. simpl.
  split.
  - assert (∀ x z, (gs ∪ skm (vals fd)) !! x = Some z → (gs ∪ skm (d_values g1)) !! x = Some z) as Hl.
    { intros x [t k] Hx. apply lookup_union_Some_raw. apply lookup_union_Some_raw in Hx as [?|[? Hx]].
      - by left.
      - right. split; [done|]. by apply E3. }
    assert (∀ x t, fst <$> (gs ∪ skm (vals fd)) !! x = Some t →
                   fst <$> (gs ∪ skm (d_values g1)) !! x = Some t) as Ht.
    { intros x t Hx. apply fmap_Some in Hx as (z & Hx & ->). by apply Hl in Hx as ->. }
    intros x [t k] Hx. destruct (E4 x t k Hx) as [Hx'|(_ & (n' & Hin) & j & ->)].
    + specialize (H1 _ _ Hx'). eapply okv_frame; [done|..]; simpl.
      * intros ? ? _. apply Ht.
      * intros y _ Hy. destruct ((gs ∪ skm (vals fd)) !! y) as [c|] eqn:E; [|done].
        apply Hl in E as ->. done.
      * intros b' ps' _ Hb'. split.
        -- rewrite lookup_insert_ne; [done|]. intros <-. congruence.
        -- intros ? ? _. apply Ht.
      * done.
    + unfold okv. simpl. apply assert_Some in Has. rewrite forallb_forall in Has.
      intros ->. apply elem_of_list_In, Has in Hin. simpl in Hin. done.
  - split.
    + intros b1 b2 ps1 ps2 q Hb1 Hb2 Hq1 Hq2.
      destruct (decide (b1 = next_bb i1)) as [->|Hn1], (decide (b2 = next_bb i1)) as [->|Hn2].
      * done.
      * rewrite lookup_insert in Hb1. rewrite lookup_insert_ne in Hb2 by done.
        injection Hb1 as <-. pose proof (H3 _ _ _ Hb2 Hq2). apply E5 in Hq1. lia.
      * rewrite lookup_insert in Hb2. rewrite lookup_insert_ne in Hb1 by done.
        injection Hb2 as <-. pose proof (H3 _ _ _ Hb1 Hq1). apply E5 in Hq2. lia.
      * rewrite lookup_insert_ne in Hb1, Hb2 by done. by eapply H2.
    + intros b1 ps1 q Hb1 Hq. destruct (decide (b1 = next_bb i1)) as [->|Hn1].
      * rewrite lookup_insert in Hb1. injection Hb1 as <-. apply E5 in Hq.
        pose proof (proj1 (ds_lv _ _ _ _ Hst)). lia.
      * rewrite lookup_insert_ne in Hb1 by done. pose proof (H3 _ _ _ Hb1 Hq).
        pose proof (dp_lv _ _ _ _ _ _ _ HP). lia.
Qed.

Lemma remove_bb_tinv w F f b d w' :
  winv (w_ids w) (w_prog w) F → tinv (w_ids w) (w_prog w) →
  w_remove_bb f b w = Some (d, w') → tinv (w_ids w') (w_prog w').
Proof.
  intros HW HT H.
  apply on_dfg_inv in H as (fd & i' & gs' & g' & Hf & H & ->).
  apply bind_Some in H as ([bd g1] & H & Hx). injection Hx as <- <- <- <-.
  assert (Hf' : F !! f = Some fd) by (eapply lookup_weaken; [done|apply HW]).
  apply dfg_remove_bb_effect in H as (Hb & Hub & Hbs & Hvs & Hps).
  simpl. eapply tinv_set_func; [done|done|done|done|].
  destruct HT as [Hg HT]. destruct (HT f fd Hf) as [H1 [H2 H3]].
  set (gs := skm (p_values (w_prog w))) in *.
  assert (pbm (blks fd) !! b = Some (bb_params bd)) as Hpb by (by rewrite lookup_fmap, Hb).
  rewrite Hbs, fmap_delete.
  assert (∀ x, x ∉ bb_params bd → (gs ∪ skm (d_values g1)) !! x = (gs ∪ skm (vals fd)) !! x) as Hl.
  { intros x Hx. apply option_eq. intros c. rewrite !lookup_union_Some_raw, !lookup_fmap.
    by rewrite Hvs, decide_False. }
  split.
  - intros x y Hx. rewrite lookup_fmap, Hvs in Hx.
    destruct (decide (x ∈ bb_params bd)) as [|Hnx]; [done|].
    assert (skm (vals fd) !! x = Some y) as Hx' by (by rewrite lookup_fmap).
    assert (∀ z, z ∈ operands y.2 → z ∉ bb_params bd) as Hno.
    { intros z Hz Hin. destruct (Hps z Hin) as (dz & Hdz & Huz).
      assert (uses (vals fd) x z) as Hu by (apply uses_skm; by eauto).
      apply (wi_loc _ _ _ HW f fd z dz Hf' Hdz) in Hu. rewrite Huz in Hu. set_solver. }
    eapply okv_frame; [by eapply H1|..]; simpl.
    + intros z t Hz. rewrite Hl; [done|]. by apply Hno.
    + intros z Hz. rewrite Hl; [done|]. by apply Hno.
    + intros b' ps Hb' Hps'.
      assert (b' ≠ b) as Hne.
      { intros ->. rewrite lookup_fmap in Hx'. apply fmap_Some in Hx' as (dx & Hdx & ->).
        assert (jumps_to (vals fd) x b) as Hj by (by exists dx).
        apply (wi_bb _ _ _ HW f fd b bd Hf' Hb) in Hj. rewrite Hub in Hj. set_solver. }
      split; [by rewrite lookup_delete_ne|].
      intros z t Hz. rewrite Hl; [done|]. intros Hin. apply Hne. by eapply H2.
    + done.
  - split.
    + intros b1 b2 ps1 ps2 q Hb1 Hb2. apply lookup_delete_Some in Hb1 as [_ Hb1].
      apply lookup_delete_Some in Hb2 as [_ Hb2]. by eapply H2.
    + intros b1 ps1 q Hb1. apply lookup_delete_Some in Hb1 as [_ Hb1]. by eapply H3.
Qed.

Lemma new_global_tinv w F r v w' :
  winv (w_ids w) (w_prog w) F → tinv (w_ids w) (w_prog w) →
  (next_gv (w_ids w) < local_value_id_starts_from)%N →
  w_new_global r w = Some (v, w') → tinv (w_ids w') (w_prog w').
Proof.
  intros HW [Hg HT] Hlt H. unfold w_new_global in H. apply bind_Some in H as (d & Hd & H).
  unfold w_new_global_data, global_insert_value in H.
  apply bind_Some in H as ([[v1 i1] p1] & H & Hw). injection Hw as <- <-.
  apply bind_Some in H as ([[v2 i2] p2] & H & Hw). injection Hw as <- <- <-.
  unfold prog_new_value_data in H.
  apply bind_Some in H as ([v3 i3] & Hid & H).
  apply bind_Some in H as (gs' & Hgs & H). injection H as <- <- <-.
  apply next_global_spec in Hid as (-> & _ & ->).
  rewrite value_uses_operands in Hgs. apply upd_guses_sk in Hgs as [Hgs _].
  apply build_sound in Hd as (Hd & Hty & _). rewrite global_querier_env, global_env_senv in Hty.
  set (v := next_gv (w_ids w)) in *. set (gs := skm (p_values (w_prog w))) in *.
  assert (gs !! v = None) as Hv.
  { subst gs. rewrite lookup_fmap. destruct (p_values (w_prog w) !! v) eqn:E; [|done].
    assert (is_Some (p_values (w_prog w) !! v)) as Hs by eauto.
    apply (wi_gid _ _ _ HW) in Hs. lia. }
  assert (∀ vs : gmap N (ty * vkind), vs !! v = None → ∀ x z, (gs ∪ vs) !! x = Some z → (<[v := sk d]> gs ∪ vs) !! x = Some z) as Hl.
  { intros vs Hvs x z Hx. apply lookup_union_Some_raw in Hx as [Hx|[Hx Hx']].
    - apply lookup_union_Some_l. rewrite lookup_insert_ne; [done|]. congruence.
    - assert (x ≠ v) by congruence. rewrite lookup_union_r; [done|]. by rewrite lookup_insert_ne. }
  assert (∀ vs bs F' y, vs !! v = None → okv (senv gs vs bs F') y →
    okv (senv (<[v := sk d]> gs) vs bs F') y) as Hm.
  { intros vs bs F' y Hvs Hy.
    assert (∀ x t, fst <$> (gs ∪ vs) !! x = Some t →
                   fst <$> (<[v := sk d]> gs ∪ vs) !! x = Some t) as Ht.
    { intros x t Hx. apply fmap_Some in Hx as (z & Hx & ->). by apply Hl in Hx as ->. }
    eapply okv_frame; [done|..]; simpl.
    - intros x t _. apply Ht.
    - intros x _ Hx. destruct ((gs ∪ vs) !! x) as [c|] eqn:E; [|done]. by apply Hl in E as ->.
    - intros b ps _ Hb. split; [done|]. intros x t _. apply Ht.
    - done. }
  assert (∀ y, has_type (senv gs ∅ ∅ (λ _, None)) y.2 y.1 →
    has_type (senv (<[v := sk d]> gs) ∅ ∅ (λ _, None)) y.2 y.1) as Hm'.
  { intros [t k] Hy. specialize (Hm ∅ ∅ (λ _, None) (t, k)). unfold okv in Hm. simpl in *.
    destruct (is_param k) eqn:Ek; [by inversion Hy; subst|]. by apply Hm. }
  assert (tinv (Ids ((v + 1) `mod` two32) (next_lv (w_ids w)) (next_bb (w_ids w)) (next_fn (w_ids w)))
    (Program (<[v := d]> gs') (p_inst_layout (w_prog w))
    (p_funcs (w_prog w)) (p_func_tys (w_prog w)) (p_func_layout (w_prog w)))) as Ho.
  { unfold tinv. simpl. rewrite skm_insert, Hgs. split.
    - intros x y Hx. apply Hm'. destruct (decide (x = v)) as [->|Hne].
      + rewrite lookup_insert in Hx. injection Hx as <-. rewrite Hd. exact Hty.
      + rewrite lookup_insert_ne in Hx by done. by eapply Hg.
    - intros f fd Hf. destruct (HT f fd Hf) as [H1 H2]. split; [|done].
      intros x y Hx. apply Hm; [|by eapply H1].
      rewrite lookup_fmap. destruct (vals fd !! v) eqn:E; [|done].
      assert (Hf' : F !! f = Some fd) by (eapply lookup_weaken; [done|apply HW]).
      assert (is_Some (vals fd !! v)) as Hs by eauto.
      pose proof (wi_lid _ _ _ HW _ _ _ Hf' Hs). lia. }
  simpl. by destruct (is_global_alloc (v_kind d)).
Qed.

Lemma remove_global_tinv w F v d w' :
  winv (w_ids w) (w_prog w) F → tinv (w_ids w) (w_prog w) →
  w_remove_global v w = Some (d, w') → tinv (w_ids w') (w_prog w').
Proof.
  intros HW [Hg HT] H.
  unfold w_remove_global in H. apply bind_Some in H as ([d1 p1] & H & Hw). injection Hw as <- <-.
  unfold prog_remove_value in H. apply bind_Some in H as (d2 & Hd & H).
  apply bind_Some in H as (il & _ & H). apply bind_Some in H as ([] & Has & H).
  apply assert_Some, bool_decide_eq_true in Has.
  apply bind_Some in H as (gs' & Hgs & H). injection H as <- <-. simpl.
  apply upd_guses_sk in Hgs as [Hgs _]. rewrite fmap_delete in Hgs.
  unfold tinv. simpl. rewrite Hgs. set (gs := skm (p_values (w_prog w))) in *.
  assert (Hno : ∀ u, ¬ (uses (p_values (w_prog w)) u v ∨
    ∃ f fd, F !! f = Some fd ∧ uses (vals fd) u v)).
  { intros u Hu. apply (wi_glob _ _ _ HW _ _ Hd) in Hu. rewrite Has in Hu. set_solver. }
  assert (∀ vs : gmap N (ty * vkind), ∀ x, x ≠ v →
    (delete v gs ∪ vs) !! x = (gs ∪ vs) !! x) as Hl.
  { intros vs x Hne. apply option_eq. intros c. by rewrite !lookup_union_Some_raw, lookup_delete_ne. }
  split.
  - intros x y Hx. apply lookup_delete_Some in Hx as [Hne Hx].
    assert (v ∉ operands y.2) as Hv.
    { intros Hin. apply (Hno x). left. apply uses_skm. by eauto. }
    eapply has_type_frame; [by eapply Hg|..]; simpl.
    + intros z t Hz. rewrite Hl; [done|]. by intros ->.
    + intros z Hz. rewrite Hl; [done|]. by intros ->.
    + done.
    + done.
  - intros f fd Hf. destruct (HT f fd Hf) as [H1 [H2 H3]]. split; [|done].
    assert (Hf' : F !! f = Some fd) by (eapply lookup_weaken; [done|apply HW]).
    intros x y Hx.
    assert (v ∉ operands y.2) as Hv.
    { intros Hin. apply (Hno x). right. exists f, fd. split; [done|]. apply uses_skm. by eauto. }
    eapply okv_frame; [by eapply H1|..]; simpl.
    + intros z t Hz. rewrite Hl; [done|]. by intros ->.
    + intros z Hz. rewrite Hl; [done|]. by intros ->.
    + intros b ps _ Hb. split; [done|]. intros z t Hz. rewrite Hl; [done|]. intros ->.
      pose proof (H3 _ _ _ Hb Hz). assert (is_Some (p_values (w_prog w) !! v)) as Hs by eauto.
      apply (wi_gid _ _ _ HW) in Hs. pose proof (wi_gv _ _ _ HW). lia.
    + done.
Qed.

Lemma new_func_tinv i0 p F i d f i' p' :
  winv i0 p F → tinv i0 p → (ub (next_lv i0) ≤ ub (next_lv i))%N → next_fn i = next_fn i0 →
  blks d = ∅ →
  (∀ x y, skm (vals d) !! x = Some y → is_param y.2 = true ∧ y.1 ≠ TUnit) →
  prog_new_func i p d = Some (f, i', p') → tinv i' p'.
Proof.
  intros HW [Hg HT] Hle Hfn Hbs Hvs H. unfold prog_new_func in H.
  apply bind_Some in H as ([f1 i1] & Hid & H). injection H as <- <- <-.
  apply next_func_spec in Hid as (-> & Hne & ->).
  assert (p_funcs p !! next_fn i = None) as Hf1.
  { destruct (p_funcs p !! next_fn i) as [x|] eqn:E; [|done].
    assert (is_Some (F !! next_fn i)) as Hs by (exists x; eapply lookup_weaken; [done|apply HW]).
    apply (wi_fid _ _ _ HW) in Hs. rewrite <-Hfn in Hs. unfold ub in Hs.
    destruct (N.eqb_spec (next_fn i) 0); lia. }
  split; simpl; [done|]. intros f' fd' Hf'. destruct (decide (f' = next_fn i)) as [->|Hn].
  - rewrite lookup_insert in Hf'. injection Hf' as <-. rewrite Hbs, fmap_empty. split.
    + intros x y Hx. apply Hvs in Hx as [H1 H2]. unfold okv. by rewrite H1.
    + split; by intros.
  - rewrite lookup_insert_ne in Hf' by done. destruct (HT _ _ Hf') as [H1 H2].
    split; [|by eapply params_ok_mono]. intros x y Hx.
    eapply okv_frame; [by eapply H1|..]; simpl; try done.
    intros c a ft _ Hc. rewrite lookup_insert_ne; [done|]. intros <-. by rewrite Hf1 in Hc.
Qed.

Lemma step_tinv o w w' F :
  winv (w_ids w) (w_prog w) F → pinv (w_ids w) (w_prog w) →
  (creates_global o = true → (next_gv (w_ids w) < local_value_id_starts_from)%N) →
  builders_only o w → tinv (w_ids w) (w_prog w) →
  step o w = Some w' → tinv (w_ids w') (w_prog w').
Proof.
  intros HW HP Hc Hb HT H. destruct o; cbn [step] in *; try done.
  - apply fmap_Some in H as ([v w1] & H & ->). simpl. by eapply new_local_tinv.
  - by eapply replace_tinv.
  - apply fmap_Some in H as ([d w1] & H & ->). simpl. by eapply remove_local_tinv.
  - unfold w_name_local in H. apply bind_Some in H as ([[] w1] & H & Hw). injection Hw as <-.
    apply on_dfg_inv in H as (fd & i' & gs' & g' & Hf & H & ->).
    apply bind_Some in H as (g1 & H & Hx). injection Hx as <- <- <-.
    apply set_value_name_sk in H as [E1 E2].
    simpl. eapply tinv_set_func; [done|done|done|done|]. rewrite E1, E2. exact (proj2 HT _ _ Hf).
  - apply fmap_Some in H as ([b w1] & H & ->). simpl. by eapply new_bb_tinv.
  - apply fmap_Some in H as ([d w1] & H & ->). simpl. by eapply remove_bb_tinv.
  - apply fmap_Some in H as ([v w1] & H & ->). simpl. eapply new_global_tinv; [done|done| |done].
    by apply Hc.
  - apply fmap_Some in H as ([d w1] & H & ->). simpl. by eapply remove_global_tinv.
  - unfold w_name_global in H. apply bind_Some in H as (p1 & H & Hw). injection Hw as <-.
    unfold prog_set_value_name in H. apply bind_Some in H as (d & Hd & H).
    apply bind_Some in H as (d' & Hs & H). injection H as <-.
    unfold set_name in Hs. destruct (valid_opt_name n); [|done].
    injection Hs as <-. unfold tinv. simpl. rewrite skm_insert. rewrite insert_id; [done|].
    by rewrite lookup_fmap, Hd.
  - apply fmap_Some in H as ([f w1] & H & ->). simpl.
    unfold w_new_func_def in H. apply bind_Some in H as ([[f1 i1] p1] & H & Hw). injection Hw as <- <-.
    unfold prog_new_func_def in H. apply bind_Some in H as ([d i2] & Hd & H). simpl.
    unfold fdata_with_param_names in Hd. apply bind_Some in Hd as ([] & Has & Hd).
    apply bind_Some in Hd as ([[vs i3] g3] & Ha & Hd). injection Hd as <- <-.
    pose proof (new_func_args_post _ _ _ _ _ _ _ (dstate_empty _ _ _ HW) Ha) as Hpost.
    eapply new_func_args_sk in Ha as [Hbb Ha]; [|by eapply dstate_empty].
    eapply new_func_tinv; [exact HW|exact HT|exact (dp_lv _ _ _ _ _ _ _ Hpost)|exact (dp_fn _ _ _ _ _ _ _ Hpost)| | |exact H]; [exact Hbb|]. simpl.
    intros x [t k] Hx. destruct (Ha _ _ _ Hx) as [Hx'|((n' & Hin) & j & ->)].
    + simpl in Hx'. rewrite lookup_fmap, lookup_empty in Hx'. done.
    + split; [done|]. simpl. intros ->. unfold check_sanity in Has.
      apply bind_Some in Has as ([] & _ & Has). apply assert_Some in Has.
      rewrite forallb_forall in Has.
      apply elem_of_list_In in Hin. apply (in_map snd) in Hin. by apply Has in Hin.
  - apply fmap_Some in H as ([f w1] & H & ->). simpl.
    unfold w_new_func_decl in H. apply bind_Some in H as ([[f1 i1] p1] & H & Hw). injection Hw as <- <-.
    unfold prog_new_func_decl in H. apply bind_Some in H as (d & Hd & H). simpl.
    unfold fdata_new_decl in Hd. apply bind_Some in Hd as ([] & _ & Hd). injection Hd as <-.
    eapply new_func_tinv; [exact HW|exact HT|done|done| | |exact H]; [done|]. simpl.
    intros x y Hx. by rewrite lookup_fmap, lookup_empty in Hx.
  - apply fmap_Some in H as ([d w1] & H & ->). simpl.
    unfold w_remove_func in H. apply bind_Some in H as ([d1 p1] & H & Hw). injection Hw as <- <-.
    unfold prog_remove_func in H. apply bind_Some in H as (fl & _ & H). injection H as <- <-.
    destruct HT as [H1 H2]. split; simpl; [done|]. intros f' fd' Hf'.
    apply lookup_delete_Some in Hf' as [Hne Hf']. destruct (H2 _ _ Hf') as [Ha Hp].
    split; [|done]. intros x y Hx. eapply okv_frame; [by eapply Ha|..]; simpl; try done.
    intros c a ft Hk Hcf. rewrite lookup_delete_ne; [done|]. intros <-.
    rewrite lookup_fmap in Hx. apply fmap_Some in Hx as (dx & Hdx & ->).
    by eapply (Hb f' fd' x dx a).
Qed.

Lemma run_tinv os : ∀ w w' F,
  winv (w_ids w) (w_prog w) F → pinv (w_ids w) (w_prog w) →
  throughout tidy os w → throughout builders_only os w →
  (next_gv (w_ids w) + globals_created os ≤ local_value_id_starts_from)%N →
  tinv (w_ids w) (w_prog w) →
  run os w = Some w' → tinv (w_ids w') (w_prog w').
Proof.
  induction os as [|o os IH]; intros w w' F HW HP Hok Hbo Hg Ht H.
  - simpl in H. by injection H as <-.
  - simpl in H, Hok, Hbo. destruct Hok as [Hok1 Hok2], Hbo as [Hbo1 Hbo2].
    apply bind_Some in H as (w1 & H1 & H).
    rewrite globals_created_cons in Hg.
    assert (creates_global o = true → (next_gv (w_ids w) < local_value_id_starts_from)%N) as Hlt.
    { intros Hc. rewrite Hc in Hg. lia. }
    destruct (step_winv o w w1 F HW Hok1) as (Hgv & F' & HW' & _); [done|done|].
    eapply (IH w1 w' F'); [done|by eapply step_pinv|by apply Hok2|by apply Hbo2| | |done].
    + rewrite Hgv. lia.
    + by eapply (step_tinv o w w1 F).
Qed.

Lemma reach_well_typed os w :
  run os world0 = Some w → throughout tidy os world0 → throughout builders_only os world0 →
  (globals_created os < local_value_id_starts_from)%N →
  well_typed (w_prog w).
Proof.
  intros Hr Ht Hb Hg. eapply (tinv_well_typed (w_ids w)).
  eapply (run_tinv os world0 w ∅); [apply winv0|apply pinv0|done|done| | |done].
  - unfold world0, ids0. simpl. unfold global_value_id_starts_from. lia.
  - split; [|by intros ???]. intros v y Hv. simpl in Hv. rewrite fmap_empty in Hv. done.
Qed.

(** Single calls: a builder method succeeds exactly when its rule can be applied. *)
Lemma upd_uses_ok f us : ∀ gs vs,
  (∀ u, u ∈ us → is_Some (gs !! u) ∨ is_Some (vs !! u)) → is_Some (upd_uses f us gs vs).
Proof.
  induction us as [|u us IH]; intros gs vs H; simpl; [by eauto|].
  assert (∃ gs1 vs1, data_mut_used f u gs vs = Some (gs1, vs1) ∧
    (∀ x, is_Some (gs !! x) → is_Some (gs1 !! x)) ∧ (∀ x, is_Some (vs !! x) → is_Some (vs1 !! x)))
    as (gs1 & vs1 & E & H1 & H2).
  { unfold data_mut_used. destruct (gs !! u) as [d|] eqn:E1.
    - eexists _, _. split; [done|]. split; [|done]. intros x Hx.
      destruct (decide (x = u)) as [->|]; [rewrite lookup_insert; by eauto|].
      by rewrite lookup_insert_ne.
    - destruct (vs !! u) as [d|] eqn:E2.
      + eexists _, _. split; [done|]. split; [done|]. intros x Hx.
        destruct (decide (x = u)) as [->|]; [rewrite lookup_insert; by eauto|].
        by rewrite lookup_insert_ne.
      + destruct (H u ltac:(by left)) as [[? ?]|[? ?]]; congruence. }
  rewrite E. simpl. apply IH. intros x Hx. destruct (H x ltac:(by right)); auto.
Qed.

Lemma upd_bb_uses_ok f us : ∀ bs,
  (∀ u, u ∈ us → is_Some (bs !! u)) → is_Some (upd_bb_uses f us bs).
Proof.
  induction us as [|u us IH]; intros bs H; simpl; [by eauto|].
  destruct (H u ltac:(by left)) as [d Hd]. rewrite Hd. simpl. apply IH.
  intros x Hx. destruct (decide (x = u)) as [->|]; [rewrite lookup_insert; by eauto|].
  rewrite lookup_insert_ne by done. apply H. by right.
Qed.

Lemma new_local_iff w f fd r :
  (∀ f, p_func_tys (w_prog w) !! f = f_ty <$> p_funcs (w_prog w) !! f) →
  next_lv (w_ids w) ≠ 0%N → p_funcs (w_prog w) !! f = Some fd →
  is_Some (w_new_local f r w) ↔
  ∃ t, has_type (local_env (w_prog w) fd) (requested r) t ∧ requested_ty r t.
Proof.
  intros Hft Hn Hf. unfold w_new_local, on_dfg. rewrite Hf. simpl. split.
  - intros [[v w'] H]. apply bind_Some in H as ([[[a i'] gs'] g'] & H & _).
    apply bind_Some in H as (d & Hd & _). apply build_sound in Hd as (_ & Hty & Hr).
    exists (v_ty d). split; [|done]. by apply local_querier_env.
  - intros (t & Hty & Hr).
    assert (build (local_querier (p_values (w_prog w)) (p_func_tys (w_prog w)) (f_dfg fd)) r
            = Some (new_vdata t (requested r))) as ->.
    { apply build_complete; [apply q_ok_local| |done]. by apply local_querier_env. }
    cbn [mbind option_bind]. unfold dfg_new_value_data, next_local_value_id, fetch_add1, new_unchecked.
    destruct (N.eqb_spec (next_lv (w_ids w)) 0) as [|_]; [done|].
    cbn [mbind option_bind]. cbn [v_kind new_vdata].
    rewrite value_uses_operands, bb_uses_targets.
    edestruct (upd_uses_ok (add_user (next_lv (w_ids w))) (operands (requested r))
      (p_values (w_prog w)) (vals fd)) as [[gs' vs'] ->].
    { intros u Hu. eapply has_type_operands in Hu; [|done]. simpl in Hu.
      apply fmap_is_Some, lookup_union_is_Some in Hu. done. }
    cbn [mbind option_bind].
    edestruct (upd_bb_uses_ok (add_user (next_lv (w_ids w))) (targets (requested r))
      (blks fd)) as [bs' ->].
    { intros u Hu. eapply has_type_targets in Hu; [|done]. simpl in Hu.
      by apply fmap_is_Some in Hu. }
    cbn [mbind option_bind]. by eauto.
Qed.

Lemma new_local_typed w f fd r v w' :
  (∀ f, p_func_tys (w_prog w) !! f = f_ty <$> p_funcs (w_prog w) !! f) →
  p_funcs (w_prog w) !! f = Some fd → w_new_local f r w = Some (v, w') →
  ∃ fd' t, p_funcs (w_prog w') !! f = Some fd' ∧ vals fd' !! v = Some (new_vdata t (requested r)) ∧
    has_type (local_env (w_prog w) fd) (requested r) t ∧ requested_ty r t.
Proof.
  intros Hft Hf H. unfold w_new_local, on_dfg in H. rewrite Hf in H. simpl in H.
  apply bind_Some in H as ([[[a i'] gs'] g'] & H & Hw). injection Hw as <- <-. simpl.
  rewrite lookup_insert. apply bind_Some in H as (d & Hd & H).
  apply build_sound in Hd as (Hd & Hty & Hr).
  eexists _, (v_ty d). split; [done|]. split; [|split; [by apply local_querier_env|done]].
  unfold dfg_new_value_data in H. apply bind_Some in H as ([v1 i1] & _ & H).
  apply bind_Some in H as ([gs1 vs1] & _ & H). apply bind_Some in H as (bs1 & _ & H).
  injection H as <- <- <- <-. simpl. rewrite lookup_insert. by rewrite <-Hd.
Qed.
