(** The state of the generator: what is made so far is a renamed part of the program. *)
From Coq Require Import Lia ZifyBool ZifyNat ZifyN.
From Verif Require Import Base IdModel TypeModel IrModel LayoutModel BuilderModel WorldModel FrontModel
  UsesSpec UsesProofs DfgSpec DfgProofs WorldSpec WorldProofs TypingSpec TypingProofs TypingHistory HistoryProofs ViewProofs
  RawModel RawSpec RawBuildProofs RawWalkProofs.
(* names of this development that ViewProofs' imports hide *)
Notation is_param := TypingSpec.is_param.

(** ** Small facts *)
Lemma renamed_mono (V V' B B' F F' : N → N → Prop) k k' :
  (∀ a b, V a b → V' a b) → (∀ a b, B a b → B' a b) → (∀ a b, F a b → F' a b) →
  renamed V B F k k' → renamed V' B' F' k k'.
Proof.
  intros HV HB HF. assert (HL : ∀ l l', Forall2 V l l' → Forall2 V' l l') by (intros l l' Hl; eapply list.Forall2_impl; [exact Hl|exact HV]).
  destruct 1; constructor; auto.
Qed.
Lemma zip_into_cons k v ks vs m : zip_into (k :: ks) (v :: vs) m = zip_into ks vs (<[k := v]> m).
Proof. done. Qed.
Lemma zip_into_ne ks : ∀ vs m k, k ∉ ks → zip_into ks vs m !! k = m !! k.
Proof.
  induction ks as [|k0 ks IH]; intros [|v vs] m k Hk; try done. rewrite zip_into_cons.
  apply not_elem_of_cons in Hk as [H1 H2]. rewrite IH by done. by rewrite lookup_insert_ne.
Qed.
Lemma zip_into_at ks : ∀ vs m j k, NoDup ks → length ks = length vs → ks !! j = Some k → zip_into ks vs m !! k = vs !! j.
Proof.
  induction ks as [|k0 ks IH]; intros [|v vs] m j k Hnd Hl Hj; try done.
  rewrite zip_into_cons. apply list.NoDup_cons in Hnd as [Hn Hnd]. destruct j as [|j]; simpl in *.
  - injection Hj as ->. rewrite zip_into_ne by done. by rewrite lookup_insert.
  - apply IH; [done|lia|done].
Qed.
Lemma zip_into_sub ks vs m : (∀ k, k ∈ ks → m !! k = None) → m ⊆ zip_into ks vs m.
Proof.
  intros Hn. apply map_subseteq_spec. intros k v Hk. rewrite zip_into_ne; [done|]. intros Hin. by rewrite (Hn _ Hin) in Hk.
Qed.
Lemma zip_into_inv ks vs m k v : NoDup ks → length ks = length vs → zip_into ks vs m !! k = Some v →
  (∃ j, ks !! j = Some k ∧ vs !! j = Some v) ∨ (k ∉ ks ∧ m !! k = Some v).
Proof.
  intros Hnd Hl H. destruct (decide (k ∈ ks)) as [Hin|Hn].
  - left. apply elem_of_list_lookup in Hin as [j Hj]. exists j. split; [done|]. by rewrite <- (zip_into_at _ _ m _ _ Hnd Hl Hj).
  - right. split; [done|]. by rewrite zip_into_ne in H.
Qed.
Lemma zip_into_dom ks vs m k : NoDup ks → length ks = length vs →
  is_Some (zip_into ks vs m !! k) ↔ k ∈ ks ∨ is_Some (m !! k).
Proof.
  intros Hnd Hl. split.
  - intros [v Hv]. destruct (zip_into_inv _ _ _ _ _ Hnd Hl Hv) as [(j & Hj & _)|[_ H]]; [left; by eapply elem_of_list_lookup_2|right; by eexists].
  - destruct (decide (k ∈ ks)) as [Hin|Hn].
    + intros _. apply elem_of_list_lookup in Hin as [j Hj]. rewrite (zip_into_at _ _ _ _ _ Hnd Hl Hj).
      apply lookup_lt_is_Some_2. rewrite <- Hl. by eapply lookup_lt_Some.
    + intros [?|H]; [done|]. by rewrite zip_into_ne.
Qed.
Lemma zip_into_all ks vs m : NoDup ks → length ks = length vs → Forall2 (pairs (zip_into ks vs m)) ks vs.
Proof.
  intros Hnd Hl. apply Forall2_same_length_lookup. split; [done|]. intros j k v Hk Hv. unfold pairs.
  by rewrite (zip_into_at _ _ _ _ _ Hnd Hl Hk).
Qed.

(** ** One function *)
Notation either G Vm := (λ v v', pairs G v v' ∨ pairs Vm v v').
Definition progress (O : gmap N (list value)) (fd : fdata) (b : bblock) (is : list value) : Prop :=
  match O !! b with Some l => is = l | None => (b, is) ∈ l_bbs (f_layout fd) end.
Record fun_inv (G : gmap N N) (F : N → N → Prop) (bs : list bblock) (O : gmap N (list value))
    (fd : fdata) (Vm Bm : gmap N N) (x : fview) : Prop := {
  fi_name : w_fname x = f_name fd;
  fi_ty : w_fty x = f_ty fd;
  fi_vinj : one_to_one Vm;
  fi_binj : one_to_one Bm;
  fi_v : ∀ v v', Vm !! v = Some v' → ∃ d k', vals fd !! v = Some d ∧ w_vals x !! v' = Some (v_name d, (v_ty d, k')) ∧
    renamed (either G Vm) (pairs Bm) F (v_kind d) k';
  fi_vonto : ∀ v', is_Some (w_vals x !! v') → ∃ v, Vm !! v = Some v';
  fi_b : ∀ b b', Bm !! b = Some b' → ∃ d ps, blks fd !! b = Some d ∧ w_bbs x !! b' = Some (bb_name d, ps) ∧
    Forall2 (pairs Vm) (bb_params d) ps;
  fi_bonto : ∀ b', is_Some (w_bbs x !! b') → ∃ b, Bm !! b = Some b';
  fi_nd : NoDup bs;
  fi_lay : Forall2 (λ b e, Bm !! b = Some e.1 ∧ ∃ is, progress O fd b is ∧ Forall2 (pairs Vm) is e.2) bs (w_lay x);
}.
Lemma fun_inv_mono (G G' : gmap N N) (F F' : N → N → Prop) bs O O' fd Vm Bm x :
  G ⊆ G' → (∀ a b, F a b → F' a b) → (∀ b, is_Some (Bm !! b) → O' !! b = O !! b) →
  fun_inv G F bs O fd Vm Bm x → fun_inv G' F' bs O' fd Vm Bm x.
Proof.
  intros HG HF HO [I1 I2 I3 I4 I5 I6 I7 I8 I10 I9]. constructor; try done.
  - intros v v' Hv. destruct (I5 _ _ Hv) as (d & k' & H1 & H2 & H3). exists d, k'. split; [done|]. split; [done|].
    revert H3. apply renamed_mono; [|done|done]. intros a b [H|H]; [left|by right]. by eapply lookup_weaken.
  - eapply list.Forall2_impl; [exact I9|]. intros b e (H1 & is & H2 & H3). split; [done|]. exists is. split; [|done].
    unfold progress. by rewrite HO by (by eexists).
Qed.
Lemma fun_inv_add G F bs O fd Vm Bm x ks vs m' :
  fun_inv G F bs O fd Vm Bm x → NoDup ks → NoDup vs → length ks = length vs →
  (∀ k, k ∈ ks → Vm !! k = None) → (∀ v', v' ∈ vs → w_vals x !! v' = None) →
  (∀ v', v' ∉ vs → m' !! v' = w_vals x !! v') →
  (∀ j k v', ks !! j = Some k → vs !! j = Some v' → ∃ d k', vals fd !! k = Some d ∧
     m' !! v' = Some (v_name d, (v_ty d, k')) ∧ renamed (either G Vm) (pairs Bm) F (v_kind d) k') →
  fun_inv G F bs O fd (zip_into ks vs Vm) Bm (set_wvals x m').
Proof.
  intros [I1 I2 I3 I4 I5 I6 I7 I8 I10 I9] Nk Nv Hl Hk Hv Hm Hnew. pose proof (zip_into_sub ks vs Vm Hk) as Hsub.
  assert (Hold : ∀ v v', Vm !! v = Some v' → v' ∉ vs).
  { intros v v' H Hin. destruct (I5 _ _ H) as (d & k' & _ & H2 & _). by rewrite (Hv _ Hin) in H2. }
  constructor; simpl; try done.
  - intros a a' b Ha Ha'.
    destruct (zip_into_inv _ _ _ _ _ Nk Hl Ha) as [(j & Hj & Hb)|[Hn Hb]],
      (zip_into_inv _ _ _ _ _ Nk Hl Ha') as [(j' & Hj' & Hb')|[Hn' Hb']].
    + rewrite (NoDup_lookup _ _ _ _ Nv Hb Hb') in Hj. congruence.
    + destruct (Hold _ _ Hb'). by eapply elem_of_list_lookup_2.
    + destruct (Hold _ _ Hb). by eapply elem_of_list_lookup_2.
    + by eapply I3.
  - intros v v' H. destruct (zip_into_inv _ _ _ _ _ Nk Hl H) as [(j & Hj & Hb)|[Hn Hb]].
    + destruct (Hnew _ _ _ Hj Hb) as (d & k' & H1 & H2 & H3). exists d, k'. split; [done|]. split; [done|].
      revert H3. apply renamed_mono; [|done|done]. intros a b [?|?]; [by left|right; by eapply lookup_weaken].
    + destruct (I5 _ _ Hb) as (d & k' & H1 & H2 & H3). exists d, k'. split; [done|].
      split; [by rewrite Hm by (by eapply Hold)|].
      revert H3. apply renamed_mono; [|done|done]. intros a b [?|?]; [by left|right; by eapply lookup_weaken].
  - intros v' Hs. destruct (decide (v' ∈ vs)) as [Hin|Hn].
    + apply elem_of_list_lookup in Hin as [j Hj]. destruct (lookup_lt_is_Some_2 ks j) as [k Hkj].
      { rewrite Hl. by eapply lookup_lt_Some. } exists k. by rewrite (zip_into_at _ _ _ _ _ Nk Hl Hkj).
    + rewrite Hm in Hs by done. destruct (I6 _ Hs) as [v Hv']. exists v. by eapply lookup_weaken.
  - intros b b' Hb. destruct (I7 _ _ Hb) as (d & ps & H1 & H2 & H3). exists d, ps. split; [done|]. split; [done|].
    eapply list.Forall2_impl; [exact H3|]. intros a a' Ha. by eapply lookup_weaken.
  - eapply list.Forall2_impl; [exact I9|]. intros b e (H1 & is & H2 & H3). split; [done|]. exists is. split; [done|].
    eapply list.Forall2_impl; [exact H3|]. intros a a' Ha. by eapply lookup_weaken.
Qed.

(** ** The whole state *)
Definition FM (s : gst) (f f' : func) : Prop := ∃ i, g_funcs s !! f = Some i ∧ gi_func i = f'.
Section inv.
Context (p : program).
Definition ready (s : gst) : Prop := ∀ v, v ∈ p_inst_layout p → is_Some (g_vals s !! v).
Definition fun_state (G : gmap N N) (F : N → N → Prop) (bs : list bblock) (O : gmap N (list value))
    (w : world) (f : func) (i : ginfo) : Prop :=
  ∃ fd x, p_funcs p !! f = Some fd ∧ fvs w !! gi_func i = Some x ∧
    fun_inv G F bs O fd (gi_vals i) (gi_bbs i) x ∧ Forall2 (pairs (gi_vals i)) (f_params fd) (w_pars x).
Record Inv (S : list task) (O : gmap N (list value)) (s : gst) : Prop := {
  iv_sv : ∀ v, TVal v ∈ S ↔ is_Some (g_vals s !! v) ∨ ∃ f i, g_funcs s !! f = Some i ∧ is_Some (gi_vals i !! v);
  iv_sb : ∀ b, TBlk b ∈ S ↔ ∃ f i, g_funcs s !! f = Some i ∧ is_Some (gi_bbs i !! b);
  iv_sf : ∀ f, TFunc f ∈ S ↔ is_Some (g_funcs s !! f);
  iv_acc : ∀ v, TVal v ∈ S → Acc (opnd p) v;
  iv_par : ∀ f fd b d v, p_funcs p !! f = Some fd → blks fd !! b = Some d → v ∈ bb_params d →
    TVal v ∈ S → TBlk b ∈ S;
  iv_cur : ∀ c, g_cur s = Some c → is_Some (g_funcs s !! c) ∧ ready s;
  iv_O : ∀ b, is_Some (O !! b) → TBlk b ∈ S;
  iv_room : room (N.of_nat (base.size (p_values p)) - N.of_nat (base.size (g_vals s))) (g_world s);
  iv_g : ∀ v v', g_vals s !! v = Some v' → ∃ d k', p_values p !! v = Some d ∧
    gvs (g_world s) !! v' = Some (v_name d, (v_ty d, k')) ∧
    renamed (pairs (g_vals s)) (λ _ _, False) (λ _ _, False) (v_kind d) k';
  iv_ginj : one_to_one (g_vals s);
  iv_gonto : ∀ v', is_Some (gvs (g_world s) !! v') → ∃ v, g_vals s !! v = Some v';
  iv_gl : Forall2 (pairs (g_vals s)) (allocs_in p S) (p_inst_layout (w_prog (g_world s)));
  iv_f : ∀ f i, g_funcs s !! f = Some i → fun_state (g_vals s) (FM s) (blocks_in p S f) O (g_world s) f i;
  iv_finj : ∀ f f' i i', g_funcs s !! f = Some i → g_funcs s !! f' = Some i' → gi_func i = gi_func i' → f = f';
  iv_fonto : ∀ f', is_Some (fvs (g_world s) !! f') → ∃ f, FM s f f';
  iv_fl : Forall2 (FM s) (funcs_in S) (p_func_layout (w_prog (g_world s)));
}.
(** Nothing is forgotten. *)
Definition grows (s s' : gst) : Prop :=
  g_vals s ⊆ g_vals s' ∧ ∀ f i, g_funcs s !! f = Some i → ∃ i', g_funcs s' !! f = Some i' ∧
    gi_func i' = gi_func i ∧ gi_bbs i ⊆ gi_bbs i' ∧ gi_vals i ⊆ gi_vals i'.
Lemma grows_refl s : grows s s.
Proof. split; [done|]. intros f i Hf. by exists i. Qed.
Lemma grows_trans s1 s2 s3 : grows s1 s2 → grows s2 s3 → grows s1 s3.
Proof.
  intros [A1 A2] [B1 B2]. split; [by trans (g_vals s2)|]. intros f i Hf.
  destruct (A2 _ _ Hf) as (i' & Hf' & E1 & E2 & E3). destruct (B2 _ _ Hf') as (i2 & Hf2 & G1 & G2 & G3).
  exists i2. split; [done|]. split; [congruence|]. split; etrans; eassumption.
Qed.
Lemma grows_FM s s' f f' : grows s s' → FM s f f' → FM s' f f'.
Proof. intros [_ H] (i & Hi & <-). destruct (H _ _ Hi) as (i' & Hi' & E & _). by exists i'. Qed.
Lemma grows_ready s s' : grows s s' → ready s → ready s'.
Proof. intros [H _] Hr v Hv. destruct (Hr v Hv) as [x Hx]. exists x. by eapply lookup_weaken. Qed.

(** One function changes. *)
Lemma inv_update S S' O O' s c i i' x x' w2 fd :
  regular p → Inv S O s → g_funcs s !! c = Some i → gi_func i' = gi_func i →
  only (gi_func i) x x' (g_world s) w2 → p_funcs p !! c = Some fd →
  (∀ f, f ≠ c → blocks_in p S' f = blocks_in p S f) → allocs_in p S' = allocs_in p S → funcs_in S' = funcs_in S →
  (∀ f fd b, f ≠ c → p_funcs p !! f = Some fd → is_Some (blks fd !! b) → O' !! b = O !! b) →
  (∀ v, TVal v ∈ S' ↔ TVal v ∈ S ∨ is_Some (gi_vals i' !! v)) → (∀ b, TBlk b ∈ S' ↔ TBlk b ∈ S ∨ is_Some (gi_bbs i' !! b)) →
  (∀ f, TFunc f ∈ S' ↔ TFunc f ∈ S) →
  (∀ v, TVal v ∈ S' → Acc (opnd p) v) →
  (∀ f fd b d v, p_funcs p !! f = Some fd → blks fd !! b = Some d → v ∈ bb_params d → TVal v ∈ S' → TBlk b ∈ S') →
  (∀ b, is_Some (O' !! b) → TBlk b ∈ S') →
  gi_vals i ⊆ gi_vals i' → gi_bbs i ⊆ gi_bbs i' →
  evolves (g_world s) w2 →
  fun_inv (g_vals s) (FM s) (blocks_in p S' c) O' fd (gi_vals i') (gi_bbs i') x' →
  Forall2 (pairs (gi_vals i')) (f_params fd) (w_pars x') →
  Inv S' O' (put_info c i' (set_gworld w2 s)) ∧ grows s (put_info c i' (set_gworld w2 s)).
Proof.
  intros HR I Hc Hi (Ho1 & Ho2 & Ho3 & Ho4 & Ho5) Hfd Hbs Hal Hfu HO Hsv Hsb Hsf Hacc Hpar HO' Hv Hb Hev Hnew Hps.
  assert (Hgr : grows s (put_info c i' (set_gworld w2 s))).
  { split; [done|]. intros f j Hj. simpl. destruct (decide (f = c)) as [->|Hne].
    - exists i'. rewrite lookup_insert. rewrite Hc in Hj. injection Hj as <-. done.
    - exists j. by rewrite lookup_insert_ne. }
  assert (HFM : ∀ a b, FM s a b → FM (put_info c i' (set_gworld w2 s)) a b) by (intros; by eapply grows_FM).
  split; [|done]. destruct I as [I1 I2 I3 I4 I5 I6 I7 I8 I9 I10 I11 I12 I13 I14 I15 I16]. constructor; simpl.
  - intros v. rewrite Hsv, I1. split.
    + intros [[?|(f & j & Hj & Hjv)]|?]; [by left| |right; exists c, i'; by rewrite lookup_insert].
      right. destruct (proj2 Hgr _ _ Hj) as (j' & Hj' & _ & _ & Hsub). exists f, j'. split; [done|].
      destruct Hjv as [y Hy]. exists y. by eapply lookup_weaken.
    + intros [?|(f & j & Hj & Hjv)]; [by left; left|]. destruct (decide (f = c)) as [->|Hne].
      * rewrite lookup_insert in Hj. injection Hj as <-. by right.
      * rewrite lookup_insert_ne in Hj by done. left. right. by exists f, j.
  - intros b. rewrite Hsb, I2. split.
    + intros [(f & j & Hj & Hjv)|?]; [|exists c, i'; by rewrite lookup_insert].
      destruct (proj2 Hgr _ _ Hj) as (j' & Hj' & _ & Hsub & _). exists f, j'. split; [done|].
      destruct Hjv as [y Hy]. exists y. by eapply lookup_weaken.
    + intros (f & j & Hj & Hjv). destruct (decide (f = c)) as [->|Hne].
      * rewrite lookup_insert in Hj. injection Hj as <-. by right.
      * rewrite lookup_insert_ne in Hj by done. left. by exists f, j.
  - intros f. rewrite Hsf, I3. destruct (decide (f = c)) as [->|Hne].
    + rewrite lookup_insert, Hc. split; intros; by eexists.
    + by rewrite lookup_insert_ne.
  - exact Hacc.
  - exact Hpar.
  - intros c' Hc'. destruct (I6 _ Hc') as [[j Hj] Hr]. split; [|done]. destruct (proj2 Hgr _ _ Hj) as (j' & Hj' & _). by exists j'.
  - exact HO'.
  - eapply (room_evolves 0); [|exact Hev]. done.
  - rewrite Ho3. exact I9.
  - exact I10.
  - rewrite Ho3. exact I11.
  - rewrite Hal, Ho4. exact I12.
  - intros f j Hj. destruct (decide (f = c)) as [->|Hne].
    + rewrite lookup_insert in Hj. injection Hj as <-. exists fd, x'. split; [done|]. split; [by rewrite Hi, Ho2, lookup_insert|].
      split; [|done]. revert Hnew. by apply fun_inv_mono.
    + rewrite lookup_insert_ne in Hj by done. destruct (I13 _ _ Hj) as (fd' & y & H1 & H2 & H3 & H4).
      exists fd', y. split; [done|]. split.
      { rewrite Ho2, lookup_insert_ne; [done|]. intros E. by apply Hne, (I14 f c j i). }
      split; [|done]. rewrite Hbs by done. revert H3. apply fun_inv_mono; [done|done|].
      intros b Hb'. eapply HO; [done|done|]. destruct Hb' as [b' Hb'].
      destruct (I13 _ _ Hj) as (fd2 & y2 & K1 & K2 & K3 & _). rewrite H1 in K1. injection K1 as <-.
      destruct (fi_b _ _ _ _ _ _ _ _ K3 _ _ Hb') as (d & ? & Hd & _). by eexists.
  - intros f f' j j' Hj Hj' E. destruct (decide (f = c)) as [->|Hne], (decide (f' = c)) as [->|Hne']; [done|..].
    + rewrite lookup_insert in Hj. rewrite lookup_insert_ne in Hj' by done. injection Hj as <-. apply (I14 c f' i j' Hc Hj'). congruence.
    + rewrite lookup_insert in Hj'. rewrite lookup_insert_ne in Hj by done. injection Hj' as <-. apply (I14 f c j i Hj Hc). congruence.
    + rewrite lookup_insert_ne in Hj, Hj' by done. by eapply I14.
  - intros f' Hf'. rewrite Ho2 in Hf'.
    assert (Hs : is_Some (fvs (g_world s) !! f')).
    { destruct (decide (f' = gi_func i)) as [->|Hne]; [by eexists|]. by rewrite lookup_insert_ne in Hf'. }
    destruct (I15 _ Hs) as [f Hf]. exists f. by apply HFM.
  - rewrite Hfu, Ho5. eapply list.Forall2_impl; [exact I16|]. by apply HFM.
Qed.
End inv.
