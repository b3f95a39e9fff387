(** The steps of the generator that make and fill blocks and functions. *)
From Coq Require Import Lia ZifyBool ZifyNat ZifyN.
From Verif Require Import Base IdModel TypeModel IrModel LayoutModel BuilderModel WorldModel FrontModel
  UsesSpec UsesProofs DfgSpec DfgProofs WorldSpec WorldProofs TypingSpec TypingProofs TypingHistory HistoryProofs ViewProofs
  RawModel RawSpec RawBuildProofs RawWalkProofs RawInvProofs RawStepProofs.

(** ** Views of a function *)
Lemma fun_inv_bb G F bs O fd Vm Bm x b b' d vs :
  fun_inv G F bs O fd Vm Bm x → blks fd !! b = Some d → Bm !! b = None → b ∉ bs →
  w_bbs x !! b' = None → Forall2 (pairs Vm) (bb_params d) vs →
  fun_inv G F (bs ++ [b]) (<[b := []]> O) fd Vm (<[b := b']> Bm)
    (FView (w_fname x) (w_fty x) (w_pars x) (w_vals x) (<[b' := (bb_name d, vs)]> (w_bbs x)) (w_lay x ++ [(b', [])])).
Proof.
  intros [I1 I2 I3 I4 I5 I6 I7 I8 I10 I9] Hb Hn Hbs Hb' Hps.
  assert (Hsub : Bm ⊆ <[b := b']> Bm) by (by apply insert_subseteq).
  assert (Hold : ∀ a a', Bm !! a = Some a' → a' ≠ b').
  { intros a a' Ha ->. destruct (I7 _ _ Ha) as (? & ? & _ & H & _). by rewrite Hb' in H. }
  constructor; simpl; try done.
  - intros a a' c Ha Ha'. destruct (decide (a = b)) as [->|Hne], (decide (a' = b)) as [->|Hne']; [done|..].
    + rewrite lookup_insert in Ha. rewrite lookup_insert_ne in Ha' by done. injection Ha as <-. by destruct (Hold _ _ Ha').
    + rewrite lookup_insert in Ha'. rewrite lookup_insert_ne in Ha by done. injection Ha' as <-. by destruct (Hold _ _ Ha).
    + rewrite lookup_insert_ne in Ha, Ha' by done. by eapply I4.
  - intros v v' Hv. destruct (I5 _ _ Hv) as (dv & k' & H1 & H2 & H3). exists dv, k'. split; [done|]. split; [done|].
    revert H3. apply renamed_mono; [done| |done]. intros ? ? Hx. by eapply lookup_weaken.
  - intros a a' Ha. destruct (decide (a = b)) as [->|Hne].
    + rewrite lookup_insert in Ha. injection Ha as <-. exists d, vs. by rewrite lookup_insert.
    + rewrite lookup_insert_ne in Ha by done. destruct (I7 _ _ Ha) as (da & ps & H1 & H2 & H3). exists da, ps.
      split; [done|]. split; [|done]. rewrite lookup_insert_ne; [done|]. intros E. by apply (Hold _ _ Ha).
  - intros a' Hs. destruct (decide (a' = b')) as [->|Hne]; [exists b; by rewrite lookup_insert|].
    rewrite lookup_insert_ne in Hs by done. destruct (I8 _ Hs) as [a Ha]. exists a. by eapply lookup_weaken.
  - apply list.NoDup_app. split; [done|]. split; [|apply NoDup_singleton].
    intros a Ha Hin. by apply elem_of_list_singleton in Hin as ->.
  - apply Forall2_app.
    + assert (Hne : ∀ a, a ∈ bs → a ≠ b) by (by intros a Ha ->). clear Hbs I10 Hps.
      induction I9 as [|a e bs l [H1 (is & H2 & H3)] I9 IH]; [constructor|]. constructor.
      * split; [by eapply lookup_weaken|]. exists is. split; [|done]. unfold progress.
        rewrite lookup_insert_ne; [done|]. intros E. apply (Hne a); [by left|done].
      * apply IH. intros ? ?. apply Hne. by right.
    + constructor; [|constructor]. simpl. split; [by rewrite lookup_insert|]. exists []. split; [|constructor].
      unfold progress. by rewrite lookup_insert.
Qed.
Lemma fun_inv_push G F bs O fd Vm Bm x b b' l is v v' :
  fun_inv G F bs O fd Vm Bm x → O !! b = Some l → Bm !! b = Some b' → Vm !! v = Some v' →
  find_bb b' (w_lay x) = Some is →
  fun_inv G F bs (<[b := l ++ [v]]> O) fd Vm Bm (set_wlay x (set_bb b' (is ++ [v']) (w_lay x))).
Proof.
  intros [I1 I2 I3 I4 I5 I6 I7 I8 I10 I9] HO Hb Hv Hfind.
  constructor; simpl; try done. revert Hfind. generalize dependent bs. generalize (w_lay x) as lay. intros lay bs Hnd Hlay.
  assert (Hrest : ∀ bs lay, b ∉ bs → Forall2 (λ b e, Bm !! b = Some e.1 ∧ ∃ is, progress O fd b is ∧ Forall2 (pairs Vm) is e.2) bs lay →
    Forall2 (λ b0 e, Bm !! b0 = Some e.1 ∧ ∃ is, progress (<[b := l ++ [v]]> O) fd b0 is ∧ Forall2 (pairs Vm) is e.2) bs lay).
  { clear -Hb. intros bs lay Hn H. induction H as [|a e bs lay [H1 (js & H2 & H3)] H IH]; [constructor|].
    apply not_elem_of_cons in Hn as [N1 N2]. constructor; [|by apply IH]. split; [done|]. exists js. split; [|done].
    unfold progress. by rewrite lookup_insert_ne. }
  induction Hlay as [|a [e1 e2] bs lay [H1 (js & H2 & H3)] Hlay IH]; intros Hfind; [done|]. simpl in *.
  apply list.NoDup_cons in Hnd as [Hn Hnd]. destruct (N.eqb_spec e1 b') as [->|Hne].
  - injection Hfind as ->. assert (a = b) as -> by (by eapply I4). constructor; [|by apply Hrest].
    simpl. split; [done|]. exists (l ++ [v]). split; [unfold progress; by rewrite lookup_insert|].
    unfold progress in H2. rewrite HO in H2. subst js. apply Forall2_app; [done|]. constructor; [done|constructor].
  - constructor; [|by apply IH]. simpl. split; [done|]. exists js. split; [|done].
    unfold progress. rewrite lookup_insert_ne; [done|]. intros <-. rewrite Hb in H1. by injection H1.
Qed.
Lemma fun_inv_close G F bs O fd Vm Bm x b l :
  fun_inv G F bs O fd Vm Bm x → O !! b = Some l → (b, l) ∈ l_bbs (f_layout fd) →
  fun_inv G F bs (delete b O) fd Vm Bm x.
Proof.
  intros [I1 I2 I3 I4 I5 I6 I7 I8 I10 I9] HO Hl. constructor; try done.
  eapply list.Forall2_impl; [exact I9|]. intros a e (H1 & is & H2 & H3). split; [done|]. exists is. split; [|done].
  unfold progress in *. destruct (decide (a = b)) as [->|Hne].
  - rewrite lookup_delete. rewrite HO in H2. by subst.
  - by rewrite lookup_delete_ne.
Qed.

Section steps.
Context (p : program) (HR : regular p).
(** The data [ps] are those of the values [l]. *)
Definition data_of (l : list value) (ps : list (option string * ty)) : Prop :=
  length ps = length l ∧ ∀ j v, l !! j = Some v → ∃ d, value_of p v d ∧ ps !! j = Some (v_name d, v_ty d).
Lemma raw_params_ok h l : heap_ok p h → ∀ ps, raw_params h l = Done ps → data_of l ps.
Proof.
  intros HH. induction l as [|v l IH]; intros ps H; simpl in H.
  - injection H as <-. split; [done|]. by intros [|?].
  - rb H x Hx. rb H r Hr. injection H as <-. apply IH in Hr as [E1 E2]. apply need_Done in Hx.
    destruct (h_vals h !! v) as [[y|]|] eqn:Hv; simpl in Hx; try discriminate Hx. injection Hx as ->.
    destruct (ho_val _ _ HH _ _ Hv) as (d & Hd & T1 & T2 & _). split; [simpl; by rewrite E1|].
    intros [|j] u Hj; simpl in Hj.
    + injection Hj as <-. exists d. split; [done|]. simpl. by rewrite T1, T2.
    + exact (E2 _ _ Hj).
Qed.

(** ** A block *)
Lemma step_bb S O s c i fd b d ps x w1 w2 xs :
  Inv p S O s → g_funcs s !! c = Some i → p_funcs p !! c = Some fd → blks fd !! b = Some d →
  TBlk b ∉ S → data_of (bb_params d) ps →
  w_new_bb (gi_func i) (bb_name d) ps (g_world s) = Some (x, w1) → w_push_bb (gi_func i) x w1 = Some w2 →
  (fd' ← p_funcs (w_prog w2) !! gi_func i; bb_params <$> d_bbs (f_dfg fd') !! x) = Some xs →
  let s' := put_info c (GInfo (gi_func i) (<[b := x]> (gi_bbs i)) (zip_into (bb_params d) xs (gi_vals i))) (set_gworld w2 s) in
  Inv p (S ++ TBlk b :: (TVal <$> bb_params d)) (<[b := []]> O) s' ∧ grows s s'.
Proof.
  intros I Hc Hfd Hb Hn [Hl Hdat] H1 H2 Hxs s'.
  destruct (iv_f _ _ _ _ I _ _ Hc) as (fd0 & y & K1 & K2 & K3 & K4). rewrite Hfd in K1. injection K1 as <-.
  destruct (view_new_bb _ _ _ _ _ _ _ H1 (iv_room _ _ _ _ I)) as (y0 & m & vs & Ho & Hx & Hadd).
  assert (y0 = y) as -> by (pose proof (proj1 Ho) as Hy; rewrite K2 in Hy; by injection Hy).
  destruct (view_push_bb _ _ _ _ H2) as (y1 & Ho2).
  pose proof (only_after _ _ _ _ _ Ho) as Ha. rewrite (proj1 Ho2) in Ha. apply (inj Some) in Ha. subst y1.
  pose proof (only_trans _ _ _ _ _ _ _ Ho Ho2) as Hon. unfold set_wlay, set_wbbs, set_wvals in Hon. simpl in Hon.
  destruct Hadd as (A1 & A2 & A3 & A4 & A5).
  assert (xs = vs) as ->.
  { pose proof (only_after _ _ _ _ _ Hon) as Hf. rewrite lookup_fmap in Hf. apply fmap_Some in Hf as (fd' & Hf & E).
    rewrite Hf in Hxs. simpl in Hxs. apply (f_equal w_bbs) in E. simpl in E.
    assert (Hq : bvm (blks fd') !! x = Some (bb_name d, vs)) by (rewrite <- E; apply lookup_insert).
    rewrite lookup_fmap in Hq. apply fmap_Some in Hq as (d' & Hd' & E'). change (d_bbs (f_dfg fd')) with (blks fd') in Hxs.
    rewrite Hd' in Hxs. simpl in Hxs. unfold bv in E'. congruence. }
  clear Hxs. set (ks := bb_params d) in *.
  pose proof (rg_bb_params_once _ HR _ _ _ _ Hfd Hb) as Nk. fold ks in Nk.
  assert (Hlen : length ks = length vs) by congruence.
  assert (Hks : ∀ v, v ∈ ks → TVal v ∉ S). { intros v Hv Hin. apply Hn. by eapply (iv_par _ _ _ _ I c fd b d v). }
  assert (Hkn : ∀ v, v ∈ ks → gi_vals i !! v = None).
  { intros v Hv. apply eq_None_not_Some. intros Hs. apply (Hks v Hv). apply (iv_sv _ _ _ _ I). right. by exists c, i. }
  assert (Hkv : ∀ v, v ∈ ks → ∃ dv j, vals fd !! v = Some dv ∧ v_kind dv = KBlockArg j).
  { intros v Hv. by eapply (bb_params_kind p HR). }
  assert (Hbn : gi_bbs i !! b = None).
  { apply eq_None_not_Some. intros Hs. apply Hn. apply (iv_sb _ _ _ _ I). by exists c, i. }
  assert (Hsv : ∀ v, TVal v ∈ S ++ TBlk b :: (TVal <$> ks) ↔ TVal v ∈ S ∨ v ∈ ks).
  { intros v. rewrite elem_of_app, elem_of_cons, elem_vals_val. split; [intros [?|[?|?]]|intros [?|?]]; auto; done. }
  assert (Hsb : ∀ a, TBlk a ∈ S ++ TBlk b :: (TVal <$> ks) ↔ TBlk a ∈ S ∨ a = b).
  { intros a. rewrite elem_of_app, elem_of_cons. split; [intros [?|[[= ->]|Hx']]|intros [?| ->]]; auto. by apply no_fmap_blk in Hx'. }
  assert (Hbl : ∀ f, blocks_in p (S ++ TBlk b :: (TVal <$> ks)) f = blocks_in p S f ++ (if decide (f = c) then [b] else [])).
  { intros f. rewrite blocks_in_app. f_equal. change (TBlk b :: (TVal <$> ks)) with ([TBlk b] ++ (TVal <$> ks)).
    rewrite blocks_in_app, blocks_in_vals, app_nil_r. unfold blocks_in. simpl. case_decide as Hfc.
    - subst f. by rewrite Hfd, Hb.
    - destruct (p_funcs p !! f) as [fd'|] eqn:Hf; [|done]. destruct (blks fd' !! b) eqn:Hb'; [|done].
      exfalso. apply Hfc. eapply (rg_own_bb _ HR f c); [done|done|by eexists|by eexists]. }
  eapply (inv_update p S _ O (<[b := []]> O) s c i
    (GInfo (gi_func i) (<[b := x]> (gi_bbs i)) (zip_into ks vs (gi_vals i))) _ _ w2 fd);
    [exact HR|exact I|exact Hc|reflexivity|exact Hon|exact Hfd|..].
  - intros f Hf. rewrite Hbl, decide_False by done. by rewrite app_nil_r.
  - change (TBlk b :: (TVal <$> ks)) with ([TBlk b] ++ (TVal <$> ks)). rewrite !allocs_in_app.
    rewrite (allocs_in_vals p HR c fd ks Hfd); [by rewrite !app_nil_r|]. intros v Hv. destruct (Hkv v Hv) as (? & ? & ? & _). by eexists.
  - change (TBlk b :: (TVal <$> ks)) with ([TBlk b] ++ (TVal <$> ks)). rewrite !funcs_in_app, funcs_in_vals. simpl. by rewrite app_nil_r.
  - intros f fd' a Hf Hf' Hs. apply lookup_insert_ne. intros <-. apply Hf.
    eapply (rg_own_bb _ HR f c); [done|done|done|by eexists].
  - intros v. rewrite Hsv. cbn [gi_vals]. rewrite (zip_into_dom _ _ _ _ Nk Hlen). split; [intros [?|?]; auto|].
    intros [?|[?|Hs]]; auto. left. apply (iv_sv _ _ _ _ I). right. by exists c, i.
  - intros a. rewrite Hsb. cbn [gi_bbs]. split.
    + intros [?| ->]; [by left|right]. rewrite lookup_insert. by eexists.
    + intros [?|Hs]; [by left|]. destruct (decide (a = b)) as [->|Hne]; [by right|]. rewrite lookup_insert_ne in Hs by done.
      left. apply (iv_sb _ _ _ _ I). by exists c, i.
  - intros f. rewrite elem_of_app, elem_of_cons. split; [|by left]. intros [?|[?|Hx']]; [done|done|]. by apply no_fmap_fun in Hx'.
  - intros v Hv. apply Hsv in Hv as [Hv|Hv]; [by apply (iv_acc _ _ _ _ I)|]. destruct (Hkv v Hv) as (dv & j & Hdv & Hk).
    eapply (param_acc p HR); [right; by exists c, fd|]. by rewrite Hk.
  - intros f fd' a bd v Hf Ha Hv Hin. apply Hsb. apply Hsv in Hin as [Hin|Hin].
    + left. by eapply (iv_par _ _ _ _ I).
    + right. destruct (Hkv v Hin) as (dv & j & Hdv & _). destruct (bb_params_kind p HR _ _ _ _ _ Hf Ha Hv) as (d' & j' & Hd' & _).
      assert (f = c) as -> by (eapply (rg_own _ HR f c); [done|done|by eexists|by eexists]).
      rewrite Hfd in Hf. injection Hf as <-. by eapply (rg_bb_params_own _ HR).
  - intros a Ha. apply Hsb. destruct (decide (a = b)) as [->|Hne]; [by right|]. rewrite lookup_insert_ne in Ha by done.
    left. by apply (iv_O _ _ _ _ I).
  - cbn [gi_vals]. by apply zip_into_sub.
  - cbn [gi_bbs]. by apply insert_subseteq.
  - eapply evolves_2; [by eapply evolves_new_bb|by eapply evolves_push_bb].
  - rewrite Hbl, decide_True by done. cbn [gi_vals gi_bbs].
    assert (K5 : fun_inv (g_vals s) (FM s) (blocks_in p S c) O fd (zip_into ks vs (gi_vals i)) (gi_bbs i) (set_wvals y m)).
    { apply (fun_inv_add _ _ _ _ _ _ _ _ _ _ _ K3 Nk A1 Hlen Hkn); [by intros v' Hv'; apply A3|done|].
      intros j k v' Hk Hv'. destruct (Hdat _ _ Hk) as (dv & Hdv & Hps).
      destruct (rg_bb_params _ HR _ _ _ _ Hfd Hb) as (ts & Hlt & Hpar).
      destruct (lookup_lt_is_Some_2 ts j) as [t Ht]. { rewrite <- Hlt. by eapply lookup_lt_Some. }
      destruct (Hpar j k t Hk Ht) as (dv' & Hdv' & Hkind & _).
      assert (dv' = dv) as ->. { apply (value_of_det p HR k); [right; by exists c, fd|done]. }
      exists dv, (KBlockArg (N.of_nat j)). split; [done|]. split; [by eapply A5|]. rewrite Hkind. constructor. }
    apply (fun_inv_bb _ _ _ _ _ _ _ _ b x d vs K5 Hb Hbn); [|exact Hx|by apply zip_into_all].
    intros Hin. apply (elem_blocks_in p S c fd) in Hin as [? _]; done.
  - simpl. simpl in K4. eapply list.Forall2_impl; [exact K4|]. intros a a' Haa. eapply lookup_weaken; [exact Haa|]. by apply zip_into_sub.
Qed.
Lemma put_same c i s w : g_funcs s !! c = Some i → put_info c i (set_gworld w s) = set_gworld w s.
Proof. intros H. unfold put_info, set_gworld. simpl. by rewrite insert_id. Qed.
Lemma step_inst S O s c i fd b l v x y w2 :
  Inv p S O s → g_funcs s !! c = Some i → p_funcs p !! c = Some fd →
  O !! b = Some l → gi_bbs i !! b = Some x → gi_vals i !! v = Some y →
  w_push_inst (gi_func i) x y (g_world s) = Some w2 →
  Inv p S (<[b := l ++ [v]]> O) (set_gworld w2 s) ∧ grows s (set_gworld w2 s).
Proof.
  intros I Hc Hfd HO Hb Hv H. destruct (iv_f _ _ _ _ I _ _ Hc) as (fd0 & z & K1 & K2 & K3 & K4). rewrite Hfd in K1. injection K1 as <-.
  destruct (view_push_inst _ _ _ _ _ H) as (z0 & is & Ho & Hfind).
  assert (z0 = z) as -> by (pose proof (proj1 Ho) as Hy; rewrite K2 in Hy; by injection Hy).
  rewrite <- (put_same c i s w2 Hc).
  assert (Hbd : is_Some (blks fd !! b)). { destruct (fi_b _ _ _ _ _ _ _ _ K3 _ _ Hb) as (? & ? & ? & _). by eexists. }
  eapply (inv_update p S S O _ s c i i _ _ w2 fd); [exact HR|exact I|exact Hc|reflexivity|exact Ho|exact Hfd|..].
  - done.
  - done.
  - done.
  - intros f fd' a Hf Hf' Hs. apply lookup_insert_ne. intros <-. apply Hf.
    eapply (rg_own_bb _ HR f c); [done|done|done|done].
  - intros u. split; [by left|]. intros [?|Hs]; [done|]. apply (iv_sv _ _ _ _ I). right. by exists c, i.
  - intros a. split; [by left|]. intros [?|Hs]; [done|]. apply (iv_sb _ _ _ _ I). by exists c, i.
  - done.
  - apply (iv_acc _ _ _ _ I).
  - apply (iv_par _ _ _ _ I).
  - intros a Ha. apply (iv_O _ _ _ _ I). destruct (decide (a = b)) as [->|Hne]; [by eexists|]. by rewrite lookup_insert_ne in Ha.
  - done.
  - done.
  - by eapply evolves_push_inst.
  - by eapply fun_inv_push.
  - exact K4.
Qed.
Lemma step_close S O s c fd b l : Inv p S O s → p_funcs p !! c = Some fd → is_Some (blks fd !! b) →
  O !! b = Some l → (b, l) ∈ l_bbs (f_layout fd) → Inv p S (delete b O) s.
Proof.
  intros [I1 I2 I3 I4 I5 I6 I7 I8 I9 I10 I11 I12 I13 I14 I15 I16] Hfd Hb HO Hl. constructor; try assumption.
  - intros a Ha. apply I7. destruct (decide (a = b)) as [->|Hne]; [by rewrite lookup_delete in Ha; destruct Ha|].
    by rewrite lookup_delete_ne in Ha.
  - intros f i Hi. destruct (I13 _ _ Hi) as (fd' & x & K1 & K2 & K3 & K4). exists fd', x. split; [done|]. split; [done|].
    split; [|done]. destruct (decide (f = c)) as [->|Hne].
    + rewrite Hfd in K1. injection K1 as <-. by eapply fun_inv_close.
    + revert K3. intros K3. pose proof K3 as K5. revert K3. apply fun_inv_mono; [done|done|]. intros a [a' Ha]. apply lookup_delete_ne.
      intros <-. apply Hne. destruct (fi_b _ _ _ _ _ _ _ _ K5 _ _ Ha) as (? & ? & ? & _).
      eapply (rg_own_bb _ HR f c); [done|done|by eexists|done].
Qed.

(** ** A function *)
Lemma step_fun S O s f fd f' vs m w2 :
  Inv p S O s → p_funcs p !! f = Some fd → TFunc f ∉ S →
  fvs (g_world s) !! f' = None →
  fvs w2 = <[f' := FView (f_name fd) (f_ty fd) vs m ∅ []]> (fvs (g_world s)) → gvs w2 = gvs (g_world s) →
  p_inst_layout (w_prog w2) = p_inst_layout (w_prog (g_world s)) →
  p_func_layout (w_prog w2) = p_func_layout (w_prog (g_world s)) ++ [f'] →
  evolves (g_world s) w2 →
  NoDup vs → length (f_params fd) = length vs → (∀ v', v' ∉ vs → m !! v' = None) →
  (∀ j v v', f_params fd !! j = Some v → vs !! j = Some v' → ∃ d, vals fd !! v = Some d ∧
     m !! v' = Some (v_name d, (v_ty d, v_kind d))) →
  let s' := put_info f (GInfo f' ∅ (zip_into (f_params fd) vs ∅)) (set_gworld w2 s) in
  Inv p (S ++ TFunc f :: (TVal <$> f_params fd)) O s' ∧ grows s s' ∧ FM s' f f'.
Proof.
  intros I Hfd Hn W1 W2 W3 W4 W5 Hev Nv Hlen Hm Hnew s'. set (ks := f_params fd) in *.
  assert (Hnf : g_funcs s !! f = None).
  { apply eq_None_not_Some. intros Hs. apply Hn. by apply (iv_sf _ _ _ _ I). }
  pose proof (rg_params_once _ HR _ _ Hfd) as Nk. fold ks in Nk.
  assert (Hkv : ∀ v, v ∈ ks → ∃ dv j, vals fd !! v = Some dv ∧ v_kind dv = KFuncArg j).
  { intros v Hv. by eapply (params_kind p HR). }
  assert (Hgr : grows s s').
  { split; [done|]. intros g i Hi. exists i. split; [|done]. simpl. rewrite lookup_insert_ne; [done|]. intros <-. by rewrite Hnf in Hi. }
  assert (HFM : ∀ a b, FM s a b → FM s' a b) by (intros; by eapply grows_FM).
  assert (HFM' : FM s' f f'). { exists (GInfo f' ∅ (zip_into ks vs ∅)). simpl. by rewrite lookup_insert. }
  assert (Hold : ∀ g i, g_funcs s !! g = Some i → gi_func i ≠ f').
  { intros g i Hi E. destruct (iv_f _ _ _ _ I _ _ Hi) as (? & ? & _ & Hx & _). by rewrite E, W1 in Hx. }
  assert (Hsv : ∀ v, TVal v ∈ S ++ TFunc f :: (TVal <$> ks) ↔ TVal v ∈ S ∨ v ∈ ks).
  { intros v. rewrite elem_of_app, elem_of_cons, elem_vals_val. split; [intros [?|[?|?]]|intros [?|?]]; auto; done. }
  assert (Hsb : ∀ a, TBlk a ∈ S ++ TFunc f :: (TVal <$> ks) ↔ TBlk a ∈ S).
  { intros a. rewrite elem_of_app, elem_of_cons. split; [intros [?|[?|Hx']]|by left]; [done|done|]. by apply no_fmap_blk in Hx'. }
  assert (Hbl : ∀ g, blocks_in p (S ++ TFunc f :: (TVal <$> ks)) g = blocks_in p S g).
  { intros g. rewrite blocks_in_app. change (TFunc f :: (TVal <$> ks)) with ([TFunc f] ++ (TVal <$> ks)).
    rewrite blocks_in_app, blocks_in_vals. by rewrite !app_nil_r. }
  split; [|done]. destruct I as [I1 I2 I3 I4 I5 I6 I7 I8 I9 I10 I11 I12 I13 I14 I15 I16].
  assert (Hnone : blocks_in p S f = []).
  { destruct (blocks_in p S f) as [|b l] eqn:E; [done|]. exfalso.
    assert (Hin : b ∈ blocks_in p S f) by (rewrite E; left).
    apply (elem_blocks_in p S f fd b Hfd) in Hin as [Hin Hb]. apply I2 in Hin as (g & i & Hi & [b' Hb']).
    destruct (I13 _ _ Hi) as (fd' & x & K1 & _ & K3 & _). destruct (fi_b _ _ _ _ _ _ _ _ K3 _ _ Hb') as (? & ? & ? & _).
    assert (g = f) as -> by (eapply (rg_own_bb _ HR g f); [done|done|by eexists|done]). by rewrite Hnf in Hi. }
  constructor; cbn [g_world g_vals g_funcs g_cur s' put_info set_gworld].
  - intros v. rewrite Hsv, I1. split.
    + intros [[?|(g & i & Hi & Hs)]|Hin]; [by left|right|right].
      * exists g, i. rewrite lookup_insert_ne; [done|]. intros <-. by rewrite Hnf in Hi.
      * eexists f, _. rewrite lookup_insert. split; [done|]. cbn [gi_vals]. rewrite (zip_into_dom _ _ _ _ Nk Hlen). by left.
    + intros [?|(g & i & Hi & Hs)]; [by left; left|]. destruct (decide (g = f)) as [->|Hne].
      * rewrite lookup_insert in Hi. injection Hi as <-. cbn [gi_vals] in Hs. apply (zip_into_dom _ _ _ _ Nk Hlen) in Hs as [?|[? ?]]; [by right|done].
      * rewrite lookup_insert_ne in Hi by done. left. right. by exists g, i.
  - intros b. rewrite Hsb, I2. split.
    + intros (g & i & Hi & Hs). exists g, i. rewrite lookup_insert_ne; [done|]. intros <-. by rewrite Hnf in Hi.
    + intros (g & i & Hi & Hs). destruct (decide (g = f)) as [->|Hne].
      * rewrite lookup_insert in Hi. injection Hi as <-. by destruct Hs.
      * rewrite lookup_insert_ne in Hi by done. by exists g, i.
  - intros g. rewrite elem_of_app, elem_of_cons, I3. destruct (decide (g = f)) as [->|Hne].
    + rewrite lookup_insert. split; [intros _; by eexists|by right; left].
    + rewrite lookup_insert_ne by done. split; [|by left]. intros [?|[?|Hx']]; [done|congruence|]. by apply no_fmap_fun in Hx'.
  - intros v Hv. apply Hsv in Hv as [Hv|Hv]; [by apply I4|]. destruct (Hkv v Hv) as (dv & j & Hdv & Hk).
    eapply (param_acc p HR); [right; by exists f, fd|]. by rewrite Hk.
  - intros g fd' a bd v Hf Ha Hv Hin. apply Hsb. apply Hsv in Hin as [Hin|Hin]; [by eapply I5|]. exfalso.
    destruct (Hkv v Hin) as (dv & j & Hdv & E1). destruct (bb_params_kind p HR _ _ _ _ _ Hf Ha Hv) as (d' & j' & Hd' & E2).
    assert (g = f) as -> by (eapply (rg_own _ HR g f); [done|done|by eexists|by eexists]).
    rewrite Hfd in Hf. injection Hf as <-. rewrite Hdv in Hd'. injection Hd' as <-. by rewrite E1 in E2.
  - intros c Hc. destruct (I6 _ Hc) as [[j Hj] Hr]. split; [|done]. destruct (decide (c = f)) as [->|Hne]; [by rewrite Hnf in Hj|].
    rewrite lookup_insert_ne by done. by eexists.
  - intros b Hb. apply Hsb. by apply I7.
  - eapply (room_evolves 0); [exact I8|exact Hev].
  - rewrite W3. exact I9.
  - exact I10.
  - rewrite W3. exact I11.
  - rewrite allocs_in_app, W4. change (TFunc f :: (TVal <$> ks)) with ([TFunc f] ++ (TVal <$> ks)). rewrite allocs_in_app.
    rewrite (allocs_in_vals p HR f fd ks Hfd); [by rewrite !app_nil_r|]. intros v Hv. destruct (Hkv v Hv) as (? & ? & ? & _). by eexists.
  - intros g i Hi. rewrite Hbl. destruct (decide (g = f)) as [->|Hne].
    + rewrite lookup_insert in Hi. injection Hi as <-. cbn [gi_vals gi_bbs gi_func]. rewrite Hnone.
      exists fd, (FView (f_name fd) (f_ty fd) vs m ∅ []). split; [done|]. split; [by rewrite W2, lookup_insert|].
      split; [|by apply zip_into_all].
      apply (fun_inv_add (g_vals s) (FM s') [] O fd ∅ ∅ (FView (f_name fd) (f_ty fd) vs ∅ ∅ []) ks vs m).
      * constructor; simpl.
        { done. } { done. } { intros ? ? ? Hx. by rewrite lookup_empty in Hx. } { intros ? ? ? Hx. by rewrite lookup_empty in Hx. }
        { intros ? ? Hx. by rewrite lookup_empty in Hx. } { intros ? [? Hx]. by rewrite lookup_empty in Hx. }
        { intros ? ? Hx. by rewrite lookup_empty in Hx. } { intros ? [? Hx]. by rewrite lookup_empty in Hx. }
        { constructor. } { constructor. }
      * done.
      * done.
      * done.
      * done.
      * done.
      * intros v' Hv'. by rewrite Hm.
      * intros j k v' Hk Hv'. destruct (Hnew _ _ _ Hk Hv') as (d & Hd & Hd'). exists d, (v_kind d). split; [done|]. split; [done|].
        destruct (Hkv k ltac:(by eapply elem_of_list_lookup_2)) as (d2 & j2 & Hd2 & E). rewrite Hd in Hd2. injection Hd2 as <-.
        rewrite E. constructor.
    + rewrite lookup_insert_ne in Hi by done. destruct (I13 _ _ Hi) as (fd' & x & K1 & K2 & K3 & K4).
      exists fd', x. split; [done|]. split.
      { rewrite W2, lookup_insert_ne; [done|]. intros E. by apply (Hold _ _ Hi). }
      split; [|done]. revert K3. by apply fun_inv_mono.
  - intros g g' i i' Hi Hi' E. destruct (decide (g = f)) as [->|Hne], (decide (g' = f)) as [->|Hne']; [done|..].
    + rewrite lookup_insert in Hi. rewrite lookup_insert_ne in Hi' by done. injection Hi as <-. simpl in E. by destruct (Hold _ _ Hi').
    + rewrite lookup_insert in Hi'. rewrite lookup_insert_ne in Hi by done. injection Hi' as <-. simpl in E. by destruct (Hold _ _ Hi).
    + rewrite lookup_insert_ne in Hi, Hi' by done. by eapply I14.
  - intros g' Hg. rewrite W2 in Hg. destruct (decide (g' = f')) as [->|Hne]; [by exists f|].
    rewrite lookup_insert_ne in Hg by done. destruct (I15 _ Hg) as [g Hg']. exists g. by apply HFM.
  - change (TFunc f :: (TVal <$> ks)) with ([TFunc f] ++ (TVal <$> ks)). rewrite !funcs_in_app, funcs_in_vals, W5, app_nil_r.
    apply Forall2_app; [|by constructor; [|constructor]]. eapply list.Forall2_impl; [exact I16|]. by apply HFM.
Qed.
End steps.
