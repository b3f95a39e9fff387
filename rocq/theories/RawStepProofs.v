(** The steps of the generator keep its invariant. *)
From Coq Require Import Lia ZifyBool ZifyNat ZifyN.
From Verif Require Import Base IdModel TypeModel IrModel LayoutModel BuilderModel WorldModel FrontModel
  UsesSpec UsesProofs DfgSpec DfgProofs WorldSpec WorldProofs TypingSpec TypingProofs TypingHistory HistoryProofs ViewProofs
  RawModel RawSpec RawBuildProofs RawWalkProofs RawInvProofs.

(** ** Types *)
Definition own_type (k : vkind) : bool := match k with KZeroInit | KUndef | KAlloc => true | _ => false end.
Lemma renamed_type V B F E E' k k' t t' :
  renamed V B F k k' → has_type E k t → has_type E' k' t' →
  (∀ u u', V u u' → is_Some (e_ty E u) → e_ty E' u' = e_ty E u) →
  (∀ f f', F f f' → is_Some (e_fun E f) → e_fun E' f' = e_fun E f) →
  (own_type k = true → t' = t) → t' = t.
Proof.
  intros HR H1 H2 HV HF Ho.
  destruct HR as [| | |l l' Hl| | | |v v' Hv|v v' Hv|v v' d d' Hv Hd|x x' i i' Hx Hi|x x' i i' Hx Hi|op l l' r r' Hl Hr|c c' t0 t0' f f' ta ta' fa fa' Hc Ht Hf Hta Hfa|t0 t0' a a' Ht Ha|f f' a a' Hf Ha| |v v' Hv];
    inversion H1; subst; inversion H2; subst; try (apply Ho; reflexivity); try reflexivity.
  - rewrite (Forall2_length _ _ _ Hl). f_equal. destruct Hl as [|e e' l l' He Hl]; [done|].
    destruct (H4 e ltac:(left)) as [K1 _]. destruct (H7 e' ltac:(left)) as [K2 _].
    rewrite (HV _ _ He ltac:(by rewrite K1)) in K2. congruence.
  - rewrite (HV _ _ Hv ltac:(by eexists)) in *. congruence.
  - rewrite (HV _ _ Hv ltac:(by eexists)) in *. congruence.
  - match goal with K : e_ty E x = _ |- _ => rewrite (HV _ _ Hx ltac:(by eexists)) in * end. congruence.
  - match goal with K : e_ty E x = _ |- _ => rewrite (HV _ _ Hx ltac:(by eexists)) in * end. congruence.
  - rewrite (HF _ _ Hf ltac:(by eexists)) in *. congruence.
Qed.
Lemma new_local_view k f r w x w1 : w_new_local f r w = Some (x, w1) → room k w →
  ∃ fdw t, p_funcs (w_prog w) !! f = Some fdw ∧
    only f (fv fdw) (set_wvals (fv fdw) (<[x := (None, (t, requested r))]> (w_vals (fv fdw)))) w w1 ∧
    w_vals (fv fdw) !! x = None ∧ has_type (local_env (w_prog w) fdw) (requested r) t ∧ requested_ty r t.
Proof.
  intros H R. destruct (view_new_local k f r w x w1 H R) as (y & t & Ho & Hn & _ & Ht).
  pose proof (proj1 Ho) as Hy. rewrite lookup_fmap in Hy. apply fmap_Some in Hy as (fdw & Hf & ->).
  destruct (new_local_typed w f fdw r x w1 (room_tys k w R) Hf H) as (fd' & t2 & Hf' & Hv & Hty & Hr).
  exists fdw, t. split; [done|]. split; [done|]. split; [done|].
  apply only_after in Ho. rewrite lookup_fmap, Hf' in Ho. apply (inj Some) in Ho.
  assert (E : w_vals (fv fd') !! x = Some (None, (t, requested r))).
  { rewrite Ho. simpl. by rewrite lookup_insert. }
  simpl in E. rewrite lookup_fmap, Hv in E. injection E as ->. done.
Qed.
Lemma evolves_name f v n w w' : w_name_local f v n w = Some w' → evolves w w'.
Proof. intros H. by apply (evolves_op (ONameLocal f v n)). Qed.
Lemma evolves_new f r v w w' : local_req r = true → w_new_local f r w = Some (v, w') → evolves w w'.
Proof. intros Hr H. apply (evolves_op (ONewLocal f r)); [done..|]. cbn [step]. by rewrite H. Qed.
Lemma evolves_new_bb f n ps b w w' : w_new_bb f n ps w = Some (b, w') → evolves w w'.
Proof. intros H. apply (evolves_op (ONewBB f n ps)); [done..|]. cbn [step]. by rewrite H. Qed.
Lemma evolves_push_bb f b w w' : w_push_bb f b w = Some w' → evolves w w'.
Proof. intros H%er_push_bb. exists []. simpl. rewrite H. split; [constructor|]. split; [done|]. done. Qed.
Lemma evolves_push_inst f b v w w' : w_push_inst f b v w = Some w' → evolves w w'.
Proof. intros H%er_push_inst. exists []. simpl. rewrite H. split; [constructor|]. split; [done|]. done. Qed.
Lemma evolves_2 w w1 w2 : evolves w w1 → evolves w1 w2 → evolves w w2.
Proof. apply (evolves_by_trans 0 0). Qed.

(** ** Lists of tasks *)
Lemma blocks_in_app p a b f : blocks_in p (a ++ b) f = blocks_in p a f ++ blocks_in p b f.
Proof. apply omap_app. Qed.
Lemma allocs_in_app p a b : allocs_in p (a ++ b) = allocs_in p a ++ allocs_in p b.
Proof. apply omap_app. Qed.
Lemma funcs_in_app a b : funcs_in (a ++ b) = funcs_in a ++ funcs_in b.
Proof. apply omap_app. Qed.
Lemma blocks_in_vals p l f : blocks_in p (TVal <$> l) f = [].
Proof. by induction l. Qed.
Lemma funcs_in_vals l : funcs_in (TVal <$> l) = [].
Proof. by induction l. Qed.
Lemma elem_blocks_in p S f fd b : p_funcs p !! f = Some fd → b ∈ blocks_in p S f ↔ TBlk b ∈ S ∧ is_Some (blks fd !! b).
Proof.
  intros Hf. unfold blocks_in. rewrite elem_of_list_omap. split.
  - intros ([|b'|] & Hin & H); try done. rewrite Hf in H. destruct (blks fd !! b') eqn:E; [|done]. injection H as <-. by rewrite E.
  - intros [Hin [d Hd]]. exists (TBlk b). split; [done|]. by rewrite Hf, Hd.
Qed.
Lemma elem_vals_val (l : list value) v : TVal v ∈ TVal <$> l ↔ v ∈ l.
Proof. rewrite elem_of_list_fmap. split; [by intros (? & [= ->] & ?)|by exists v]. Qed.

Section steps.
Context (p : program) (HR : regular p).
Lemma allocs_in_vals f fd l : p_funcs p !! f = Some fd → (∀ v, v ∈ l → is_Some (vals fd !! v)) → allocs_in p (TVal <$> l) = [].
Proof.
  intros Hf. induction l as [|v l IH]; intros Hl; [done|]. unfold allocs_in. simpl.
  destruct (p_values p !! v) eqn:E.
  - exfalso. eapply (local_not_global p HR f fd v); [done|apply Hl; by left|by eexists].
  - apply IH. intros u Hu. apply Hl. by right.
Qed.

(** Types agree. *)
Lemma env_vals S O s c i fd fdw u u' : Inv p S O s → g_funcs s !! c = Some i → p_funcs p !! c = Some fd →
  p_funcs (w_prog (g_world s)) !! gi_func i = Some fdw →
  pairs (g_vals s) u u' ∨ pairs (gi_vals i) u u' →
  e_ty (local_env (w_prog (g_world s)) fdw) u' = e_ty (local_env p fd) u.
Proof.
  intros I Hc Hfd Hw [Hu|Hu]; simpl.
  - destruct (iv_g _ _ _ _ I _ _ Hu) as (d & k' & Hd & Hd' & _).
    rewrite lookup_fmap in Hd'. apply fmap_Some in Hd' as (d' & Hd' & E).
    rewrite (lookup_union_Some_l _ _ _ _ Hd), (lookup_union_Some_l _ _ _ _ Hd'). simpl. unfold vi in E. congruence.
  - destruct (iv_f _ _ _ _ I _ _ Hc) as (fd0 & x & H1 & H2 & H3 & _). rewrite Hfd in H1. injection H1 as <-.
    destruct (fi_v _ _ _ _ _ _ _ _ H3 _ _ Hu) as (d & k' & Hd & Hd' & _).
    rewrite lookup_fmap, Hw in H2. injection H2 as <-.
    pose proof Hd' as Hs. simpl in Hd'. rewrite lookup_fmap in Hd'. apply fmap_Some in Hd' as (d' & Hd' & E).
    assert (N1 : p_values p !! u = None).
    { apply eq_None_not_Some. intros Hx. eapply (local_not_global p HR c fd u); [done|by eexists|done]. }
    assert (N2 : p_values (w_prog (g_world s)) !! u' = None).
    { apply eq_None_not_Some. intros Hx. pose proof (iv_room _ _ _ _ I) as R.
      destruct (room_gv _ _ R) as [R1 R2]. destruct (room_lv _ _ R) as (R3 & R4 & R5).
      apply R2 in Hx. assert (Hf : fvs (g_world s) !! gi_func i = Some (fv fdw)) by (by rewrite lookup_fmap, Hw).
      pose proof (R5 _ _ u' Hf ltac:(by eexists)). lia. }
    rewrite (lookup_union_r _ _ _ N1), (lookup_union_r _ _ _ N2), Hd, Hd'. simpl. unfold vi in E. congruence.
Qed.
Lemma env_funs S O s f f' : Inv p S O s → FM s f f' → f_ty <$> p_funcs (w_prog (g_world s)) !! f' = f_ty <$> p_funcs p !! f.
Proof.
  intros I (i & Hi & <-). destruct (iv_f _ _ _ _ I _ _ Hi) as (fd & x & H1 & H2 & H3 & _).
  rewrite lookup_fmap in H2. apply fmap_Some in H2 as (fd' & H2 & ->). rewrite H1, H2. simpl. f_equal. apply (fi_ty _ _ _ _ _ _ _ _ H3).
Qed.

(** ** A value of a function *)
Lemma step_local S O s c i fd v d r x w1 w2 :
  Inv p S O s → g_cur s = Some c → g_funcs s !! c = Some i → p_funcs p !! c = Some fd → vals fd !! v = Some d →
  TVal v ∉ S → is_param (v_kind d) = false → local_req r = true →
  w_new_local (gi_func i) r (g_world s) = Some (x, w1) → w_name_local (gi_func i) x (v_name d) w1 = Some w2 →
  renamed (either (g_vals s) (gi_vals i)) (pairs (gi_bbs i)) (FM s) (v_kind d) (requested r) →
  (own_type (v_kind d) = true → ∀ t, requested_ty r t → t = v_ty d) →
  Acc (opnd p) v →
  let s' := put_info c (GInfo (gi_func i) (gi_bbs i) (<[v := x]> (gi_vals i))) (set_gworld w2 s) in
  Inv p (S ++ [TVal v]) O s' ∧ grows s s'.
Proof.
  intros I Hcur Hc Hfd Hd Hn Hk Hr H1 H2 Hren Hty Hacc s'.
  destruct (iv_f _ _ _ _ I _ _ Hc) as (fd0 & y & K1 & K2 & K3 & K4). rewrite Hfd in K1. injection K1 as <-.
  destruct (new_local_view _ _ _ _ _ _ H1 (iv_room _ _ _ _ I)) as (fdw & t & Hw & Ho & Hx & Ht & Hq).
  assert (y = fv fdw) as -> by (rewrite lookup_fmap, Hw in K2; by injection K2 as <-).
  assert (t = v_ty d) as ->.
  { pose proof (proj2 (rg_typed _ HR) _ _ _ _ Hfd Hd) as Hpt. rewrite Hk in Hpt.
    eapply renamed_type; [exact Hren|exact Hpt|exact Ht| | |].
    - intros u u' Hu _. by eapply (env_vals _ _ _ _ _ _ _ u u' I Hc Hfd Hw).
    - intros f f' Hf _. by apply (env_funs S O s f f').
    - intros Hot. by apply Hty. }
  destruct (view_name_local _ _ _ _ _ H2) as (y & z & Ho2 & Hz).
  pose proof (only_after _ _ _ _ _ Ho) as Ha. rewrite (proj1 Ho2) in Ha. apply (inj Some) in Ha. subst y.
  pose proof (only_trans _ _ _ _ _ _ _ Ho Ho2) as Hon. simpl in Hon, Hz.
  rewrite lookup_insert in Hz. injection Hz as <-. simpl in Hon. unfold set_wvals in Hon. simpl in Hon.
  rewrite insert_insert in Hon.
  assert (Hnv : gi_vals i !! v = None).
  { apply eq_None_not_Some. intros Hs. apply Hn. apply (iv_sv _ _ _ _ I). right. by exists c, i. }
  eapply (inv_update p S _ O O s c i (GInfo (gi_func i) (gi_bbs i) (<[v := x]> (gi_vals i))) _ _ w2 fd); [exact HR|exact I|exact Hc|reflexivity|exact Hon|exact Hfd|..].
  - intros f Hf. rewrite blocks_in_app. simpl. by rewrite app_nil_r.
  - rewrite allocs_in_app. change [TVal v] with (TVal <$> [v]). rewrite (allocs_in_vals c fd [v] Hfd); [by rewrite app_nil_r|].
    intros u Hu. apply elem_of_list_singleton in Hu as ->. by eexists.
  - rewrite funcs_in_app. simpl. by rewrite app_nil_r.
  - reflexivity.
  - intros u. rewrite elem_of_app, elem_of_list_singleton. simpl. split.
    + intros [?|[= ->]]; [by left|right; rewrite lookup_insert; by eexists].
    + intros [?|Hs]; [by left|]. destruct (decide (u = v)) as [->|Hne]; [by right|].
      left. apply (iv_sv _ _ _ _ I). right. exists c, i. split; [done|]. by rewrite lookup_insert_ne in Hs.
  - intros b. rewrite elem_of_app, elem_of_list_singleton. simpl. split; [intros [?|?]; [by left|done]|].
    intros [?|Hs]; [by left|]. left. apply (iv_sb _ _ _ _ I). by exists c, i.
  - intros f. rewrite elem_of_app, elem_of_list_singleton. split; [intros [?|?]; done|by left].
  - intros u Hu. apply elem_of_app in Hu as [Hu|Hu]; [by apply (iv_acc _ _ _ _ I)|].
    apply elem_of_list_singleton in Hu. injection Hu as ->. done.
  - intros f fd' b bd u Hf Hb Hu Hin. apply elem_of_app in Hin as [Hin|Hin].
    + apply elem_of_app. left. by eapply (iv_par _ _ _ _ I).
    + apply elem_of_list_singleton in Hin. injection Hin as ->. exfalso.
      destruct (bb_params_kind p HR _ _ _ _ _ Hf Hb Hu) as (d' & j & Hd' & Hk').
      assert (f = c) as -> by (eapply (rg_own _ HR f c); [done|done|by eexists..]).
      rewrite Hfd in Hf. injection Hf as <-. rewrite Hd in Hd'. injection Hd' as <-. by rewrite Hk' in Hk.
  - intros b Hb. apply elem_of_app. left. by apply (iv_O _ _ _ _ I).
  - simpl. by apply insert_subseteq.
  - reflexivity.
  - eapply evolves_2; [by eapply evolves_new|by eapply evolves_name].
  - simpl. rewrite blocks_in_app. simpl. rewrite app_nil_r.
    apply (fun_inv_add _ _ _ _ _ _ _ _ [v] [x] _ K3).
    + apply NoDup_singleton.
    + apply NoDup_singleton.
    + done.
    + intros k Hk'. by apply elem_of_list_singleton in Hk' as ->.
    + intros k Hk'. by apply elem_of_list_singleton in Hk' as ->.
    + intros k Hk'. rewrite lookup_insert_ne; [done|]. intros <-. apply Hk'. by left.
    + intros [|j] k k' Hj Hj'; [|done]. injection Hj as <-. injection Hj' as <-. exists d, (requested r).
      rewrite lookup_insert. done.
  - simpl. simpl in K4. eapply list.Forall2_impl; [exact K4|]. intros a b Hab. unfold pairs.
    rewrite lookup_insert_ne; [exact Hab|]. intros <-. unfold pairs in Hab. by rewrite Hnv in Hab.
Qed.

(** ** A global value *)
Lemma vals_size S O s v : Inv p S O s → is_Some (p_values p !! v) → g_vals s !! v = None →
  (base.size (g_vals s) < base.size (p_values p))%nat.
Proof.
  intros I Hv Hn. rewrite <- !size_dom. apply subset_size. split.
  - intros u Hu. apply elem_of_dom in Hu as [u' Hu]. destruct (iv_g _ _ _ _ I _ _ Hu) as (d & _ & Hd & _). apply elem_of_dom. by eexists.
  - intros H. specialize (H v ltac:(by apply elem_of_dom)). apply elem_of_dom in H as [? H]. by rewrite Hn in H.
Qed.
Lemma step_global S O s v d r x w1 w2 :
  Inv p S O s → g_cur s = None → p_values p !! v = Some d →
  TVal v ∉ S → global_req r = true →
  w_new_global r (g_world s) = Some (x, w1) → w_name_global x (v_name d) w1 = Some w2 →
  renamed (pairs (g_vals s)) (λ _ _, False) (λ _ _, False) (v_kind d) (requested r) →
  (own_type (v_kind d) = true → ∀ t, requested_ty r t → t = v_ty d) →
  Acc (opnd p) v →
  let s' := GSt w2 (<[v := x]> (g_vals s)) (g_funcs s) None in
  Inv p (S ++ [TVal v]) O s' ∧ grows s s'.
Proof.
  intros I Hcur Hd Hn Hr H1 H2 Hren Hty Hacc s'.
  assert (Hnv : g_vals s !! v = None).
  { apply eq_None_not_Some. intros Hs. apply Hn. apply (iv_sv _ _ _ _ I). by left. }
  pose proof (vals_size _ _ _ _ I ltac:(by eexists) Hnv) as Hsz.
  pose proof (iv_room _ _ _ _ I) as R.
  set (k := (N.of_nat (base.size (p_values p)) - N.of_nat (base.size (<[v:=x]> (g_vals s))))%N).
  assert (Ek : (N.of_nat (base.size (p_values p)) - N.of_nat (base.size (g_vals s)) = 1 + k)%N).
  { unfold k. rewrite map_size_insert_None by done. lia. }
  rewrite Ek in R.
  destruct (view_new_global k _ _ _ _ H1 Hr R) as (dd & Hb & G1 & _ & G2 & G3 & G4 & G5 & G6).
  destruct (view_name_global _ _ _ _ H2) as (y & N1 & N2 & N3 & N4 & N5).
  rewrite G2, lookup_insert in N1. injection N1 as <-. rewrite G2, insert_insert in N2. simpl in N2.
  apply build_sound in Hb as (_ & Ht & Hq). apply global_querier_env in Ht.
  assert (Et : v_ty dd = v_ty d).
  { eapply renamed_type; [exact Hren|exact (proj1 (rg_typed _ HR) _ _ Hd)|exact Ht| | |].
    - intros u u' Hu _. simpl. destruct (iv_g _ _ _ _ I _ _ Hu) as (du & k' & Hdu & Hdu' & _).
      rewrite lookup_fmap in Hdu'. apply fmap_Some in Hdu' as (d' & Hdu' & E). rewrite Hdu, Hdu'. simpl. unfold vi in E. congruence.
    - intros f f' [].
    - intros Hot. by apply Hty. }
  rewrite Et in N2. clear G2 Ht Hq.
  assert (Hsub : g_vals s ⊆ <[v := x]> (g_vals s)) by (by apply insert_subseteq).
  assert (Hgr : grows s s').
  { split; [exact Hsub|]. intros f i Hi. by exists i. }
  split; [|exact Hgr].
  assert (Hold : ∀ u u', g_vals s !! u = Some u' → u' ≠ x).
  { intros u u' Hu ->. destruct (iv_g _ _ _ _ I _ _ Hu) as (? & ? & _ & Hx & _). by rewrite G1 in Hx. }
  destruct I as [I1 I2 I3 I4 I5 I6 I7 I8 I9 I10 I11 I12 I13 I14 I15 I16]. constructor; cbn [g_world g_vals g_funcs g_cur s'].
  - intros u. rewrite elem_of_app, elem_of_list_singleton, I1. split.
    + intros [[Hs|?]|[= ->]]; [left|by right|left; rewrite lookup_insert; by eexists].
      destruct Hs as [z Hz]. exists z. by eapply lookup_weaken.
    + intros [Hs|?]; [|by left; right]. destruct (decide (u = v)) as [->|Hne]; [by right|].
      rewrite lookup_insert_ne in Hs by done. by left; left.
  - intros b. rewrite elem_of_app, elem_of_list_singleton, I2. split; [intros [?|?]; done|by left].
  - intros f. rewrite elem_of_app, elem_of_list_singleton, I3. split; [intros [?|?]; done|by left].
  - intros u Hu. apply elem_of_app in Hu as [Hu|Hu]; [by apply I4|].
    apply elem_of_list_singleton in Hu. injection Hu as ->. done.
  - intros f fd' b bd u Hf Hb Hu Hin. apply elem_of_app in Hin as [Hin|Hin].
    + apply elem_of_app. left. by eapply I5.
    + apply elem_of_list_singleton in Hin. injection Hin as ->. exfalso.
      destruct (bb_params_kind p HR _ _ _ _ _ Hf Hb Hu) as (d' & j & Hd' & Hk').
      eapply (local_not_global p HR f fd' v); [done|by eexists|by eexists].
  - done.
  - intros b Hb. apply elem_of_app. left. by apply I7.
  - change (room k w2). eapply (room_evolves 0); [exact G6|]. by apply (evolves_op (ONameGlobal x (v_name d))).
  - assert (Hup : ∀ a b, renamed (pairs (g_vals s)) (λ _ _, False) (λ _ _, False) a b →
      renamed (pairs (<[v:=x]> (g_vals s))) (λ _ _, False) (λ _ _, False) a b).
    { intros a b. apply renamed_mono; [|done|done]. intros ? ? Hx. by eapply lookup_weaken. }
    intros u u' Hu. destruct (decide (u = v)) as [->|Hne].
    + rewrite lookup_insert in Hu. injection Hu as <-. exists d, (requested r). split; [done|].
      split; [by rewrite N2, lookup_insert|by apply Hup].
    + rewrite lookup_insert_ne in Hu by done. destruct (I9 _ _ Hu) as (du & k' & Hdu & Hdu' & Hru).
      exists du, k'. split; [done|]. split; [|by apply Hup].
      rewrite N2, lookup_insert_ne; [done|]. intros E. by apply (Hold _ _ Hu).
  - intros a a' b Ha Ha'. destruct (decide (a = v)) as [->|Hne], (decide (a' = v)) as [->|Hne']; [done|..].
    + rewrite lookup_insert in Ha. rewrite lookup_insert_ne in Ha' by done. injection Ha as <-. by destruct (Hold _ _ Ha').
    + rewrite lookup_insert in Ha'. rewrite lookup_insert_ne in Ha by done. injection Ha' as <-. by destruct (Hold _ _ Ha).
    + rewrite lookup_insert_ne in Ha, Ha' by done. by eapply I10.
  - intros v' Hs. rewrite N2 in Hs. destruct (decide (v' = x)) as [->|Hne]; [exists v; by rewrite lookup_insert|].
    rewrite lookup_insert_ne in Hs by done. destruct (I11 _ Hs) as [u Hu]. exists u. by eapply lookup_weaken.
  - rewrite allocs_in_app, N5, G5. apply Forall2_app.
    + eapply list.Forall2_impl; [exact I12|]. intros a b Hab. by eapply lookup_weaken.
    + unfold allocs_in. simpl. rewrite Hd. destruct Hren; simpl; try constructor; [|constructor]. unfold pairs. by rewrite lookup_insert.
  - intros f i Hi. destruct (I13 _ _ Hi) as (fd & y & K1 & K2 & K3 & K4). exists fd, y. split; [done|].
    split; [by rewrite N3, G3|]. split; [|done]. rewrite blocks_in_app. simpl. rewrite app_nil_r.
    revert K3. by apply fun_inv_mono.
  - exact I14.
  - rewrite N3, G3. exact I15.
  - rewrite funcs_in_app, N4, G4. simpl. rewrite app_nil_r. exact I16.
Qed.
End steps.
