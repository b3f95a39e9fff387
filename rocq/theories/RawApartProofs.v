(** The program that is read back from a raw form: handles, and which blocks come first (C63). *)
From Coq Require Import Lia ZifyBool ZifyNat ZifyN.
From Verif Require Import Base IdModel TypeModel IrModel LayoutModel BuilderModel WorldModel FrontModel
  UsesSpec UsesProofs DfgSpec DfgOps DfgProofs WorldSpec WorldProofs TypingSpec TypingProofs TypingHistory HistoryProofs ProgLayoutProofs ViewProofs
  RawModel RawSpec RawBuildProofs RawWalkProofs RawInvProofs RawStepProofs RawBlockProofs RawGenProofs RawTopProofs IsoRunSpec.

(** ** No handle is zero *)
Definition no_zero (w : world) : Prop := p_values (w_prog w) !! 0%N = None.
Lemma skel_zero gs gs' : same_skel gs gs' → gs !! 0%N = None → gs' !! 0%N = None.
Proof. intros H Hn. apply eq_None_not_Some. intros Hs. apply (same_skel_is_Some _ _ _ H) in Hs. rewrite Hn in Hs. by apply is_Some_None in Hs. Qed.
Lemma on_dfg_zero {A} w f (op : ids → gmap N vdata → dfg → option (A * ids * gmap N vdata * dfg)) a w' : no_zero w →
  (∀ fd a i' gs' g', op (w_ids w) (p_values (w_prog w)) (f_dfg fd) = Some (a, i', gs', g') → same_skel (p_values (w_prog w)) gs') →
  on_dfg w f op = Some (a, w') → no_zero w'.
Proof.
  intros Hz Hop H. unfold on_dfg in H. apply bind_Some in H as (fd & Hfd & H).
  apply bind_Some in H as ([[[a0 i'] gs'] g'] & H1 & H). simplify_eq. unfold no_zero. simpl. apply Hop in H1. by eapply skel_zero.
Qed.
Lemma step_zero o w w' : fe_op o → no_zero w → step o w = Some w' → no_zero w'.
Proof.
  intros Ho HP H. destruct o; cbn [fe_op] in Ho; try done; cbn [step] in H.
  - apply fmap_Some in H as ([v w1] & H & ->). eapply on_dfg_zero; [exact HP| |exact H].
    intros fd a i' gs' g' Hop. cbv beta in Hop. apply bind_Some in Hop as (d & Hb & Hop). by eapply new_value_skel.
  - unfold w_name_local in H. apply bind_Some in H as ([[] w1] & H & Hw). simplify_eq. eapply on_dfg_zero; [exact HP| |exact H].
    intros fd a i' gs' g' Hop. cbv beta in Hop. apply bind_Some in Hop as (g1 & Hr & Hop). by simplify_eq.
  - apply fmap_Some in H as ([b w1] & H & ->). eapply on_dfg_zero; [exact HP| |exact H].
    intros fd a i' gs' g' Hop. cbv beta in Hop. unfold basic_block_with_param_names in Hop.
    apply bind_Some in Hop as ([] & _ & Hop). apply bind_Some in Hop as ([] & _ & Hop).
    apply bind_Some in Hop as ([[[vs i1] gs1] g1] & H1 & Hop). apply bind_Some in Hop as ([[b2 i2] g2] & H2 & Hop). simplify_eq.
    by apply new_block_args_skel in H1 as (? & ? & ?).
  - apply fmap_Some in H as ([v w1] & H & ->). unfold w_new_global in H. apply bind_Some in H as (d & Hb & H).
    unfold w_new_global_data in H. apply bind_Some in H as ([[v1 i1] p1] & H & Hw). simplify_eq.
    unfold global_insert_value in H. apply bind_Some in H as ([[v2 i2] p2] & H & Hw). simplify_eq.
    unfold prog_new_value_data in H. apply bind_Some in H as ([v0 i0] & Hid & H). apply bind_Some in H as (gs' & Hgs & H). simplify_eq.
    apply next_global_spec in Hid as (-> & Hne & ->). apply upd_guses_skel in Hgs. apply (skel_zero _ _ Hgs) in HP.
    unfold no_zero. destruct (is_global_alloc (v_kind d)); simpl; by rewrite lookup_insert_ne.
  - unfold w_name_global in H. apply bind_Some in H as (p1 & H & Hw). simplify_eq. unfold prog_set_value_name in H.
    apply bind_Some in H as (d & Hd & H). apply bind_Some in H as (d' & Hn & H). simplify_eq. unfold no_zero in *. simpl.
    rewrite lookup_insert_ne; [done|]. intros ->. congruence.
  - apply fmap_Some in H as ([f w1] & H & ->). unfold w_new_func_def in H. apply bind_Some in H as ([[f1 i1] p1] & H & Hw). simplify_eq.
    unfold prog_new_func_def in H. apply bind_Some in H as ([d i2] & Hd & H). unfold prog_new_func in H. apply bind_Some in H as ([f0 i0] & Hid & H). by simplify_eq.
  - apply fmap_Some in H as ([f w1] & H & ->). unfold w_new_func_decl in H. apply bind_Some in H as ([[f1 i1] p1] & H & Hw). simplify_eq.
    unfold prog_new_func_decl in H. apply bind_Some in H as (d & Hd & H). unfold prog_new_func in H. apply bind_Some in H as ([f0 i0] & Hid & H). by simplify_eq.
Qed.
Lemma run_zero os : ∀ w w', Forall fe_op os → no_zero w → run os w = Some w' → no_zero w'.
Proof.
  induction os as [|o os IH]; intros w w' Hos Hz H; cbn [run] in H; [by injection H as <-|]. apply list.Forall_cons in Hos as [Ho Hos].
  apply bind_Some in H as (w1 & H1 & H). apply (IH w1 w' Hos); [by eapply step_zero|done].
Qed.
Lemma room_apart n w : room n w → apart (w_prog w).
Proof.
  intros R. destruct (room_gv _ _ R) as [R1 R2]. destruct (room_lv _ _ R) as (_ & _ & R3).
  destruct R as (i & os & _ & F & R & _). apply run_zero in R; [|done|apply lookup_empty]. unfold no_zero in R. simpl in R. split.
  - intros v Hv. assert (v ≠ 0%N) by (intros ->; rewrite R in Hv; by apply is_Some_None in Hv). apply R2 in Hv.
    unfold is_global_id, global_value_id_starts_from. lia.
  - intros f fd v Hf Hv. assert (H : (local_value_id_starts_from ≤ v)%N); [|unfold is_global_id; lia].
    apply (R3 f (fv fd) v); [by rewrite lookup_fmap, Hf|]. simpl. rewrite lookup_fmap. by apply fmap_is_Some.
Qed.
Lemma generate_apart ord nb ng p r h i p' i' : regular p →
  counting i → (next_gv i + N.of_nat (base.size (p_values p)) ≤ local_value_id_starts_from)%N →
  build_on ord nb p = Done (r, h) → generate_program i ng r h = Done (p', i') → apart p'.
Proof.
  intros HR C Hsz Hb H. destruct (build_on_ok _ _ _ _ _ Hb) as (HH & E1 & E2). unfold generate_program in H. rewrite E1, E2 in H.
  rb H y H1. destruct y as [xs s1]. rb H y H2. destruct y as [ys s2]. injection H as <- <-.
  destruct (each_ok p _ _ (gen_spec p h HR HH ng) _ _ _ _ _ H1 (inv_start p i C Hsz)) as (o1 & W1 & I1 & G1 & C1 & P1).
  { intros t Ht. apply elem_of_list_fmap in Ht as (v & -> & Hv). simpl. by apply (rg_layout _ HR). }
  assert (Hr : ready p s1).
  { intros v Hv. apply elem_of_list_lookup in Hv as [j Hj].
    destruct (Forall2_lookup_l _ _ _ j (TVal v) P1) as (x & _ & Hx). { by rewrite list_lookup_fmap, Hj. }
    destruct Hx as [Hx|(c & ? & Hc & _)]; [by eexists|]. by rewrite C1 in Hc. }
  destruct (each_ok p _ _ (gen_spec p h HR HH ng) _ _ _ _ _ H2 I1) as (o2 & W2 & I2 & G2 & C2 & P2).
  { intros t Ht. apply elem_of_list_fmap in Ht as (v & -> & Hv). exact Hr. }
  exact (room_apart _ _ (iv_room _ _ _ _ I2)).
Qed.

(** ** The entry is met first *)
Section entry.
Context (p : program) (HR : regular p) (f : func) (fd : fdata) (Hf : p_funcs p !! f = Some fd).
Definition outside (t : task) : Prop :=
  match t with TVal v => vals fd !! v = None | TBlk b => blks fd !! b = None | TFunc _ => True end.
Lemma blocks_app o o' : blocks_in p (o ++ o') f = blocks_in p o f ++ blocks_in p o' f.
Proof. unfold blocks_in. by rewrite omap_app. Qed.
Lemma blocks_none o : blocks_in p o f = [] → ∀ b, TBlk b ∈ o → blks fd !! b = None.
Proof.
  intros H b Hb. apply eq_None_not_Some. intros [d Hd]. assert (Hin : b ∈ blocks_in p o f); [|by rewrite H in Hin; apply elem_of_nil in Hin].
  unfold blocks_in. apply elem_of_list_omap. exists (TBlk b). split; [done|]. by rewrite Hf, Hd.
Qed.
Lemma blocks_out o : (∀ b, TBlk b ∈ o → blks fd !! b = None) → blocks_in p o f = [].
Proof.
  intros H. unfold blocks_in. induction o as [|t o IH]; [done|]. cbn [omap list_omap]. rewrite Hf in *.
  assert (IH' : omap (λ t, match t with TBlk b => match blks fd !! b with Some _ => Some b | None => None end | _ => None end) o = []).
  { apply IH. intros b Hb. apply H. by right. }
  destruct t as [|b|]; [exact IH'| |exact IH']. rewrite (H b) by (by left). exact IH'.
Qed.
Definition first_block (o : list task) : Prop :=
  blocks_in p o f = [] ∨ head (blocks_in p o f) = head (l_bbs (f_layout fd)).*1.
Lemma first_app o o' : first_block o → (blocks_in p o f = [] → first_block o') → first_block (o ++ o').
Proof.
  unfold first_block. rewrite blocks_app. intros [H|H] H'; [rewrite H; cbn [app]; by apply H'|].
  destruct (blocks_in p o f); [by apply H'|by right].
Qed.
Lemma refs_outside v d t : value_of p v d → vals fd !! v = None → t ∈ refs (v_kind d) → outside t.
Proof.
  intros [Hv|(g & gd & Hg & Hv)] Hn Ht.
  - assert (∃ u, t = TVal u ∧ is_Some (p_values p !! u)) as (u & -> & Hu) by exact (global_refs p HR _ _ Hv _ Ht).
    apply eq_None_not_Some. intros Hs. pose proof (rg_local _ HR _ _ _ Hf Hs). pose proof (rg_global _ HR _ Hu). congruence.
  - destruct t as [u|b|c]; [| |done].
    + apply elem_refs_val in Ht. destruct (proj1 (proj2 (rg_closed _ HR)) g gd v u Hg ltac:(by exists d)) as [Hu|Hu]; apply eq_None_not_Some; intros Hs.
      * pose proof (rg_local _ HR _ _ _ Hf Hs). pose proof (rg_global _ HR _ Hu). congruence.
      * assert (g = f) as -> by (by eapply (rg_own _ HR)). rewrite Hf in Hg. injection Hg as <-. congruence.
    + apply elem_refs_blk in Ht. pose proof (proj2 (proj2 (rg_closed _ HR)) g gd v b Hg ltac:(by exists d)) as Hb. apply eq_None_not_Some. intros Hs.
      assert (g = f) as -> by (by eapply (rg_own_bb _ HR)). rewrite Hf in Hg. injection Hg as <-. congruence.
Qed.
Lemma walk_first S l o : walk p S l o → (∀ b, TBlk b ∈ S → blks fd !! b = None) → (∀ t, t ∈ l → outside t) → first_block o.
Proof.
  induction 1 as [S|S t l o Ht Hw IH|S v d l o o' Hn Hv Hp Hr IHr Hw IH|S b d is l o o' Hn Hb Hr IHr Hw IH|S g gd l o o' Hn Hg Hr IHr Hw IH]; intros HS Hl.
  - by left.
  - apply IH; [done|]. intros u Hu. apply Hl. by right.
  - assert (H1 : first_block o). { apply IHr; [done|]. intros t Ht. eapply refs_outside; [exact Hv| |exact Ht]. exact (Hl (TVal v) ltac:(by left)). }
    apply first_app; [apply first_app; [exact H1|by left]|]. intros Hnone. apply IH; [|intros u Hu; apply Hl; by right].
    rewrite blocks_app in Hnone. apply app_eq_nil in Hnone as [Hnone _]. pose proof (blocks_none _ Hnone) as Ho.
    intros b. rewrite !elem_of_app, elem_of_list_singleton. intros [H|[H|H]]; [by apply HS|by apply Ho|done].
  - assert (Hbo : blks fd !! b = None) by exact (Hl (TBlk b) ltac:(by left)).
    destruct Hb as (g & gd & Hg & Hd & Hin).
    assert (Hgf : g ≠ f) by (intros ->; rewrite Hf in Hg; injection Hg as <-; congruence).
    assert (Hvo : ∀ v, is_Some (vals gd !! v) → outside (TVal v)).
    { intros v Hv. apply eq_None_not_Some. intros Hs. apply Hgf. by eapply (rg_own _ HR). }
    assert (H0 : ∀ b', TBlk b' ∈ TBlk b :: (TVal <$> bb_params d) → blks fd !! b' = None).
    { intros b'. rewrite elem_of_cons. intros [[= ->]|H]; [done|]. by apply elem_of_list_fmap in H as (? & ? & _). }
    assert (H1 : first_block o).
    { apply IHr.
      - intros b'. rewrite elem_of_app. intros [H|H]; [by apply HS|by apply H0].
      - intros t Ht. apply elem_of_list_fmap in Ht as (v & -> & Hv). apply Hvo. by eapply (rg_insts _ HR). }
    apply first_app; [apply first_app; [left; by apply blocks_out|done]|]. intros Hnone. apply IH; [|intros u Hu; apply Hl; by right].
    pose proof (blocks_none _ Hnone) as Ho. intros b'. rewrite elem_of_app. intros [H|H]; [by apply HS|by apply Ho].
  - assert (H0 : ∀ b', TBlk b' ∈ TFunc g :: (TVal <$> f_params gd) → blks fd !! b' = None).
    { intros b'. rewrite elem_of_cons. intros [[=]|H]. by apply elem_of_list_fmap in H as (? & ? & _). }
    assert (H1 : first_block o).
    { destruct (decide (g = f)) as [->|Hne].
      - rewrite Hf in Hg. injection Hg as <-. destruct (l_bbs (f_layout fd)) as [|[b is] bl] eqn:El; cbn [fmap list_fmap] in Hr.
        + inversion Hr; subst. by left.
        + assert (Hb : is_Some (blks fd !! b)) by (apply (rg_bbs _ HR f fd b Hf); rewrite El; left).
          assert (Hnb : TBlk b ∉ S ++ TFunc f :: (TVal <$> f_params fd)).
          { rewrite elem_of_app. intros [H|H]; [rewrite (HS _ H) in Hb|rewrite (H0 _ H) in Hb]; by apply is_Some_None in Hb. }
          cbn [fst] in Hr. inversion Hr; subst; [done|]. right. unfold blocks_in. rewrite Hf. destruct Hb as [d' Hb]. rewrite El. cbn [app omap list_omap]. rewrite Hb. done.
      - apply IHr.
        + intros b'. rewrite elem_of_app. intros [H|H]; [by apply HS|by apply H0].
        + intros t Ht. apply elem_of_list_fmap in Ht as (b & -> & Hb). apply eq_None_not_Some. intros Hs. apply Hne.
          eapply (rg_own_bb _ HR); [exact Hg|exact Hf| |exact Hs]. by eapply (rg_bbs _ HR). }
    apply first_app; [apply first_app; [left; by apply blocks_out|done]|]. intros Hnone. apply IH; [|intros u Hu; apply Hl; by right].
    pose proof (blocks_none _ Hnone) as Ho. intros b'. rewrite elem_of_app. intros [H|H]; [by apply HS|by apply Ho].
Qed.
Lemma entry_first o : discovered p o → first_block o.
Proof.
  intros H. eapply walk_first; [exact H| |]. { intros b Hb. by apply elem_of_nil in Hb. }
  intros t. rewrite elem_of_app. intros [Ht|Ht]; apply elem_of_list_fmap in Ht as (v & -> & Hv); [|done].
  apply eq_None_not_Some. intros Hs. pose proof (rg_local _ HR _ _ _ Hf Hs). pose proof (rg_global _ HR _ (rg_layout _ HR _ Hv)). congruence.
Qed.
End entry.
