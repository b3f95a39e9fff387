(** From the raw form back to the program (C40). *)
From Coq Require Import Lia ZifyBool ZifyNat ZifyN.
From Verif Require Import Base IdModel TypeModel IrModel LayoutModel BuilderModel WorldModel FrontModel
  UsesSpec UsesProofs DfgSpec DfgProofs WorldSpec WorldProofs TypingSpec TypingProofs TypingHistory HistoryProofs ViewProofs
  RawModel RawSpec RawBuildProofs RawWalkProofs RawInvProofs RawStepProofs RawBlockProofs RawGenProofs.

Lemma inv_start p i : counting i → (next_gv i + N.of_nat (base.size (p_values p)) ≤ local_value_id_starts_from)%N →
  Inv p [] ∅ (GSt (World i program0) ∅ ∅ None).
Proof.
  intros C H. constructor; simpl.
  - intros v. split; [intros Hx; by apply elem_of_nil in Hx|]. intros [[? Hx]|(f & j & Hx & _)]; by rewrite lookup_empty in Hx.
  - intros v. split; [intros Hx; by apply elem_of_nil in Hx|]. intros (f & j & Hx & _); by rewrite lookup_empty in Hx.
  - intros v. split; [intros Hx; by apply elem_of_nil in Hx|]. intros [? Hx]; by rewrite lookup_empty in Hx.
  - intros v Hx. by apply elem_of_nil in Hx.
  - intros ? ? ? ? ? ? ? ? Hx. by apply elem_of_nil in Hx.
  - done.
  - intros b [? Hx]. by rewrite lookup_empty in Hx.
  - apply room_start; [done|]. rewrite map_size_empty. lia.
  - intros ? ? Hx. by rewrite lookup_empty in Hx.
  - intros ? ? ? Hx. by rewrite lookup_empty in Hx.
  - intros ? [? Hx]. by rewrite fmap_empty, lookup_empty in Hx.
  - constructor.
  - intros ? ? Hx. by rewrite lookup_empty in Hx.
  - intros ? ? ? ? Hx. by rewrite lookup_empty in Hx.
  - intros ? [? Hx]. by rewrite fmap_empty, lookup_empty in Hx.
  - constructor.
Qed.
Lemma inv_isomorphic p o s : regular p → Inv p o ∅ s →
  isomorphic_as (allocs_in p o) (funcs_in o) (blocks_in p o) p (w_prog (g_world s)).
Proof.
  intros HR I. set (w := g_world s). exists (g_vals s), (gi_func <$> g_funcs s).
  assert (HFM : ∀ f f', FM s f f' ↔ pairs (gi_func <$> g_funcs s) f f').
  { intros f f'. unfold pairs. rewrite lookup_fmap. split.
    - intros (i & -> & <-). done.
    - intros H. apply fmap_Some in H as (i & H & ->). by exists i. }
  split; [apply (iv_ginj _ _ _ _ I)|]. split.
  { intros f f' g H1 H2. rewrite lookup_fmap in H1, H2. apply fmap_Some in H1 as (i & H1 & ->). apply fmap_Some in H2 as (j & H2 & E).
    by eapply (iv_finj _ _ _ _ I). }
  split; [apply (iv_gl _ _ _ _ I)|]. split.
  { eapply list.Forall2_impl; [apply (iv_fl _ _ _ _ I)|]. intros a b. by rewrite HFM. }
  split.
  { intros v v' Hv. destruct (iv_g _ _ _ _ I _ _ Hv) as (d & k' & Hd & Hd' & Hr). rewrite lookup_fmap in Hd'.
    apply fmap_Some in Hd' as (d' & Hd' & E). unfold vi in E. injection E as E1 E2 E3. exists d, d'.
    split; [done|]. split; [done|]. split; [done|]. split; [done|]. by rewrite <- E3. }
  split.
  { intros f f' Hf. apply HFM in Hf as (i & Hi & <-). destruct (iv_f _ _ _ _ I _ _ Hi) as (fd & x & K1 & K2 & K3 & K4).
    rewrite lookup_fmap in K2. apply fmap_Some in K2 as (fd' & K2 & ->). exists fd, fd'. split; [done|]. split; [done|].
    destruct K3 as [J1 J2 J3 J4 J5 J6 J7 J8 J10 J9]. constructor; [done|done|]. exists (gi_vals i), (gi_bbs i).
    split; [done|]. split; [done|]. split; [exact K4|]. split.
    { eapply list.Forall2_impl; [exact J9|]. intros b e (H1 & is & H2 & H3). split; [done|]. exists is.
      unfold progress in H2. rewrite lookup_empty in H2. done. }
    split.
    { intros b b' Hb. destruct (J7 _ _ Hb) as (d & ps & H1 & H2 & H3). simpl in H2. rewrite lookup_fmap in H2.
      apply fmap_Some in H2 as (d' & H2 & E). unfold bv in E. injection E as E1 E2. exists d, d'. rewrite <- E1, <- E2. done. }
    split.
    { intros v v' Hv. destruct (J5 _ _ Hv) as (d & k' & H1 & H2 & H3). simpl in H2. rewrite lookup_fmap in H2.
      apply fmap_Some in H2 as (d' & H2 & E). unfold vi in E. injection E as E1 E2 E3. exists d, d'.
      split; [done|]. split; [done|]. split; [done|]. split; [done|]. rewrite <- E3. revert H3.
      apply renamed_mono; [|done|by intros; apply HFM]. unfold pairs. intros a b [Ha|Ha].
      - by rewrite (lookup_union_Some_l _ _ _ _ Ha).
      - rewrite lookup_union_r; [done|]. destruct (g_vals s !! a) as [z|] eqn:Hz; [|done]. exfalso.
        destruct (iv_g _ _ _ _ I _ _ Hz) as (da & _ & Hda & _). destruct (J5 _ _ Ha) as (da' & _ & Hda' & _).
        eapply (local_not_global p HR f fd a); [done|by eexists|by eexists]. }
    split.
    - intros v' Hv'. apply J6. simpl. rewrite lookup_fmap. by apply fmap_is_Some.
    - intros b' Hb'. apply J8. simpl. rewrite lookup_fmap. by apply fmap_is_Some. }
  split.
  - intros v' Hv'. apply (iv_gonto _ _ _ _ I). rewrite lookup_fmap. by apply fmap_is_Some.
  - intros f' Hf'. destruct (iv_fonto _ _ _ _ I f') as [f Hf]; [rewrite lookup_fmap; by apply fmap_is_Some|]. exists f. by apply HFM.
Qed.
Lemma generate_ok i n r h p p' i' : regular p → heap_ok p h → r_values r = p_inst_layout p → r_funcs r = p_func_layout p →
  counting i → (next_gv i + N.of_nat (base.size (p_values p)) ≤ local_value_id_starts_from)%N →
  generate_program i n r h = Done (p', i') →
  ∃ o, discovered p o ∧ isomorphic_as (allocs_in p o) (funcs_in o) (blocks_in p o) p p'.
Proof.
  intros HR HH E1 E2 C Hsz H. unfold generate_program in H. rewrite E1, E2 in H.
  rb H y H1. destruct y as [xs s1]. rb H y H2. destruct y as [ys s2]. injection H as <- <-.
  destruct (each_ok p _ _ (gen_spec p h HR HH n) _ _ _ _ _ H1 (inv_start p i C Hsz)) as (o1 & W1 & I1 & G1 & C1 & P1).
  { intros t Ht. apply elem_of_list_fmap in Ht as (v & -> & Hv). simpl. by apply (rg_layout _ HR). }
  assert (Hr : ready p s1).
  { intros v Hv. apply elem_of_list_lookup in Hv as [j Hj].
    destruct (Forall2_lookup_l _ _ _ j (TVal v) P1) as (x & _ & Hx). { by rewrite list_lookup_fmap, Hj. }
    destruct Hx as [Hx|(c & ? & Hc & _)]; [by eexists|]. by rewrite C1 in Hc. }
  destruct (each_ok p _ _ (gen_spec p h HR HH n) _ _ _ _ _ H2 I1) as (o2 & W2 & I2 & G2 & C2 & P2).
  { intros t Ht. apply elem_of_list_fmap in Ht as (v & -> & Hv). exact Hr. }
  exists (o1 ++ o2). split; [by apply walk_app|]. exact (inv_isomorphic p (o1 ++ o2) s2 HR I2).
Qed.

(** ** Everything listed is met *)
Lemma walk_covers p S l o : regular p → walk p S l o → ∀ t, t ∈ l → t ∈ S ++ o.
Proof.
  intros HR H. induction H as [S|S t l o Ht Hw IH|S v d l o o' Hn Hv Hp Hr IHr Hw IH|S b d is l o o' Hn Hb Hr IHr Hw IH|S f fd l o o' Hn Hf Hr IHr Hw IH];
    intros u Hu.
  - by apply elem_of_nil in Hu.
  - apply elem_of_cons in Hu as [E|Hu]; [subst u; apply elem_of_app; by left|by apply IH].
  - apply elem_of_cons in Hu as [E|Hu]; [subst u; rewrite !elem_of_app; right; left; right; by left|].
    apply IH in Hu. rewrite !elem_of_app in *. tauto.
  - apply elem_of_cons in Hu as [E|Hu]; [subst u; rewrite !elem_of_app; right; left; left; by left|].
    apply IH in Hu. rewrite !elem_of_app in *. tauto.
  - apply elem_of_cons in Hu as [E|Hu]; [subst u; rewrite !elem_of_app; right; left; left; by left|].
    apply IH in Hu. rewrite !elem_of_app in *. tauto.
Qed.
Lemma walk_inside p S l o : regular p → walk p S l o →
  (∀ f fd b, TFunc f ∈ o → p_funcs p !! f = Some fd → b ∈ (l_bbs (f_layout fd)).*1 → TBlk b ∈ S ++ o) ∧
  (∀ b d is v, TBlk b ∈ o → block_of p b d is → v ∈ is → TVal v ∈ S ++ o).
Proof.
  intros HR H. induction H as [S|S t l o Ht Hw IH|S v d l o o' Hn Hv Hp Hr IHr Hw IH|S b d is l o o' Hn Hb Hr IHr Hw IH|S f fd l o o' Hn Hf Hr IHr Hw IH].
  - split; intros * Hx; by apply elem_of_nil in Hx.
  - exact IH.
  - destruct IHr as [A1 A2], IH as [B1 B2]. split.
    + intros f fd b Hin Hf Hb. apply elem_of_app in Hin as [Hin|Hin].
      * apply elem_of_app in Hin as [Hin|Hin]; [|by apply elem_of_list_singleton in Hin].
        specialize (A1 _ _ _ Hin Hf Hb). rewrite !elem_of_app in *. tauto.
      * specialize (B1 _ _ _ Hin Hf Hb). rewrite !elem_of_app in *. tauto.
    + intros b bd is u Hin Hb Hu. apply elem_of_app in Hin as [Hin|Hin].
      * apply elem_of_app in Hin as [Hin|Hin]; [|by apply elem_of_list_singleton in Hin].
        specialize (A2 _ _ _ _ Hin Hb Hu). rewrite !elem_of_app in *. tauto.
      * specialize (B2 _ _ _ _ Hin Hb Hu). rewrite !elem_of_app in *. tauto.
  - destruct IHr as [A1 A2], IH as [B1 B2]. split.
    + intros f fd b' Hin Hf Hb'. apply elem_of_app in Hin as [Hin|Hin].
      * apply elem_of_app in Hin as [Hin|Hin]; [apply elem_of_cons in Hin as [?|Hin]; [done|by apply no_fmap_fun in Hin]|].
        specialize (A1 _ _ _ Hin Hf Hb'). rewrite !elem_of_app in *. tauto.
      * specialize (B1 _ _ _ Hin Hf Hb'). rewrite !elem_of_app in *. tauto.
    + intros b' bd is' u Hin Hb' Hu. apply elem_of_app in Hin as [Hin|Hin].
      * apply elem_of_app in Hin as [Hin|Hin].
        { apply elem_of_cons in Hin as [[= ->]|Hin]; [|by apply no_fmap_blk in Hin].
          destruct (block_of_det p HR _ _ _ _ _ Hb' Hb) as [_ ->].
          pose proof (walk_covers _ _ _ _ HR Hr (TVal u) ltac:(by apply elem_vals_val)) as Hc. rewrite !elem_of_app in *. tauto. }
        specialize (A2 _ _ _ _ Hin Hb' Hu). rewrite !elem_of_app in *. tauto.
      * specialize (B2 _ _ _ _ Hin Hb' Hu). rewrite !elem_of_app in *. tauto.
  - destruct IHr as [A1 A2], IH as [B1 B2]. split.
    + intros g gd b Hin Hg Hb. apply elem_of_app in Hin as [Hin|Hin].
      * apply elem_of_app in Hin as [Hin|Hin].
        { apply elem_of_cons in Hin as [[= ->]|Hin]; [|by apply no_fmap_fun in Hin]. rewrite Hf in Hg. injection Hg as <-.
          pose proof (walk_covers _ _ _ _ HR Hr (TBlk b) ltac:(apply elem_of_list_fmap; by exists b)) as Hc. rewrite !elem_of_app in *. tauto. }
        specialize (A1 _ _ _ Hin Hg Hb). rewrite !elem_of_app in *. tauto.
      * specialize (B1 _ _ _ Hin Hg Hb). rewrite !elem_of_app in *. tauto.
    + intros b bd is u Hin Hb Hu. apply elem_of_app in Hin as [Hin|Hin].
      * apply elem_of_app in Hin as [Hin|Hin]; [apply elem_of_cons in Hin as [?|Hin]; [done|by apply no_fmap_blk in Hin]|].
        specialize (A2 _ _ _ _ Hin Hb Hu). rewrite !elem_of_app in *. tauto.
      * specialize (B2 _ _ _ _ Hin Hb Hu). rewrite !elem_of_app in *. tauto.
Qed.
Lemma discovered_all p o : regular p → discovered p o →
  (∀ f, f ∈ p_func_layout p → f ∈ funcs_in o) ∧
  (∀ f b, f ∈ funcs_in o → b ∈ listed_blocks p f → b ∈ blocks_in p o f).
Proof.
  intros HR H. assert (Hf : ∀ f, TFunc f ∈ o ↔ f ∈ funcs_in o).
  { intros f. unfold funcs_in. rewrite elem_of_list_omap. split; [by exists (TFunc f)|]. intros ([| |g] & Hin & [= ->]). done. }
  split.
  - intros f Hin. apply Hf. apply (walk_covers _ _ _ _ HR H (TFunc f)). apply elem_of_app. right. apply elem_of_list_fmap. by exists f.
  - intros f b Hin Hb. unfold listed_blocks in Hb. destruct (p_funcs p !! f) as [fd|] eqn:Hfd; [|by apply elem_of_nil in Hb].
    apply (elem_blocks_in p o f fd b Hfd). split; [|by apply (rg_bbs _ HR f fd b Hfd)].
    by apply (proj1 (walk_inside _ _ _ _ HR H) f fd b); [apply Hf| |].
Qed.

(** ** Both directions *)
Lemma isomorphic_as_ext gs gs' fs fs' bs bs' p p' : gs = gs' → fs = fs' →
  (∀ f, is_Some (p_funcs p !! f) → bs f = bs' f) → isomorphic_as gs fs bs p p' → isomorphic_as gs' fs' bs' p p'.
Proof.
  intros <- <- Hb (G & Fm & H1 & H2 & H3 & H4 & H5 & H6 & H7 & H8). exists G, Fm.
  split; [done|]. split; [done|]. split; [done|]. split; [done|]. split; [done|]. split; [|done].
  intros f f' Hf. destruct (H6 _ _ Hf) as (fd & fd' & A & B & C). exists fd, fd'. split; [done|]. split; [done|].
  by rewrite <- Hb by (by eexists).
Qed.
Lemma raw_any_order ord nb ng p r h i p' i' :
  regular p →
  counting i → (next_gv i + N.of_nat (base.size (p_values p)) ≤ local_value_id_starts_from)%N →
  build_on ord nb p = Done (r, h) → generate_program i ng r h = Done (p', i') →
  ∃ o, discovered p o ∧ isomorphic_as (allocs_in p o) (funcs_in o) (blocks_in p o) p p' ∧
    (∀ f, f ∈ p_func_layout p → f ∈ funcs_in o) ∧
    (∀ f b, f ∈ funcs_in o → b ∈ listed_blocks p f → b ∈ blocks_in p o f).
Proof.
  intros HR C Hs Hb Hg. apply build_on_ok in Hb as (HH & E1 & E2).
  destruct (generate_ok _ _ _ _ _ _ _ HR HH E1 E2 C Hs Hg) as (o & Ho & Hi). exists o. split; [done|]. split; [done|].
  by apply discovered_all.
Qed.
Lemma raw_round_trip ord nb ng p r h i p' i' :
  regular p → in_discovery_order p →
  counting i → (next_gv i + N.of_nat (base.size (p_values p)) ≤ local_value_id_starts_from)%N →
  build_on ord nb p = Done (r, h) → generate_program i ng r h = Done (p', i') →
  isomorphic p p'.
Proof.
  intros HR (o & Ho & E1 & E2 & E3) C Hs Hb Hg. destruct (raw_any_order _ _ _ _ _ _ _ _ _ HR C Hs Hb Hg) as (o' & Ho' & Hi & _).
  assert (o' = o) as -> by (exact (walk_det p HR _ _ _ Ho' _ Ho)). by apply (isomorphic_as_ext _ _ _ _ _ _ _ _ E1 E2 E3).
Qed.
(** Names of blocks, as listed. *)
Definition block_names (p : program) (f : func) : list (option string) :=
  match p_funcs p !! f with
  | Some fd => (λ b, match blks fd !! b with Some d => bb_name d | None => None end) <$> (l_bbs (f_layout fd)).*1
  | None => [] end.
Lemma isomorphic_names p p' : isomorphic p p' → block_names p <$> p_func_layout p = block_names p' <$> p_func_layout p'.
Proof.
  intros (G & Fm & H1 & H2 & H3 & H4 & H5 & H6 & H7 & H8). induction H4 as [|f f' fs fs' Hf H4 IH]; [done|].
  rewrite !fmap_cons, IH. f_equal. clear -Hf H6. destruct (H6 _ _ Hf) as (fd & fd' & A & B & [_ _ (Vm & Bm & _ & _ & _ & Hl & Hb & _)]).
  unfold block_names. rewrite A, B. unfold listed_blocks in Hl. rewrite A in Hl.
  induction Hl as [|b e bs l [He _] Hl IH]; [done|]. rewrite !fmap_cons, IH. f_equal.
  destruct (Hb _ _ He) as (d & d' & Hd & Hd' & E & _). by rewrite Hd, Hd', E.
Qed.
