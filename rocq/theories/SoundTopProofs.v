(** Programs of the front end do not go wrong (C65). *)
From Coq Require Import Lia.
From stdpp Require Import list gmap.
From Verif Require Import Base IdModel TypeModel IrModel LayoutModel LexerModel LexerSpec LexerProofs ParserModel ParserSpec DriverModel DriverSpec
  ArithModel InterpModel DfgSpec UsesSpec TypingSpec ScopeSpec DominSpec FaithSpec RawSpec PrintSpec TreeWfProofs DceProperties
  InterpSimProofs IsoProgProofs RegularProofs DiscoverProofs LaidProofs SoundSpec SoundProofs SoundRunProofs.

Lemma front_ends p f fd b is : front p → p_funcs p !! f = Some fd → (b, is) ∈ l_bbs (f_layout fd) →
  ∃ v d, list.last is = Some v ∧ vals fd !! v = Some d ∧ (is_control (v_kind d) = true ∨ ∃ r, v_kind d = KReturn r).
Proof.
  intros Fp Hf Hb. destruct (fr_shape _ Fp) as (ts & (G & Fn & _ & HF & _) & He & Hs).
  pose proof (proj1 (fr_funcs _ Fp f) ltac:(by eexists)) as Hin. apply elem_of_list_lookup in Hin as [i Hi].
  destruct (Forall2_lookup_l _ _ _ _ _ HF Hi) as (t & Ht & fd' & Hf' & _ & Hfun). rewrite Hf in Hf'. injection Hf' as <-.
  apply elem_of_list_lookup_2, elem_of_list_filter in Ht as [_ Ht]. rewrite list.Forall_forall in He, Hs. specialize (He _ Ht). specialize (Hs _ Ht).
  destruct t as [|n ps r bbs|n ps r| |]; try done.
  - destruct Hfun as (_ & _ & _ & L & B & l & _ & H1 & _ & _ & _ & _ & H4).
    destruct (at_block fd G Fn L B l H4 _ _ Hb) as (a & Ha & _ & Hst).
    destruct (block_ends bbs l H1 He (proj2 Hs) _ Ha) as (body & fin & E & _ & Hfin). rewrite E in Hst.
    apply Forall2_app_inv_r in Hst as (is1 & is2 & _ & H2 & ->). apply Forall2_cons_inv_r in H2 as (v & is3 & H2 & H3 & ->).
    apply Forall2_nil_inv_r in H3 as ->. rewrite last_snoc. destruct H2 as (t & k & Hk & H). apply in_datas in Hk as (d & Hd & _ & <-).
    exists v, d. split; [done|]. split; [done|]. destruct fin as [m e|x y|g args|x t1 ta e ea|t1 args|[x|]|]; try done.
    + destruct H as (w & b1 & b2 & vs1 & vs2 & -> & _). by left.
    + destruct H as (b1 & vs & -> & _). by left.
    + destruct H as (w & -> & _). right. by eexists.
    + rewrite H. right. by eexists.
  - destruct Hfun as (_ & Hb' & _). apply (fr_decl _ Fp _ _ Hf) in Hb'. rewrite Hb' in Hb. by apply elem_of_nil in Hb.
Qed.
Lemma front_named p ts f fd : front p → faithful p ts → Forall ok_top ts → p_funcs p !! f = Some fd → f_name fd ≠ EmptyString.
Proof.
  intros Fp (G & Fn & _ & HF & _) Hok Hf. rewrite list.Forall_forall in Hok.
  pose proof (proj1 (fr_funcs _ Fp f) ltac:(by eexists)) as Hin. apply elem_of_list_lookup in Hin as [i Hi].
  destruct (Forall2_lookup_l _ _ _ _ _ HF Hi) as (t & Ht & fd' & Hf' & _ & Hfun). rewrite Hf in Hf'. injection Hf' as <-.
  apply elem_of_list_lookup_2, elem_of_list_filter in Ht as [_ Ht]. specialize (Hok _ Ht).
  assert (HW : wf_name (f_name fd)).
  { destruct t as [|n ps r bbs|n ps r| |]; try done; destruct Hfun as (-> & _); [by destruct Hok|exact Hok]. }
  intros E. rewrite E in HW. destruct HW as [_ HW]. inversion HW.
Qed.
Lemma front_allocs p ts : faithful p ts → ∀ v, v ∈ p_inst_layout p →
  ∃ d init i, p_values p !! v = Some d ∧ v_kind d = KGlobalAlloc init ∧ const_is (datas (p_values p)) init i.
Proof.
  intros (G & Fn & HG & _) v Hv. apply elem_of_list_lookup in Hv as [j Hj]. destruct (Forall2_lookup_l _ _ _ _ _ HG Hj) as (t & _ & Hg).
  destruct t; try done. destruct Hg as (_ & d & init & e & H1 & H2 & _ & _ & H5 & _). by exists d, init, i.
Qed.
Lemma front_safe {E} (C : xconfig E) p ts fuel order e : front p → faithful p ts → Forall ok_top ts →
  (∀ f fd, p_funcs p !! f = Some fd → dominated fd) → (∀ f fd, p_funcs p !! f = Some fd → returns_fit p fd) →
  no_undef p → only_data p → no_traps (c_checks C) p → plain_main p → interpret C fuel order p e ≠ XPanic.
Proof.
  intros Fp HF Hok HD HR HU HO HN HM Hp.
  assert (H : safe (λ _, True) (interpret C fuel order p e)); [|by rewrite Hp in H]. clear Hp. unfold interpret.
  eapply safe_bind.
  { apply (globals_safe p fuel Fp HU HO (front_allocs _ _ HF) (p_inst_layout p) [] ∅ ∅); [done|..].
    - split; [intros b x|intros b []%lookup_empty_is_Some]. intros Hx. simpl in Hx. by rewrite lookup_empty in Hx.
    - intros v []%lookup_empty_is_Some.
    - intros v Hv. by apply elem_of_nil in Hv. }
  intros [vars W] _ (S & HW & Hvk & HV). cbn [fst snd app] in HW, Hvk, HV.
  destruct (x_main p order) as [fd|] eqn:Em; [|done]. destruct (main_is _ _ _ Em) as (f & _ & Hf & Hn).
  destruct (HM _ _ Hf Hn) as [t Hty]. eapply safe_bind.
  { eapply (func_safe C p vars Fp (λ f fd, front_named p ts f fd Fp HF Hok) (x_bb C p vars fuel) S f fd [] t); [|exact Hf|exact Hty|constructor|exact HW|exact HV].
    apply bb_safe; try done; [intros; by eapply front_laid|intros; by eapply (front_named p ts)|intros; by eapply front_ends]. }
  intros [x W1] _ _. by destruct x.
Qed.
