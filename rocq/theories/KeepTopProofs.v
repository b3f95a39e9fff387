(** Programs that keep their pointers to themselves use memory that is there (C66). *)
From Coq Require Import Lia.
From stdpp Require Import list gmap.
From Verif Require Import Base IdModel TypeModel IrModel LayoutModel ArithModel InterpModel DfgSpec UsesSpec TypingSpec ScopeSpec FaithSpec RawSpec
  InterpSimProofs IsoProgProofs RegularProofs RawMakeProofs SoundSpec SoundProofs SoundRunProofs KeepSpec KeepProofs KeepRunProofs.

Lemma wgood_vars {E} p vs vs' S (W : xworld E) : wgood p vs S W →
  (∀ v d x, p_values p !! v = Some d → vs' !! v = Some x → has S W (v_ty d) x) → wgood p vs' S W.
Proof. intros [] H. by constructor. Qed.
Lemma globals_sane {E} p fuel : front p → no_undef p → ∀ l S vs (W : xworld E), wgood p vs S W →
  (∀ v, is_Some (vs !! v) → is_global_id v = true) →
  sane (λ e, ∃ S', wgood p e.1 S' e.2 ∧ ∀ v, is_Some (e.1 !! v) → is_global_id v = true) (x_globals fuel p l vs W).
Proof.
  intros Fp HU. induction l as [|v l IH]; intros S vs W HW Hvs.
  { cbn [x_globals sane]. by exists S. }
  cbn [x_globals]. destruct (p_values p !! v) as [d|] eqn:Hd; [|done]. cbn [xneed mbind xres_bind].
  destruct (v_kind d) as [| | | | | | |init| | | | | | | | |] eqn:Hk; try done.
  pose proof (proj1 (fr_typed _ Fp) _ _ Hd) as HT. rewrite Hk in HT.
  inversion HT as [| | | |init' t Ht Htu E1 E2| | | | | | | | | | |]; subst. simpl in Ht.
  destruct (p_values p !! init) as [e|] eqn:He; [|done]. injection Ht as Ht.
  eapply sane_bind.
  { eapply (const_sane S (p_values p) (global_env p)); [..|exact He].
    - intros w dw Hw _. exact (proj1 (fr_typed _ Fp) _ _ Hw).
    - intros w dw Hw. simpl. by rewrite Hw.
    - intros w dw Hw. by eapply (proj1 HU). }
  intros [x n] Ex [Hx Ha]. apply x_const_le in Ex. cbn [fst] in Hx, Ha. rewrite Ht in Hx.
  destruct (box_good p vs 0 S (x_upto W n) t x (upto_good p vs S W n Ex HW) (N.le_0_l _) Hx Ha) as (Hs & Hw & Hp).
  cbn [snd x_box] in Hs, Hw, Hp. cbn [x_box]. eapply IH.
  - eapply wgood_vars; [exact Hw|]. intros w dw y Hdw. rewrite lookup_insert_Some. intros [[<- <-]|[_ Hy]]; [|by eapply (wg_vars _ _ _ _ Hw)].
    rewrite Hd in Hdw. injection Hdw as <-. by rewrite <- E2.
  - intros w. destruct (decide (w = v)) as [->|Hn].
    + intros _. apply (fr_gid _ Fp). by eexists.
    + rewrite lookup_insert_ne by done. apply Hvs.
Qed.
Lemma front_sane {E} (C : xconfig E) p fuel order e : front p → (∀ f fd, p_funcs p !! f = Some fd → returns_fit p fd) →
  no_undef p → keeping p → interpret C fuel order p e ≠ XBeyond.
Proof.
  intros Fp HR HU HT Hp.
  assert (H : sane (λ _, True) (interpret C fuel order p e)); [|by rewrite Hp in H]. clear Hp. unfold interpret.
  eapply sane_bind.
  { apply (globals_sane p fuel Fp HU (p_inst_layout p) ∅ ∅).
    - constructor; simpl.
      + split; [intros b x|intros b []%lookup_empty_is_Some]. simpl. by rewrite lookup_empty.
      + intros b x. by rewrite lookup_empty.
      + intros v d x _. by rewrite lookup_empty.
    - intros v []%lookup_empty_is_Some. }
  intros [vars W] _ (S & HW & Hvk). cbn [fst snd] in HW, Hvk.
  destruct (x_main p order) as [fd|] eqn:Em; [|done]. destruct (main_is _ _ _ Em) as (f & _ & Hf & Hn).
  destruct (f_ty fd) as [| | | |ts t] eqn:Hty; [by unfold x_func; rewrite Hty..|].
  destruct ts as [|t0 ts]; [|by unfold x_func; rewrite Hty]. eapply sane_bind.
  { eapply (func_sane C p vars Fp HR HT Hvk (x_bb C p vars fuel) S f fd [] t); [|exact Hf|exact Hty|constructor|exact HW]. by apply bb_sane. }
  intros [x W1] _ _. by destruct x.
Qed.
