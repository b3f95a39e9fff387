(** Programs of the front end can be built as raw programs (C59). *)
From Coq Require Import Lia ZifyBool ZifyNat ZifyN.
From Verif Require Import Base IdModel TypeModel IrModel LayoutModel BuilderModel WorldModel LexerModel LexerSpec ParserModel ParserSpec
  UsesSpec DfgSpec WorldSpec TypingSpec FlowSpec FaithSpec ScopeSpec ScopeProofs CompleteSpec RawModel RawSpec RawWalkProofs RawTotalSpec
  PrintSpec AcceptSpec TreeWfProofs RetreeNameProofs RewellProofs SourceProofs RegularProofs DominSpec DiscoverProofs LaidProofs.

(** ** Names *)
Lemma wf_c_name n : wf_name n → c_name_ok n.
Proof.
  intros Hn. split; [by apply wf_well_named|]. destruct Hn as [_ Hs]. intros Hz.
  assert (Hnz : Forall (λ c, c ≠ Ascii.zero) (String.list_ascii_of_string n)).
  { inversion Hs as [E|d ds H1 _ H2 E|tag c cs Ht H1 H2 E]; repeat constructor; try done.
    - by intros ->.
    - eapply list.Forall_impl; [exact H2|]. by intros x Hx ->.
    - by destruct Ht as [-> | ->].
    - apply list.Forall_cons in H2 as [H2 _]. by intros ->.
    - apply list.Forall_cons in H2 as [_ H2]. eapply list.Forall_impl; [exact H2|]. by intros x Hx ->. }
  rewrite list.Forall_forall in Hnz. by apply (Hnz _ Hz).
Qed.
Lemma kept_c_name n o s : wf_name n → kept_name n o → o = Some s → c_name_ok s.
Proof. intros H1 H2 ->. apply wf_c_name. by destruct (kept_nice _ _ H1 H2 s eq_refl). Qed.
Lemma wf_params ps : Forall ok_param ps → Forall wf_name (map fst ps).
Proof. induction 1; simpl; constructor; done. Qed.
Lemma wf_names ps l : Forall ok_param ps → Forall ok_block l → Forall wf_name (fun_names ps l).
Proof.
  intros Hp Hb. unfold fun_names. rewrite !list.Forall_app. split; [by apply wf_params|split].
  - induction Hb as [|b l (_ & H & _) _ IH]; simpl; [constructor|]. apply list.Forall_app. split; [by apply wf_params|done].
  - induction Hb as [|b l (_ & _ & H) _ IH]; simpl; [constructor|]. apply list.Forall_app. split; [|done]. unfold body_names.
    clear -H. induction H as [|st sts Hst _ IH]; simpl; [constructor|]. apply list.Forall_app. split; [|done].
    destruct st; simpl; constructor; [|constructor]. apply Hst.
Qed.
Lemma wf_block_names l : Forall ok_block l → Forall wf_name (map b_name l).
Proof. induction 1 as [|b l (H & _) _ IH]; simpl; constructor; done. Qed.
Lemma denotes_unit a t : denotes a t → t ≠ TUnit.
Proof. by destruct 1. Qed.

(** ** Everything is met *)
Section met.
Context (p : program) (HR : regular p).
Lemma walk_blocks S l o : walk p S l o → ∀ f fd b, TFunc f ∈ o → p_funcs p !! f = Some fd → b ∈ (l_bbs (f_layout fd)).*1 → TBlk b ∈ S ++ o.
Proof.
  induction 1 as [S|S t l o Ht Hw IH|S v d l o o' Hn Hv Hp Hr IHr Hw IH|S b d is l o o' Hn Hb Hr IHr Hw IH|S f fd l o o' Hn Hf Hr IHr Hw IH]; intros g gd x Hx Hg Hc.
  - by apply elem_of_nil in Hx.
  - by eapply IH.
  - apply elem_of_app in Hx as [Hx|Hx]; [apply elem_of_app in Hx as [Hx|Hx]|].
    + specialize (IHr _ _ _ Hx Hg Hc). revert IHr. rewrite !elem_of_app. intuition.
    + by apply elem_of_list_singleton in Hx.
    + specialize (IH _ _ _ Hx Hg Hc). by rewrite <- !app_assoc in *.
  - apply elem_of_app in Hx as [Hx|Hx]; [apply elem_of_app in Hx as [Hx|Hx]|].
    + apply elem_of_cons in Hx as [Hx|Hx]; [done|]. by apply elem_of_list_fmap in Hx as (v & ? & Hv).
    + specialize (IHr _ _ _ Hx Hg Hc). revert IHr. rewrite !elem_of_app. intuition.
    + specialize (IH _ _ _ Hx Hg Hc). by rewrite <- !app_assoc in *.
  - apply elem_of_app in Hx as [Hx|Hx]; [apply elem_of_app in Hx as [Hx|Hx]|].
    + apply elem_of_cons in Hx as [Hx|Hx]; [|by apply elem_of_list_fmap in Hx as (v & ? & Hv)]. injection Hx as ->.
      rewrite Hf in Hg. injection Hg as <-.
      pose proof (walk_through _ _ _ _ Hr (TBlk x) ltac:(by apply elem_of_list_fmap_1)) as H. revert H. rewrite !elem_of_app. intuition.
    + specialize (IHr _ _ _ Hx Hg Hc). revert IHr. rewrite !elem_of_app. intuition.
    + specialize (IH _ _ _ Hx Hg Hc). by rewrite <- !app_assoc in *.
Qed.
Lemma closed_parts S m r u : closed p S → (∀ v d, m !! v = Some d → value_of p v d) → part_of (datas m) r u → TVal r ∈ S → TVal u ∈ S.
Proof.
  intros HS Hm. induction 1 as [v|v t vs e u Hv He _ IH]; intros H; [done|]. apply IH. eapply HS; [exact H|].
  unfold datas in Hv. rewrite lookup_fmap in Hv. apply fmap_Some in Hv as (d & Hv & E). injection E as _ E. exists d. split; [by apply Hm|].
  rewrite <- E. split; [done|]. by apply elem_refs_val.
Qed.
End met.

Section buildable.
Context (p : program) (Fp : front p) (o : list task) (Ho : discovered p o).
Lemma discovered_closed : closed p o.
Proof. eapply (walk_closed p (front_regular _ Fp) [] _ o); [exact Ho|]. by intros t t' ?%elem_of_nil. Qed.
Lemma all_met u d : value_of p u d → refs (v_kind d) ≠ [] → TVal u ∈ o.
Proof.
  pose proof discovered_closed as HC. intros [Hu|(f & fd & Hf & Hu)] Hr.
  - assert (Hg : ∀ v, v ∈ p_inst_layout p → TVal v ∈ o).
    { intros v Hv. eapply (walk_through p [] _ o); [exact Ho|]. apply elem_of_app. left. by apply elem_of_list_fmap_1. }
    destruct (cp_values _ (fr_complete _ Fp) u) as [H|(v & dv & init & Hv & Hdv & Hk & Hp)]; [by eauto|by apply Hg|].
    eapply (closed_parts p o (p_values p)); [done|intros ? ? ?; by left|exact Hp|]. eapply HC; [by apply Hg|]. exists dv. split; [by left|].
    rewrite Hk. split; [done|]. apply elem_refs_val. by left.
  - destruct (cp_funcs _ (fr_complete _ Fp) _ _ Hf) as [Hl [C1 C2 C3 C4]].
    assert (HB : ∀ b is v, (b, is) ∈ l_bbs (f_layout fd) → v ∈ is → TVal v ∈ o).
    { intros b is v Hb Hv. pose proof (elem_of_list_fmap_1 fst _ _ Hb) as Hb1. pose proof Hb1 as [bd Hbd]%C1.
      apply (HC (TBlk b)); [|exists bd, is, v; split; [by exists f, fd|done]].
      eapply (walk_blocks p [] _ o Ho f fd); [|done|done].
      eapply (walk_through p [] _ o); [exact Ho|]. apply elem_of_app. right. by apply elem_of_list_fmap_1. }
    destruct (C2 u) as [H|b bd Hb H|b is Hb H|b is v vd q Hb Hv Hvd Hq Hp]; [by eauto|..].
    + destruct (fr_arg _ Fp _ _ _ Hf H) as (d' & i & Hd' & E). rewrite Hu in Hd'. injection Hd' as <-. by rewrite E in Hr.
    + destruct (fr_param _ Fp _ _ _ _ _ Hf Hb H) as (d' & i & Hd' & E). rewrite Hu in Hd'. injection Hd' as <-. by rewrite E in Hr.
    + by eapply HB.
    + eapply (closed_parts p o (vals fd)); [done|intros ? ? ?; right; by eauto|exact Hp|]. eapply HC; [by eapply HB|]. exists vd. split; [right; eauto|].
      destruct (fr_is_inst _ Fp _ _ _ _ _ Hf Hb Hv) as (d' & Hd' & Hk). rewrite Hvd in Hd'. injection Hd' as <-.
      split; [by destruct (v_kind vd)|]. by apply elem_refs_val.
Qed.
Lemma front_buildable ts : faithful p ts → Forall ok_top ts → buildable p o.
Proof.
  intros (G & Fn & HG & HF & _) Hok. rewrite list.Forall_forall in Hok.
  assert (HG' : ∀ v, v ∈ p_inst_layout p → ∃ d init e n i, p_values p !! v = Some d ∧ v_kind d = KGlobalAlloc init ∧ kept_name n (v_name d) ∧ wf_name n ∧
    p_values p !! init = Some e ∧ const_is (datas (p_values p)) init i).
  { intros v Hv. apply elem_of_list_lookup in Hv as [j Hj]. destruct (Forall2_lookup_l _ _ _ _ _ HG Hj) as (t & Ht & Hg).
    apply elem_of_list_lookup_2, elem_of_list_filter in Ht as [_ Ht]. specialize (Hok _ Ht). destruct t; try done.
    destruct Hg as (_ & d & init & e & H1 & H2 & H3 & H4 & H5 & _). destruct Hok as [Hn _]. by do 5 eexists. }
  assert (HF' : ∀ f fd, p_funcs p !! f = Some fd → ∃ t, t ∈ ts ∧ ok_top t ∧ fun_is G Fn fd t).
  { intros f fd Hf. pose proof (proj1 (fr_funcs _ Fp f) ltac:(by eexists)) as Hin. apply elem_of_list_lookup in Hin as [i Hi].
    destruct (Forall2_lookup_l _ _ _ _ _ HF Hi) as (t & Ht & fd' & Hf' & _ & Hfun). rewrite Hf in Hf'. injection Hf' as <-.
    apply elem_of_list_lookup_2, elem_of_list_filter in Ht as [_ Ht]. exists t. auto. }
  assert (Hgl : ∀ v d, p_values p !! v = Some d → is_const (v_kind d) = true ∨ ∃ i, v_kind d = KGlobalAlloc i).
  { intros v d Hv. destruct (cp_values _ (fr_complete _ Fp) v) as [H|(w & dw & init & Hw & Hdw & Hk & Hp)]; [by eauto|..].
    - destruct (HG' _ H) as (d' & init & _ & _ & _ & Hd' & Hk & _). rewrite Hv in Hd'. injection Hd' as <-. eauto.
    - destruct (HG' _ Hw) as (d' & init' & e & n & i & Hd' & Hk' & _ & _ & _ & Hc). rewrite Hdw in Hd'. injection Hd' as <-.
      rewrite Hk in Hk'. injection Hk' as <-. destruct (const_parts _ _ _ Hc _ Hp) as [j Hj].
      apply const_kind_is in Hj as (d' & Hd' & Hk'). rewrite Hv in Hd'. injection Hd' as <-. by left. }
  constructor.
  - apply Fp.
  - apply all_met.
  - exact Hgl.
  - intros v d s [Hv|(f & fd & Hf & Hv)] Hs.
    + destruct (decide (v ∈ p_inst_layout p)) as [H|H].
      * destruct (HG' _ H) as (d' & _ & _ & n & _ & Hd' & _ & Hk & Hw & _). rewrite Hv in Hd'. injection Hd' as <-. by eapply kept_c_name.
      * by rewrite (fr_unnamed _ Fp _ _ Hv H) in Hs.
    + destruct (HF' _ _ Hf) as (t & _ & Ho' & Hfun). destruct t as [|n ps r bbs|n ps r| |]; try done.
      * destruct Hfun as (_ & _ & _ & L & B & l & HN & Hor & _ & HdL & _ & _ & _).
        destruct Ho' as (_ & Hps & Hbb).
        assert (Hbl : Forall ok_block l). { rewrite list.Forall_forall in Hbb |- *. intros x Hx. apply Hbb. destruct Hor as (en & _ & Hi & _). by apply Hi in Hx as [? _]. }
        destruct (L !! v) as [nm|] eqn:EL; [|by rewrite (no_unnamed _ _ _ HN _ _ Hv EL) in Hs].
        destruct (no_val _ _ _ HN _ _ EL) as (_ & d' & Hd' & Hk & _). rewrite Hv in Hd'. injection Hd' as <-.
        eapply kept_c_name; [|exact Hk|exact Hs]. pose proof (wf_names _ _ Hps Hbl) as Hw. rewrite list.Forall_forall in Hw.
        apply Hw. by eapply (proj1 HdL).
      * destruct Hfun as (_ & _ & E & _). by rewrite E in Hv.
  - intros f fd b d s Hf Hb Hs. destruct (HF' _ _ Hf) as (t & _ & Ho' & Hfun). destruct t as [|n ps r bbs|n ps r| |]; try done.
    + destruct Hfun as (_ & _ & _ & L & B & l & HN & Hor & _ & _ & HdB & _ & HL).
      destruct Ho' as (_ & Hps & Hbb).
      assert (Hbl : Forall ok_block l). { rewrite list.Forall_forall in Hbb |- *. intros x Hx. apply Hbb. destruct Hor as (en & _ & Hi & _). by apply Hi in Hx as [? _]. }
      assert (∃ nm, B !! b = Some nm ∧ nm ∈ map b_name l) as (nm & HBb & Hnm).
      { destruct (cp_funcs _ (fr_complete _ Fp) _ _ Hf) as [_ [C1 _ _ _]].
        pose proof (proj1 (C1 b) ltac:(by eexists)) as Hin. apply elem_of_list_fmap in Hin as ([b' is] & -> & Hin).
        apply elem_of_list_lookup in Hin as [j Hj]. destruct (Forall2_lookup_l _ _ _ _ _ HL Hj) as (a & Ha & H1 & _).
        exists (b_name a). split; [done|]. by eapply (proj1 HdB). }
      destruct (no_blk _ _ _ HN _ _ HBb) as (d' & Hd' & Hkn). rewrite Hb in Hd'. injection Hd' as <-.
      eapply kept_c_name; [|exact Hkn|exact Hs]. pose proof (wf_block_names _ Hbl) as Hw. rewrite list.Forall_forall in Hw. by apply Hw.
    + destruct Hfun as (_ & E & _). by rewrite E in Hb.
  - intros f fd Hf. destruct (HF' _ _ Hf) as (t & _ & Ho' & Hfun). apply wf_c_name. destruct t as [|n ps r bbs|n ps r| |]; try done.
    + destruct Hfun as (-> & _). apply Ho'.
    + destruct Hfun as (-> & _). apply Ho'.
  - intros f fd b is Hf Hb. by eapply fr_insts_once.
  - intros f fd tys r Hf Ety. destruct (HF' _ _ Hf) as (t & _ & Ho' & Hfun).
    assert (∃ l, Forall2 denotes l tys) as [l Hl].
    { destruct t as [|n ps r' bbs|n ps r'| |]; try done.
      - destruct Hfun as (_ & _ & (ts' & t' & E & H & _) & _). rewrite Ety in E. injection E as -> ->. eauto.
      - destruct Hfun as (_ & _ & _ & ts' & t' & E & H & _). rewrite Ety in E. injection E as -> ->. eauto. }
    intros Hu. apply elem_of_list_lookup in Hu as [j Hj]. destruct (Forall2_lookup_r _ _ _ _ _ Hl Hj) as (a & _ & Ha). by apply denotes_unit in Ha.
Qed.
End buildable.
