(** Constant folding and the example interpreter (C55). *)
From Coq Require Import Lia.
From Verif Require Import Base IdModel TypeModel IrModel LayoutModel ArithModel InterpModel UsesSpec UsesProofs DfgSpec
  SkelProofs LayoutSpec DceModel DceSpec ArithSpec ArithProofs FoldModel FoldSpec InterpSimProofs InterpOptProofs.

(** ** Functions that can be folded *)
Definition plain (k : vkind) : Prop := (∃ z, k = KInteger z) ∨ k = KUndef.
(** [k] passes the arguments [args] to [b]. *)
Definition passes (k : vkind) (b : bblock) (args : list value) : Prop :=
  match k with
  | KJump t a => t = b ∧ a = args
  | KBranch _ t f ta fa => (t = b ∧ ta = args) ∨ (f = b ∧ fa = args)
  | _ => False
  end.
Record fold_fun (gs : gmap N vdata) (fd : fdata) : Prop := {
  fn_local : ∀ v, is_Some (gs !! v) → vals fd !! v = None;
  fn_shape : shape_ok (vals fd) (blks fd) (f_layout fd);
  fn_once : ∀ b bd, blks fd !! b = Some bd → NoDup (bb_params bd);
  fn_own : ∀ b bd c cd q, blks fd !! b = Some bd → blks fd !! c = Some cd → q ∈ bb_params bd →
    q ∈ bb_params cd → b = c;
  fn_params : ∀ q d, q ∈ f_params fd → vals fd !! q = Some d → ¬ removable (v_kind d);
  fn_users : ∀ v b bd, jumps_to (vals fd) v b → blks fd !! b = Some bd → v ∈ bb_used_by bd;
  fn_blocks : ∀ v b, jumps_to (vals fd) v b → is_Some (blks fd !! b);
  fn_plain : ∀ u d b args a da, vals fd !! u = Some d → passes (v_kind d) b args → a ∈ args →
    vals fd !! a = Some da → is_const (v_kind da) = true → plain (v_kind da);
}.
Lemma passes_target k b args : passes k b args → b ∈ UsesSpec.targets k.
Proof. destruct k; try done; simpl; [intros [[-> _]|[-> _]]|intros [-> _]]; set_solver. Qed.
Lemma sk_eq (m m' : gmap N vdata) v d : sk <$> m' !! v = sk <$> m !! v → m !! v = Some d →
  ∃ d', m' !! v = Some d' ∧ v_ty d' = v_ty d ∧ v_kind d' = v_kind d.
Proof. intros H Hd. rewrite Hd in H. simpl in H. apply fmap_Some in H as (d' & Hd' & H). exists d'. injection H as -> ->. done. Qed.
Lemma skm_some (m m' : gmap N vdata) v : skm m' = skm m → is_Some (m' !! v) → is_Some (m !! v).
Proof. intros H. rewrite <- !(fmap_is_Some sk), <- !lookup_fmap. by rewrite H. Qed.

(** Parameters that do not change *)
Lemma binds_id fd fd' ps : ∀ args,
  (∀ q, q ∈ ps → ∃ d d' i, vals fd !! q = Some d ∧ vals fd' !! q = Some d' ∧ v_kind d = KBlockArg i ∧
    v_kind d' = KBlockArg i ∧ v_ty d' = v_ty d) →
  (∀ a, a ∈ args → operand fd fd' a) → binds fd fd' ps args ps args.
Proof.
  induction ps as [|q ps IH]; intros args Hp Ho; [apply B_none|]. destruct args as [|a args]; [apply B_end|].
  destruct (Hp q) as (d & d' & i & H1 & H2 & H3 & H4 & H5); [by left|].
  eapply B_keep; [exact H1|exact H2|exact H3|exact H4|exact H5|apply Ho; by left|].
  apply IH; [intros; apply Hp; by right|intros; apply Ho; by right].
Qed.
(** Kinds that do not change: it suffices that jumps bind what they bound *)
Lemma same_as_kind fd fd' d d' : v_ty d' = v_ty d → v_kind d' = v_kind d →
  (∀ b args, passes (v_kind d) b args → goes fd fd' b args args) → same_as fd fd' d d'.
Proof.
  intros Ht Hk Hg. split; [done|]. rewrite Hk. destruct (v_kind d); simpl in *; try done.
  - eexists _, _. split; [done|]. split; apply Hg; auto.
  - eexists. split; [done|]. apply Hg; auto.
Qed.
Lemma goes_refl gs fd b args : fold_fun gs fd → goes fd fd b args args.
Proof.
  intros F bd Hb. exists bd. split; [done|]. apply binds_id; [|by intros a Ha Hs].
  intros q Hq. destruct (so_param _ _ _ (fn_shape _ _ F) _ _ _ Hb Hq) as (d & i & H1 & H2). by exists d, d, i.
Qed.
Lemma opt_refl checks gs fd : fold_fun gs fd → opt_fun fd fd checks.
Proof.
  intros F. assert (∀ d, same_as fd fd d d) as Hs.
  { intros d. apply same_as_kind; [done|done|]. intros b args _. by eapply goes_refl. }
  constructor; try done.
  - intros q _ [d Hd]. exists d, d. split_and!; done.
  - intros v d d' Hd Hd'. rewrite Hd in Hd'. injection Hd' as <-. by left.
  - intros v d d' e _ _ _ _ Hs2. exact Hs2.
  - pose proof (so_listed _ _ _ (fn_shape _ _ F)) as HL. unfold in_block in HL.
    assert (∀ x v, x ∈ l_bbs (f_layout fd) → v ∈ x.2 → is_Some (vals fd !! v)) as HL'.
    { intros [b is] v Hx Hv. destruct (HL v b) as (d & Hd & _); [by exists is|]. by exists d. }
    clear HL. revert HL'. generalize (l_bbs (f_layout fd)) as l. intros l HL.
    induction l as [|[b is] l IH]; constructor.
    + split; [done|]. simpl. assert (∀ v, v ∈ is → is_Some (vals fd !! v)) as Hi.
      { intros v Hv. apply (HL (b, is)); [by left|done]. }
      clear -Hi Hs. induction is as [|v is IH]; [apply T_nil|]. apply T_keep.
      * destruct (Hi v) as [d Hd]; [by left|]. exists d, d. done.
      * apply IH. intros w Hw. apply Hi. by right.
    + apply IH. intros x v Hx. apply (HL x). by right.
Qed.

(** ** A round of [eval_const] *)
Lemma replace_bbs gs g v data gs' g' old : dfg_replace_value_with_data gs g v data = Some (gs', g') →
  d_values g !! v = Some old → UsesSpec.targets (v_kind old) = [] → UsesSpec.targets (v_kind data) = [] → d_bbs g' = d_bbs g.
Proof.
  unfold dfg_replace_value_with_data. intros H Ho H1 H2. rewrite Ho in H. cbn [mbind option_bind] in H.
  rewrite !bb_uses_targets, H1, H2 in H. destruct (upd_uses _ _ _ _) as [[gs1 vs1]|]; [|done]. cbn in H.
  destruct (upd_uses _ _ gs1 vs1) as [[gs2 vs2]|]; [|done]. cbn in H. by injection H as <- <-.
Qed.
Lemma replace_folds_bbs es : ∀ gs g gs' g', NoDup (map (λ e : value * option Z * bblock, e.1.1) es) →
  (∀ v ans bb, (v, ans, bb) ∈ es → ∃ d, d_values g !! v = Some d ∧ is_binary (v_kind d) = true) →
  replace_folds es gs g = Some (gs', g') → d_bbs g' = d_bbs g.
Proof.
  induction es as [|[[v ans] bb] es IH]; intros gs g gs' g' Hn Hk H; simpl in H; [by injection H as <- <-|].
  apply bind_Some in H as ([gs1 g1] & H1 & H). apply list.NoDup_cons in Hn as [Hn1 Hn2].
  destruct (Hk v ans bb) as (d & Hd & Hb); [by left|]. rewrite (IH _ _ _ _ Hn2) with (2 := H).
  - eapply replace_bbs; [exact H1|exact Hd|by destruct (v_kind d)|by destruct ans].
  - intros w a c Hw. destruct (Hk w a c) as (x & Hx & Hxb); [by right|].
    assert (w ≠ v) as Hne.
    { intros ->. apply Hn1. apply elem_of_list_fmap. by exists (v, a, c). }
    apply replace_sk in H1 as (_ & _ & Hs & _).
    assert (sk <$> d_values g1 !! w = sk <$> d_values g !! w) as Hw2.
    { rewrite <- !lookup_fmap, Hs. by rewrite lookup_insert_ne. }
    destruct (sk_eq _ _ _ _ Hw2 Hx) as (x' & Hx' & _ & Hk'). exists x'. by rewrite Hk'.
Qed.
Lemma eval_const_bbs checks order gs d ch gs' d' : is_value_order order → eval_const checks order gs d = Some (ch, gs', d') →
  skm gs' = skm gs ∧ blks d' = blks d ∧ f_ty d' = f_ty d ∧ f_name d' = f_name d ∧ f_params d' = f_params d.
Proof.
  intros Ho H. unfold eval_const in H. apply bind_Some in H as (es & Hc & H). apply bind_Some in H as ([gs1 g1] & Hr & H).
  apply bind_Some in H as (l1 & Hl & H). injection H as _ <- <-. cbn [f_dfg f_ty f_name f_params].
  apply collect_folds_spec in Hc as (H1 & _ & H3). specialize (H3 (proj1 (Ho _))).
  pose proof (replace_folds_spec _ _ _ _ _ H3 Hr) as (E1 & _). split; [done|]. split; [|done].
  eapply replace_folds_bbs; [exact H3| |exact Hr]. intros v ans bb He.
  destruct (H1 _ _ _ He) as (_ & _ & x & op & a & b & Hx & (l & r & _ & _ & Hk & _) & _). exists x. by rewrite Hk.
Qed.

Section round.
Context (checks : bool) (order : gmap N vdata → list value) (gs gs' : gmap N vdata) (fd fd' : fdata) (ch : bool).
Context (Ho : is_value_order order) (F : fold_fun gs fd) (H : eval_const checks order gs fd = Some (ch, gs', fd')).

Lemma round_exact : layout_exact (f_layout fd).
Proof.
  split; [apply (fn_shape _ _ F)|]. intros v b. by rewrite (so_parent _ _ _ (fn_shape _ _ F)).
Qed.
Lemma round_kind v x : vals fd !! v = Some x → ∃ x', vals fd' !! v = Some x' ∧
  ((v_ty x' = v_ty x ∧ v_kind x' = v_kind x ∧ ∀ op a b, ¬ foldable (f_dfg fd) x op a b) ∨
   (computed fd checks x x' ∧ ∃ op a b, foldable (f_dfg fd) x op a b)).
Proof.
  intros Hx. destruct (eval_const_spec _ _ _ _ _ _ _ Ho H) as (E & _). destruct (E _ _ Hx) as (x' & Hx' & [Hs|(_ & op & a & b & Hf & Hc)]).
  - exists x'. split; [done|]. by left.
  - exists x'. split; [done|]. right. split; [|by eauto]. destruct Hf as (l & r & dl & dr & Hk & Hl & Hkl & Hr & Hkr).
    exists op, l, r, dl, dr, a, b. split_and!; try done. destruct Hc as [(c & H1 & H2)|(H1 & H2 & ->)]; [left; by exists c|right].
    split; [done|]. by apply exec_undef_panics.
Qed.
Lemma round_back v : is_Some (vals fd' !! v) → is_Some (vals fd !! v).
Proof. destruct (eval_const_spec _ _ _ _ _ _ _ Ho H) as (_ & E & _). apply E. Qed.
Lemma round_inst v x' : vals fd' !! v = Some x' → is_const (v_kind x') = false →
  ∃ x, vals fd !! v = Some x ∧ v_ty x' = v_ty x ∧ v_kind x' = v_kind x.
Proof.
  intros Hx' Hc. destruct (round_back v) as [x Hx]; [by exists x'|]. exists x. split; [done|].
  destruct (round_kind _ _ Hx) as (x2 & H2 & [(H3 & H4 & _)|[H3 _]]).
  - rewrite Hx' in H2. by injection H2 as <-.
  - rewrite Hx' in H2. injection H2 as <-. apply computed_folded in H3 as [_ H3]. by rewrite H3 in Hc.
Qed.
Lemma round_operand v : operand fd fd' v.
Proof. intros [x Hx]. destruct (round_kind _ _ Hx) as (x' & Hx' & _). by exists x'. Qed.
Lemma round_param b bd q : blks fd !! b = Some bd → q ∈ bb_params bd → ∃ d d' i, vals fd !! q = Some d ∧
  vals fd' !! q = Some d' ∧ v_kind d = KBlockArg i ∧ v_kind d' = KBlockArg i ∧ v_ty d' = v_ty d.
Proof.
  intros Hb Hq. destruct (so_param _ _ _ (fn_shape _ _ F) _ _ _ Hb Hq) as (d & i & Hd & Hk).
  destruct (round_kind _ _ Hd) as (d' & Hd' & [(H3 & H4 & _)|[_ (op & x & y & l & r & _ & _ & H3 & _)]]).
  - exists d, d', i. by rewrite H4.
  - by rewrite Hk in H3.
Qed.
Lemma round_goes b args : goes fd fd' b args args.
Proof.
  intros bd Hb. exists bd. destruct (eval_const_bbs _ _ _ _ _ _ _ Ho H) as (_ & E & _). rewrite E. split; [done|].
  apply binds_id; [|intros a _; apply round_operand]. intros q Hq. by eapply round_param.
Qed.
Lemma round_same d d' : v_ty d' = v_ty d → v_kind d' = v_kind d → same_as fd fd' d d'.
Proof. intros H1 H2. apply same_as_kind; [done..|]. intros b args _. apply round_goes. Qed.
Lemma round_opt : opt_fun fd fd' checks.
Proof.
  destruct (eval_const_bbs _ _ _ _ _ _ _ Ho H) as (_ & E & E1 & E2 & E3). constructor; try done.
  - intros q Hq [d Hd]. destruct (round_kind _ _ Hd) as (d' & Hd' & [(H3 & H4 & _)|[_ (op & x & y & l & r & _ & _ & H3 & _)]]).
    + exists d, d'. split_and!; [done..|]. by apply round_same.
    + exfalso. apply (fn_params _ _ F _ _ Hq Hd). left. by rewrite H3.
  - intros v d d' Hd Hd'. destruct (round_kind _ _ Hd) as (d2 & Hd2 & [(H3 & H4 & _)|[H3 _]]);
      rewrite Hd' in Hd2; injection Hd2 as <-.
    + left. by apply round_same.
    + right. by eapply computed_folded.
  - intros v d d' e _ _ _ _. apply round_operand.
  - destruct (eval_const_layout _ _ _ _ _ _ _ Ho round_exact H) as (_ & folded & Hf & EL). rewrite EL.
    pose proof (so_listed _ _ _ (fn_shape _ _ F)) as HL. unfold in_block in HL.
    assert (∀ x v, x ∈ l_bbs (f_layout fd) → v ∈ x.2 → is_Some (vals fd !! v)) as HL'.
    { intros [b is] v Hx Hv. destruct (HL v b) as (d & Hd & _); [by exists is|]. by exists d. }
    clear HL EL. revert HL'. generalize (l_bbs (f_layout fd)) as l. intros l HL.
    induction l as [|[b is] l IH]; simpl; constructor.
    + split; [done|]. simpl. assert (∀ v, v ∈ is → is_Some (vals fd !! v)) as Hi.
      { intros v Hv. apply (HL (b, is)); [by left|done]. }
      clear HL IH. induction is as [|v is IH]; [apply T_nil|]. destruct (Hi v) as [d Hd]; [by left|].
      assert (thins fd fd' checks is (filter (λ v, v ∉ folded) is)) as HT by (apply IH; intros w Hw; apply Hi; by right).
      destruct (round_kind _ _ Hd) as (d' & Hd' & [(H3 & H4 & H5)|[H3 (op & x & y & H4)]]).
      * rewrite filter_cons_True by (rewrite Hf; intros (x & op & a & c & Hx & Hx2); rewrite Hd in Hx; injection Hx as <-; by apply H5 in Hx2).
        apply T_keep; [|done]. exists d, d'. split_and!; [done..|]. by apply round_same.
      * rewrite filter_cons_False by (intros Hn; apply Hn, Hf; by eauto 10).
        eapply T_drop; [exact Hd| | |done].
        -- destruct H4 as (l1 & r1 & _ & _ & Hk & _). rewrite Hk. by intros [].
        -- intros d2 Hd2. rewrite Hd' in Hd2. by injection Hd2 as <-.
    + apply IH. intros x v Hx. apply (HL x). by right.
Qed.
Lemma round_jump v b : jumps_to (vals fd') v b → jumps_to (vals fd) v b.
Proof.
  intros (x' & Hx' & Hb). destruct (round_inst _ _ Hx') as (x & Hx & _ & Hk); [destruct (v_kind x'); try done; by apply elem_of_nil in Hb|].
  exists x. by rewrite <- Hk.
Qed.
Lemma round_fun : fold_fun gs' fd'.
Proof.
  destruct (eval_const_bbs _ _ _ _ _ _ _ Ho H) as (Eg & E & E1 & E2 & E3).
  destruct (eval_const_layout _ _ _ _ _ _ _ Ho round_exact H) as ([L1 L2] & folded & Hf & EL).
  constructor.
  - intros v Hv. apply (skm_some _ _ _ Eg) in Hv. destruct (vals fd' !! v) eqn:Ev; [|done].
    destruct (round_back v) as [x Hx]; [by eauto|]. by rewrite (fn_local _ _ F _ Hv) in Hx.
  - constructor.
    + intros b bd q Hb Hq. rewrite E in Hb. destruct (round_param _ _ _ Hb Hq) as (d & d' & i & _ & H1 & _ & H2 & _). by exists d', i.
    + intros v d c t ta fa Hd Hk. destruct (round_inst _ _ Hd) as (x & Hx & _ & Hkx); [by rewrite Hk|]. rewrite Hkx in Hk.
      by eapply (so_apart _ _ _ (fn_shape _ _ F)).
    + done.
    + intros v b (is & Hb & Hv). rewrite EL in Hb. apply (proj1 (elem_of_list_fmap _ _ _)) in Hb as ([c js] & [= -> ->] & Hb). simpl in *.
      apply elem_of_list_filter in Hv as [Hn Hv].
      destruct (so_listed _ _ _ (fn_shape _ _ F) v c) as (d & Hd & Hi); [by exists js|].
      destruct (round_kind _ _ Hd) as (d' & Hd' & [(H3 & H4 & H5)|[_ (op & x & y & H4)]]).
      * exists d'. by rewrite H4.
      * exfalso. apply Hn, Hf. by eauto 10.
    + intros v b. by rewrite L2.
  - rewrite E. apply (fn_once _ _ F).
  - rewrite E. apply (fn_own _ _ F).
  - rewrite E3. intros q d' Hq Hd'. destruct (round_back q) as [d Hd]; [by eauto|].
    pose proof (fn_params _ _ F _ _ Hq Hd) as Hn.
    destruct (round_kind _ _ Hd) as (d2 & H2 & [(H3 & H4 & H5)|[_ (op & x & y & l & r & _ & _ & H4 & _)]]).
    + rewrite Hd' in H2. injection H2 as <-. by rewrite H4.
    + exfalso. apply Hn. left. by rewrite H4.
  - rewrite E. intros v b bd Hj. apply (fn_users _ _ F). by apply round_jump.
  - rewrite E. intros v b Hj. by eapply (fn_blocks _ _ F), round_jump.
  - intros u d' b args a da Hd' Hp Ha Hda Hc. destruct (round_inst _ _ Hd') as (d & Hd & _ & Hk); [destruct (v_kind d'); try done; by destruct Hp|].
    rewrite Hk in Hp. destruct (round_back a) as [da0 Hda0]; [by eauto|].
    destruct (round_kind _ _ Hda0) as (d2 & H2 & [(H3 & H4 & H5)|[(op & l & r & dl & dr & x & y & _ & _ & _ & _ & _ & [(c & Hk2 & _)|[Hk2 _]]) _]]);
      rewrite Hda in H2; injection H2 as <-.
    + rewrite H4 in Hc |- *. exact (fn_plain _ _ F u d b args a da0 Hd Hp Ha Hda0 Hc).
    + left. by exists c.
    + by right.
Qed.
End round.

(** ** Parameters of blocks *)
(** Everyone passes a constant of kind [k] as argument [i] to the block [b]. *)
Definition agrees (fd : fdata) (b : bblock) (i : nat) (k : vkind) : Prop :=
  plain k ∧ ∀ v d args, vals fd !! v = Some d → passes (v_kind d) b args →
    ∃ a da, args !! i = Some a ∧ vals fd !! a = Some da ∧ v_kind da = k.
Lemma plain_const k : plain k → is_const k = true.
Proof. by intros [[z ->]| ->]. Qed.
Lemma plain_targets k : plain k → UsesSpec.targets k = [].
Proof. by intros [[z ->]| ->]. Qed.
Lemma data_eq_plain fuel gs g l r : plain (v_kind l) → data_eq fuel gs g l r = EqTrue → v_kind r = v_kind l.
Proof.
  unfold data_eq, data_eq_head. destruct (negb (ty_eqb (v_ty l) (v_ty r))); [done|].
  intros [[z ->]| ->]; destruct (v_kind r) as [y| | | | | | | | | | | | | | | |]; try done. destruct (Z.eqb_spec z y); simpl; [by subst|done].
Qed.
Section collect.
Context (gs : gmap N vdata) (fd : fdata) (F : fold_fun gs fd).
Lemma user_arg_plain u du b i a d : vals fd !! u = Some du → user_arg (v_kind du) b i = Some a → vals fd !! a = Some d →
  is_const (v_kind d) = true → plain (v_kind d).
Proof.
  intros Hu Ha Hd Hc. unfold user_arg in Ha. destruct (v_kind du) eqn:Ek; try done.
  - destruct (_ =? _)%N; apply elem_of_list_lookup_2 in Ha.
    + eapply (fn_plain _ _ F u du tbb targs a d Hu); [rewrite Ek; by left|done..].
    + eapply (fn_plain _ _ F u du fbb fargs a d Hu); [rewrite Ek; by right|done..].
  - apply elem_of_list_lookup_2 in Ha. eapply (fn_plain _ _ F u du target args a d Hu); [by rewrite Ek|done..].
Qed.
Lemma same_args_spec fuel b i us : ∀ ans r, same_args fuel gs (f_dfg fd) b i us ans = Dok (Some r) →
  (∀ v, ans = Some v → plain (v_kind v)) →
  (∀ v, ans = Some v → ∃ d, r = Some d ∧ v_kind d = v_kind v) ∧
  ∀ d, r = Some d → (us ≠ [] → plain (v_kind d)) ∧ ∀ u, u ∈ us → ∃ du a da, vals fd !! u = Some du ∧ user_arg (v_kind du) b i = Some a ∧
    vals fd !! a = Some da ∧ v_kind da = v_kind d.
Proof.
  induction us as [|u us IH]; intros ans r H Hp; cbn [same_args] in H.
  - injection H as <-. split; [intros v ->; by exists v|]. intros d _. split; [done|]. intros u Hu. by apply elem_of_nil in Hu.
  - destruct (vals fd !! u) as [du|] eqn:Eu; [|done]. cbn [dopt dthen] in H.
    destruct (user_arg (v_kind du) b i) as [a|] eqn:Ea; [|done]. cbn [dopt dthen] in H.
    destruct (vals fd !! a) as [d|] eqn:Ed; [|done]. cbn [dopt dthen] in H.
    destruct (is_const (v_kind d)) eqn:Ec; [|done]. cbn [negb] in H.
    pose proof (user_arg_plain _ _ _ _ _ _ Eu Ea Ed Ec) as Hpd.
    assert (same_args fuel gs (f_dfg fd) b i us (Some (clone_vdata d)) = Dok (Some r) ∧ ∀ v, ans = Some v → v_kind d = v_kind v) as [H' Hv].
    { destruct ans as [v|]; [|by split]. destruct (data_eq fuel gs (f_dfg fd) v d) eqn:Ee; try done. split; [done|].
      intros v' [= <-]. eapply data_eq_plain; [by apply Hp|exact Ee]. }
    destruct (IH _ _ H') as [H1 H2]; [by intros v [= <-]|]. destruct (H1 _ eq_refl) as (d' & Hd' & Hk'). simpl in Hk'. split.
    + intros v Hv'. exists d'. split; [done|]. rewrite Hk'. by apply Hv.
    + intros d2 Hd2. rewrite Hd' in Hd2. injection Hd2 as <-. split; [intros _; by rewrite Hk'|].
      intros w Hw. apply elem_of_cons in Hw as [->|Hw].
      * exists du, a, d. by rewrite Hk'.
      * by apply (H2 _ Hd').
Qed.
Lemma eval_params_spec fuel b bd us : blks fd !! b = Some bd → (∀ u, u ∈ bb_used_by bd → u ∈ us) →
  ∀ n i l, eval_params fuel gs (f_dfg fd) b us i n = Dok l → ∀ j d, (j, d) ∈ l → agrees fd b j (v_kind d).
Proof.
  intros Hb Hus. induction n as [|n IH]; intros i l H j d Hj; cbn [eval_params] in H.
  { injection H as <-. by apply elem_of_nil in Hj. }
  destruct (same_args fuel gs (f_dfg fd) b i us None) as [[ans|]| |] eqn:Es; cbn [dthen] in H; try done; [|by eapply IH].
  destruct ans as [d0|]; cbn [dopt dthen] in H; [|done].
  destruct (eval_params fuel gs (f_dfg fd) b us (S i) n) as [l0| |] eqn:El; cbn [dthen] in H; try done. injection H as <-.
  apply elem_of_cons in Hj as [[= -> ->]|Hj]; [|by eapply IH].
  destruct (same_args_spec _ _ _ _ _ _ Es) as [_ H2]; [done|]. destruct (H2 _ eq_refl) as [H3 H4]. split.
  - apply H3. intros ->. cbn [same_args] in Es. done.
  - intros v x args Hv Hp. assert (v ∈ us) as Hin.
    { apply Hus. eapply (fn_users _ _ F); [|exact Hb]. exists x. split; [done|]. by eapply passes_target. }
    destruct (H4 _ Hin) as (du & a & da & Hdu & Ha & Hda & Hk). rewrite Hv in Hdu. injection Hdu as <-.
    exists a, da. split; [|done]. unfold passes, user_arg in *. destruct (v_kind x) eqn:Ek; try done.
    + destruct Hp as [[-> ->]|[-> ->]]; [by rewrite N.eqb_refl in Ha|].
      destruct (N.eqb_spec tbb b) as [->|]; [|done].
      destruct (so_apart _ _ _ (fn_shape _ _ F) _ _ _ _ _ _ Hv Ek) as [-> ->]. done.
    + by destruct Hp as [-> ->].
Qed.
Lemma eval_blocks_spec fuel o bs : fair_fold o → ∀ l, eval_blocks fuel o gs (f_dfg fd) bs = Dok l →
  ∀ b evs j d, (b, evs) ∈ l → (j, d) ∈ evs → agrees fd b j (v_kind d).
Proof.
  intros Fo. induction bs as [|c bs IH]; intros l H b evs j d Hb Hj; cbn [eval_blocks] in H.
  { injection H as <-. by apply elem_of_nil in Hb. }
  destruct (blks fd !! c) as [bd|] eqn:Ec; cbn [dopt dthen] in H; [|done].
  destruct (eval_params _ _ _ _ _ _ _) as [l0| |] eqn:E0; cbn [dthen] in H; try done.
  destruct (eval_blocks _ _ _ _ _) as [l1| |] eqn:E1; cbn [dthen] in H; try done. injection H as <-.
  apply elem_of_cons in Hb as [[= -> ->]|Hb]; [|by eapply IH].
  eapply eval_params_spec; [exact Ec| |exact E0|exact Hj]. intros u. apply (ff_set _ Fo).
Qed.
End collect.

(** One replacement *)
Definition low (i : ids) (v : N) : Prop := next_lv i = 0%N ∨ (next_lv i < two32)%N ∧ (v < next_lv i)%N.
Definition with_dfg (fd : fdata) (g : dfg) : fdata := FData (f_ty fd) (f_name fd) (f_params fd) g (f_layout fd).
Lemma next_fresh i q i' : next_local_value_id i = Some (q, i') → (∀ v, low i v → v ≠ q ∧ low i' v) ∧ (low i 0%N → low i' q).
Proof.
  unfold next_local_value_id, fetch_add1, new_unchecked. destruct (N.eqb_spec (next_lv i) 0) as [|Hne]; cbn; [done|].
  intros [= <- <-]. unfold low. cbn [next_lv]. assert (two32 ≠ 0%N) as H0 by done.
  destruct (N.eq_dec (next_lv i + 1) two32) as [E|E].
  - rewrite E, N.mod_same by done. split; [|by left]. intros v [?|[H1 H2]]; [done|]. split; [lia|by left].
  - assert ((next_lv i < two32)%N → ((next_lv i + 1) mod two32 = next_lv i + 1)%N) as Hm by (intros; apply N.mod_small; lia).
    split.
    + intros v [?|[H1 H2]]; [done|]. rewrite Hm by done. split; [lia|right; lia].
    + intros [?|[H1 H2]]; [done|]. rewrite Hm by done. right; lia.
Qed.

Lemma binds_fold fd fd' q p x x' a : alive (vals fd') q → vals fd !! q = None → (∀ a, operand fd fd' a) →
  vals fd !! p = Some x → vals fd' !! p = Some x' → folded_as x x' → (∀ k, ceq k (vals fd) (vals fd') a p) →
  ∀ ps i args, NoDup ps → ps !! i = Some p → args !! i = Some a →
  (∀ r, r ∈ ps → r ≠ p → ∃ d d' i, vals fd !! r = Some d ∧ vals fd' !! r = Some d' ∧ v_kind d = KBlockArg i ∧
    v_kind d' = KBlockArg i ∧ v_ty d' = v_ty d) →
  binds fd fd' ps args (<[i := q]> ps) args.
Proof.
  intros Hq Hq1 Hop Hx Hx' Hfold Hceq. induction ps as [|r ps IH]; intros i args Hnd Hpar Ha Hkeep; [done|].
  destruct args as [|e args]; [by rewrite lookup_nil in Ha|]. apply list.NoDup_cons in Hnd as [Hn Hnd]. destruct i as [|i].
  - injection Hpar as ->. injection Ha as ->. simpl. eapply B_fold; [done|done|apply Hop|exact Hx|exact Hx'|done|done|].
    apply binds_id; [|intros; apply Hop]. intros r Hr. apply Hkeep; [by right|]. by intros ->.
  - simpl in *. destruct (Hkeep r) as (z & z' & j & K1 & K2 & K3 & K4 & K5); [by left|intros ->; apply Hn; by eapply elem_of_list_lookup_2|].
    eapply B_keep; [exact K1|exact K2|exact K3|exact K4|exact K5|apply Hop|]. apply IH; [done|done|done|].
    intros r' Hr'. apply Hkeep. by right.
Qed.
Section replace.
Context (checks : bool) (i0 i1 : ids) (gs gs' : gmap N vdata) (fd : fdata) (g' : dfg) (b : bblock) (i : nat) (d : vdata).
Context (F : fold_fun gs fd) (HA : agrees fd b i (v_kind d)) (H : replace_param i0 gs (f_dfg fd) b i d = Some (i1, gs', g')).
Context (Hlow : ∀ v, is_Some (gs !! v) ∨ is_Some (vals fd !! v) ∨ v ∈ f_params fd → low i0 v).
Notation fd' := (with_dfg fd g').
Lemma replaced : ∃ bd p q pd n pd' qd, blks fd !! b = Some bd ∧ bb_params bd !! i = Some p ∧ vals fd !! p = Some pd ∧
  v_kind pd = KBlockArg n ∧ next_local_value_id i0 = Some (q, i1) ∧ skm gs' = skm gs ∧ q ≠ p ∧ vals fd !! q = None ∧ gs !! q = None ∧
  vals fd' !! p = Some pd' ∧ v_kind pd' = v_kind d ∧ vals fd' !! q = Some qd ∧ v_kind qd = KBlockArg n ∧ v_ty qd = v_ty pd ∧
  (∀ v, v ≠ p → v ≠ q → sk <$> vals fd' !! v = sk <$> vals fd !! v) ∧
  blks fd' = <[b := BBData (bb_name bd) (<[i := q]> (bb_params bd)) (bb_used_by bd)]> (blks fd).
Proof.
  unfold replace_param in H. apply bind_Some in H as (bd & Hb & H1). apply bind_Some in H1 as (p & Hp & H1).
  apply bind_Some in H1 as (pd & Hpd & H1). apply bind_Some in H1 as ([gs1 g1] & Hr & H1).
  apply bind_Some in H1 as ([[[q i2] gs2] g2] & Hn & H1). apply bind_Some in H1 as (bd' & Hb' & H1). injection H1 as -> -> <-.
  destruct (so_param _ _ _ (fn_shape _ _ F) _ _ p Hb) as (pd0 & n & Hpd0 & Hk); [by eapply elem_of_list_lookup_2|].
  rewrite Hpd in Hpd0. injection Hpd0 as <-.
  pose proof (replace_bbs _ _ _ _ _ _ _ Hr Hpd ltac:(by rewrite Hk) (plain_targets _ (proj1 HA))) as Eb1.
  assert (d_bbs g2 = d_bbs g1) as Eb2.
  { clear -Hn Hk. unfold dfg_new_value_data in Hn. apply bind_Some in Hn as ([v1 j1] & _ & Hn). apply bind_Some in Hn as ([g3 v3] & _ & Hn).
    apply bind_Some in Hn as (bs & Hbs & Hn). injection Hn as _ _ _ <-. simpl. cbn [clone_vdata v_kind] in Hbs. rewrite Hk in Hbs. by injection Hbs as <-. }
  apply replace_sk in Hr as (_ & Eg1 & Ev1 & _). apply new_value_sk in Hn as (Hid & Eg2 & Ev2 & _).
  destruct (next_fresh _ _ _ Hid) as [Hfr _].
  assert (q ≠ p ∧ vals fd !! q = None ∧ gs !! q = None) as (Hq1 & Hq2 & Hq3).
  { split_and!.
    - intros ->. destruct (Hfr p) as [? _]; [|done]. apply Hlow. right. left. by exists pd.
    - destruct (vals fd !! q) eqn:E; [|done]. destruct (Hfr q) as [? _]; [|done]. apply Hlow. right. left. by eexists.
    - destruct (gs !! q) eqn:E; [|done]. destruct (Hfr q) as [? _]; [|done]. apply Hlow. left. by eexists. }
  rewrite Ev1 in Ev2. simpl in *.
  assert (∃ pd', d_values g2 !! p = Some pd' ∧ v_kind pd' = v_kind d) as (pd' & Hp1 & Hp2).
  { destruct (skm_lookup (d_values g2) p (v_ty d) (v_kind d)) as (pd' & H1 & _ & H2); [|by eauto].
    rewrite Ev2, lookup_insert_ne, lookup_insert by done. done. }
  assert (∃ qd, d_values g2 !! q = Some qd ∧ v_kind qd = KBlockArg n ∧ v_ty qd = v_ty pd) as (qd & Hq4 & Hq5 & Hq6).
  { destruct (skm_lookup (d_values g2) q (v_ty pd) (v_kind pd)) as (qd & H1 & H2 & H3); [|exists qd; by rewrite <- Hk].
    rewrite Ev2, lookup_insert. done. }
  exists bd, p, q, pd, n, pd', qd. split_and!; try done.
  - congruence.
  - intros v Hv1 Hv2. rewrite <- !lookup_fmap, Ev2, !lookup_insert_ne by done. done.
  - rewrite Eb2, Eb1 in Hb' |- *. rewrite Hb in Hb'. by injection Hb' as <-.
Qed.

(** What is not the parameter stays. *)
Lemma replace_all : ∃ p, (∀ v x, vals fd !! v = Some x → v ≠ p → ∃ x', vals fd' !! v = Some x' ∧ v_ty x' = v_ty x ∧ v_kind x' = v_kind x) ∧
  (∀ v, is_Some (vals fd !! v) → is_Some (vals fd' !! v)) ∧
  (∃ bd n x x', blks fd !! b = Some bd ∧ bb_params bd !! i = Some p ∧ vals fd !! p = Some x ∧ v_kind x = KBlockArg n ∧ vals fd' !! p = Some x' ∧
    v_kind x' = v_kind d) ∧
  skm gs' = skm gs ∧
  ∃ q, (∀ v x', vals fd' !! v = Some x' → v ≠ p → v ≠ q → ∃ x, vals fd !! v = Some x ∧ v_ty x' = v_ty x ∧ v_kind x' = v_kind x) ∧
    (∃ n x', vals fd' !! q = Some x' ∧ v_kind x' = KBlockArg n) ∧ vals fd !! q = None ∧ gs !! q = None ∧ q ≠ p ∧
    next_local_value_id i0 = Some (q, i1) ∧
    (∀ c cd, blks fd !! c = Some cd → ∃ cd', blks fd' !! c = Some cd' ∧ bb_used_by cd' = bb_used_by cd ∧
      ((c ≠ b ∧ bb_params cd' = bb_params cd) ∨ c = b ∧ bb_params cd' = <[i := q]> (bb_params cd))) ∧
    (∀ c cd', blks fd' !! c = Some cd' → ∃ cd, blks fd !! c = Some cd ∧ bb_used_by cd' = bb_used_by cd ∧
      ((c ≠ b ∧ bb_params cd' = bb_params cd) ∨ c = b ∧ bb_params cd' = <[i := q]> (bb_params cd))).
Proof.
  destruct replaced as (bd & p & q & pd & n & pd' & qd & Hb & Hp & Hpd & Hk & Hid & Eg & Hqp & Hq1 & Hq2 & Hp1 & Hp2 & Hq3 & Hq4 & _ & Hv & Eb).
  exists p. split_and!; [| |by exists bd, n, pd, pd'|done|exists q; split_and!; try done].
  - intros v x Hx Hne. eapply sk_eq; [|exact Hx]. apply Hv; [done|]. intros ->. by rewrite Hq1 in Hx.
  - intros v [x Hx]. destruct (decide (v = p)) as [->|Hne]; [by eauto|]. destruct (sk_eq (vals fd) (vals fd') v x) as (x' & Hx' & _); [|done|by eauto].
    apply Hv; [done|]. intros ->. by rewrite Hq1 in Hx.
  - intros v x' Hx' H1 H2. destruct (sk_eq (vals fd') (vals fd) v x') as (x & Hx & ? & ?); [by rewrite Hv|done|]. exists x. by rewrite H0, H3.
  - by exists n, qd.
  - intros c cd Hc. rewrite Eb. destruct (decide (c = b)) as [->|Hne].
    + rewrite Hb in Hc. injection Hc as <-. eexists. rewrite lookup_insert. split; [done|]. split; [done|]. by right.
    + exists cd. rewrite lookup_insert_ne by done. split; [done|]. split; [done|]. by left.
  - intros c cd' Hc. rewrite Eb in Hc. apply lookup_insert_Some in Hc as [[<- <-]|[Hne Hc]].
    + exists bd. split; [done|]. split; [done|]. by right.
    + exists cd'. split; [done|]. split; [done|]. by left.
Qed.
Lemma replace_agrees c j k : agrees fd c j k → agrees fd' c j k.
Proof.
  intros [Hp Hk]. split; [done|]. destruct replace_all as (p & S1 & S2 & (bd & n & x & x' & Hb & Hpar & Hx & Hkx & Hx' & Hkx') & _ & q & S3 & (m & qd & Hq & Hkq) & _).
  intros v y args Hy Hpass.
  destruct (decide (v = p)) as [->|Hp1].
  { rewrite Hx' in Hy. injection Hy as <-. rewrite Hkx' in Hpass. destruct (proj1 HA) as [[z Hz]|Hz]; by rewrite Hz in Hpass. }
  destruct (decide (v = q)) as [->|Hq1]; [rewrite Hq in Hy; injection Hy as <-; by rewrite Hkq in Hpass|].
  destruct (S3 _ _ Hy Hp1 Hq1) as (y0 & Hy0 & _ & Hk0). rewrite Hk0 in Hpass.
  destruct (Hk _ _ _ Hy0 Hpass) as (a & da & Ha & Hda & Hka). exists a.
  destruct (S1 a da Hda) as (da' & Hda' & _ & Hka').
  - intros ->. rewrite Hx in Hda. injection Hda as <-. rewrite Hkx in Hka. destruct Hp as [[z Hz]|Hz]; congruence.
  - exists da'. split; [done|]. split; [done|]. by rewrite Hka'.
Qed.
Lemma replace_low v : is_Some (gs' !! v) ∨ is_Some (vals fd' !! v) ∨ v ∈ f_params fd' → low i1 v.
Proof.
  destruct replace_all as (p & S1 & S2 & (bd & n & x & x' & Hb & Hpar & Hx & _) & Eg & q & S3 & _ & _ & _ & _ & Hid & _).
  destruct (next_fresh _ _ _ Hid) as [Hfr Hq]. intros [Hv|[[y Hy]|Hv]].
  - apply Hfr, Hlow. left. by apply (skm_some _ _ _ Eg).
  - destruct (decide (v = p)) as [->|Hp1]; [apply Hfr, Hlow; right; left; by eauto|].
    destruct (decide (v = q)) as [->|Hq1].
    + apply Hq. assert (low i0 p) as Hl by (apply Hlow; right; left; by eauto). destruct Hl as [?|[? ?]]; [by left|right; lia].
    + destruct (S3 _ _ Hy Hp1 Hq1) as (y0 & Hy0 & _). apply Hfr, Hlow. right. left. by eauto.
  - apply Hfr, Hlow. by right; right.
Qed.
Lemma replace_fun : fold_fun gs' fd'.
Proof.
  destruct replace_all as (p & S1 & S2 & (bd & n & x & x' & Hb & Hpar & Hx & Hkx & Hx' & Hkx') & Eg & q & S3 & (m & qd & Hq & Hkq) & Hq1 & Hq2 & Hqp & Hid & S4 & S5).
  assert (p ∈ bb_params bd) as Hpin by (by eapply elem_of_list_lookup_2).
  assert (∀ c cd', blks fd' !! c = Some cd' → ∀ r, r ∈ bb_params cd' → r ≠ p ∧ (r = q ∧ c = b ∨ r ≠ q ∧ ∃ cd, blks fd !! c = Some cd ∧ r ∈ bb_params cd)) as Hps.
  { intros c cd' Hc r Hr. destruct (S5 _ _ Hc) as (cd & Hcd & _ & [[Hne E]|[-> E]]); rewrite E in Hr.
    - split; [intros ->; apply Hne; by eapply (fn_own _ _ F _ _ _ _ p Hcd Hb)|]. right. split; [|by eauto].
      intros ->. destruct (so_param _ _ _ (fn_shape _ _ F) _ _ _ Hcd Hr) as (? & ? & Hx0 & _). by rewrite Hq1 in Hx0.
    - rewrite Hb in Hcd. injection Hcd as <-. apply elem_of_list_lookup in Hr as (j & Hj).
      destruct (decide (j = i)) as [->|Hji].
      + rewrite list_lookup_insert in Hj by (by eapply lookup_lt_Some). injection Hj as <-. split; [done|]. by left.
      + rewrite list_lookup_insert_ne in Hj by done. split.
        * intros ->. apply Hji. eapply NoDup_lookup; [by apply (fn_once _ _ F _ _ Hb)|done..].
        * right. apply elem_of_list_lookup_2 in Hj as Hr. split; [|by eauto]. intros ->.
          destruct (so_param _ _ _ (fn_shape _ _ F) _ _ _ Hb Hr) as (? & ? & Hx0 & _). by rewrite Hq1 in Hx0. }
  assert (∀ v y, vals fd' !! v = Some y → UsesSpec.targets (v_kind y) ≠ [] → ∃ y0, vals fd !! v = Some y0 ∧ v_kind y = v_kind y0) as Hj.
  { intros v y Hy Hn. destruct (decide (v = p)) as [->|Hp1].
    { rewrite Hx' in Hy. injection Hy as <-. rewrite Hkx' in Hn. by rewrite (plain_targets _ (proj1 HA)) in Hn. }
    destruct (decide (v = q)) as [->|Hq3]; [rewrite Hq in Hy; injection Hy as <-; by rewrite Hkq in Hn|].
    destruct (S3 _ _ Hy Hp1 Hq3) as (y0 & Hy0 & _ & Hk0). by exists y0. }
  constructor.
  - intros v Hv. apply (skm_some _ _ _ Eg) in Hv. destruct (vals fd' !! v) as [y|] eqn:Ey; [|done]. exfalso.
    destruct (decide (v = p)) as [->|Hp1]; [by rewrite (fn_local _ _ F _ Hv) in Hx|].
    destruct (decide (v = q)) as [->|Hq3]; [rewrite Hq2 in Hv; by destruct Hv|].
    destruct (S3 _ _ Ey Hp1 Hq3) as (y0 & Hy0 & _). by rewrite (fn_local _ _ F _ Hv) in Hy0.
  - constructor; try apply (fn_shape _ _ F).
    + intros c cd' r Hc Hr. destruct (Hps _ _ Hc _ Hr) as [Hrp [[-> _]|[Hrq (cd & Hcd & Hr')]]]; [by eauto|].
      destruct (so_param _ _ _ (fn_shape _ _ F) _ _ _ Hcd Hr') as (y & j & Hy & Hk). destruct (S1 _ _ Hy Hrp) as (y' & Hy' & _ & Hk').
      exists y', j. by rewrite Hk'.
    + intros v y c t ta fa Hy Hk. destruct (Hj v y Hy) as (y0 & Hy0 & Hk0); [by rewrite Hk|]. rewrite Hk0 in Hk.
      by eapply (so_apart _ _ _ (fn_shape _ _ F)).
    + intros v c Hc. destruct (so_listed _ _ _ (fn_shape _ _ F) v c Hc) as (y & Hy & Hi).
      assert (v ≠ p) as Hne by (intros ->; rewrite Hx in Hy; injection Hy as <-; by rewrite Hkx in Hi).
      destruct (S1 _ _ Hy Hne) as (y' & Hy' & _ & Hk'). exists y'. by rewrite Hk'.
  - intros c cd' Hc. destruct (S5 _ _ Hc) as (cd & Hcd & _ & [[Hne E]|[-> E]]); rewrite E; [by eapply (fn_once _ _ F)|].
    rewrite Hb in Hcd. injection Hcd as <-. pose proof (fn_once _ _ F _ _ Hb) as Hnd. rewrite NoDup_alt in Hnd |- *.
    assert (∀ j r, <[i := q]> (bb_params bd) !! j = Some r → j = i ∧ r = q ∨ j ≠ i ∧ r ≠ q ∧ bb_params bd !! j = Some r) as Hl.
    { intros j r Hr. destruct (decide (j = i)) as [->|Hji].
      - rewrite list_lookup_insert in Hr by (by eapply lookup_lt_Some). injection Hr as <-. by left.
      - rewrite list_lookup_insert_ne in Hr by done. right. split; [done|]. split; [|done]. intros ->. apply elem_of_list_lookup_2 in Hr.
        destruct (so_param _ _ _ (fn_shape _ _ F) _ _ _ Hb Hr) as (? & ? & Hx0 & _). by rewrite Hq1 in Hx0. }
    intros j1 j2 r H1 H2. apply Hl in H1 as [[-> ->]|(? & ? & H1)], H2 as [[-> ?]|(? & ? & H2)]; try done. by eapply Hnd.
  - intros c cd c2 cd2 r Hc Hc2 Hr Hr2. destruct (Hps _ _ Hc _ Hr) as [_ [[-> ->]|[Hrq (e & He & Hre)]]], (Hps _ _ Hc2 _ Hr2) as [_ [[? ->]|[Hrq2 (e2 & He2 & Hre2)]]]; try done.
    by eapply (fn_own _ _ F).
  - intros r y Hr Hy. cbn [f_params] in Hr. destruct (decide (r = p)) as [->|Hp1].
    { exfalso. apply (fn_params _ _ F _ _ Hr Hx). right. by eauto. }
    destruct (decide (r = q)) as [->|Hq3].
    + exfalso. destruct (next_fresh _ _ _ Hid) as [Hfr _]. destruct (Hfr q) as [Hn _]; [|done]. apply Hlow. by right; right.
    + destruct (S3 _ _ Hy Hp1 Hq3) as (y0 & Hy0 & _ & Hk0). rewrite Hk0. by eapply (fn_params _ _ F).
  - intros v c cd (y & Hy & Hc) Hcd. destruct (Hj v y Hy) as (y0 & Hy0 & Hk0); [by intros E; rewrite E in Hc; apply elem_of_nil in Hc|].
    destruct (S5 _ _ Hcd) as (cd0 & Hcd0 & -> & _). eapply (fn_users _ _ F); [|exact Hcd0]. exists y0. by rewrite <- Hk0.
  - intros v c (y & Hy & Hc). destruct (Hj v y Hy) as (y0 & Hy0 & Hk0); [by intros E; rewrite E in Hc; apply elem_of_nil in Hc|].
    destruct (fn_blocks _ _ F v c) as [cd Hcd]; [exists y0; by rewrite <- Hk0|]. destruct (S4 _ _ Hcd) as (cd' & Hcd' & _). by eauto.
  - intros u y c args a da Hy Hpass Ha Hda Hc. destruct (Hj u y Hy) as (y0 & Hy0 & Hk0).
    { intros E. apply passes_target in Hpass. rewrite E in Hpass. by apply elem_of_nil in Hpass. }
    rewrite Hk0 in Hpass. destruct (decide (a = p)) as [->|Hp1].
    { rewrite Hx' in Hda. injection Hda as <-. rewrite Hkx'. apply HA. }
    destruct (decide (a = q)) as [->|Hq3]; [rewrite Hq in Hda; injection Hda as <-; by rewrite Hkq in Hc|].
    destruct (S3 _ _ Hda Hp1 Hq3) as (da0 & Hda0 & _ & Hka). rewrite Hka in Hc |- *. exact (fn_plain _ _ F _ _ _ _ _ _ Hy0 Hpass Ha Hda0 Hc).
Qed.
Lemma replace_opt : opt_fun fd fd' checks.
Proof.
  destruct replace_all as (p & S1 & S2 & (bd & n & x & x' & Hb & Hpar & Hx & Hkx & Hx' & Hkx') & Eg & q & S3 & (m & qd & Hq & Hkq) & Hq1 & Hq2 & Hqp & Hid & S4 & S5).
  assert (folded_as x x') as Hfold.
  { split; [by rewrite Hkx|]. rewrite Hkx'. apply plain_const, HA. }
  assert (∀ v y b (args : list value), vals fd !! v = Some y → passes (v_kind y) b args → goes fd fd' b args args) as Hgoes.
  { intros v y c args Hy Hpass cd Hcd. destruct (S4 _ _ Hcd) as (cd' & Hcd' & _ & Hps). exists cd'. split; [done|].
    assert (∀ ps : list value, (∀ r, r ∈ ps → r ∈ bb_params cd ∧ r ≠ p) → ∀ r, r ∈ ps → ∃ d d' i, vals fd !! r = Some d ∧ vals fd' !! r = Some d' ∧ v_kind d = KBlockArg i ∧
      v_kind d' = KBlockArg i ∧ v_ty d' = v_ty d) as Hkeep.
    { intros ps Hps2 r Hr. destruct (Hps2 _ Hr) as [Hr2 Hne].
      destruct (so_param _ _ _ (fn_shape _ _ F) _ _ _ Hcd Hr2) as (z & j & Hz & Hk). destruct (S1 _ _ Hz Hne) as (z' & Hz' & Ht & Hk').
      exists z, z', j. by rewrite Hk'. }
    assert (∀ a, operand fd fd' a) as Hop by (intros a; exact (S2 a)).
    destruct Hps as [[Hne ->]|[-> ->]].
    - apply binds_id; [|intros a _; apply Hop]. apply Hkeep. intros r Hr. split; [done|]. intros ->. apply Hne.
      eapply (fn_own _ _ F _ _ _ _ p Hcd Hb); [done|]. by eapply elem_of_list_lookup_2.
    - rewrite Hb in Hcd. injection Hcd as <-. destruct (proj2 HA _ _ _ Hy Hpass) as (a & da & Ha & Hda & Hka).
      assert (∀ k, ceq k (vals fd) (vals fd') a p) as Hceq.
      { intros [|k]; [done|]. exists da, x'. split; [done|]. split; [done|]. rewrite Hkx', <- Hka.
        assert (plain (v_kind da)) as [[z Hz]|Hz] by (rewrite Hka; apply HA); by rewrite Hz. }
      eapply (binds_fold fd fd' q p x x'); [by exists qd|done|done|done|done|done|done|by apply (fn_once _ _ F _ _ Hb)|done|done|].
      intros r Hr Hne. apply (Hkeep [r]); [|by left]. intros r' Hr'. by apply elem_of_list_singleton in Hr' as ->. }
  assert (∀ v y, vals fd !! v = Some y → v ≠ p → same fd fd' v) as Hsame.
  { intros v y Hy Hne. destruct (S1 _ _ Hy Hne) as (y' & Hy' & Ht & Hk). exists y, y'. split; [done|]. split; [done|].
    apply same_as_kind; [done..|]. intros c args. by eapply Hgoes. }
  constructor; try done.
  - intros r Hr [y Hy]. eapply Hsame; [exact Hy|]. intros ->. apply (fn_params _ _ F _ _ Hr Hx). right. by eauto.
  - intros v y y' Hy Hy'. destruct (decide (v = p)) as [->|Hne].
    + right. rewrite Hx in Hy. rewrite Hx' in Hy'. by injection Hy as <-; injection Hy' as <-.
    + left. destruct (Hsame _ _ Hy Hne) as (z & z' & Hz & Hz' & Hs). rewrite Hy in Hz. rewrite Hy' in Hz'.
      by injection Hz as <-; injection Hz' as <-.
  - intros v y y' e _ _ _ _. exact (S2 e).
  - pose proof (so_listed _ _ _ (fn_shape _ _ F)) as HL. unfold in_block in HL.
    assert (∀ z v, z ∈ l_bbs (f_layout fd) → v ∈ z.2 → same fd fd' v) as HL'.
    { intros [c is] v Hz Hv. destruct (HL v c) as (y & Hy & Hi); [by exists is|]. eapply Hsame; [exact Hy|].
      intros ->. rewrite Hx in Hy. injection Hy as <-. by rewrite Hkx in Hi. }
    cbn [with_dfg f_layout]. clear -HL'. revert HL'. generalize (l_bbs (f_layout fd)) as l. intros l HL.
    induction l as [|[c is] l IH]; constructor.
    + split; [done|]. simpl. assert (∀ v, v ∈ is → same fd fd' v) as Hi.
      { intros v Hv. apply (HL (c, is)); [by left|done]. }
      clear -Hi. induction is as [|v is IH]; [apply T_nil|]. apply T_keep; [apply Hi; by left|].
      apply IH. intros w Hw. apply Hi. by right.
    + apply IH. intros z v Hz. apply (HL z). by right.
Qed.
End replace.

(** ** Programs *)
Record fold_prog (p : program) : Prop := {
  fp_funs : ∀ f fd, p_funcs p !! f = Some fd → fold_fun (p_values p) fd;
  fp_names : ∀ f g fd gd, p_funcs p !! f = Some fd → p_funcs p !! g = Some gd → f_name fd = f_name gd → f = g;
}.
Definition put (p : program) (f : func) (gs : gmap N vdata) (fd : fdata) : program :=
  set_func (Program gs (p_inst_layout p) (p_funcs p) (p_func_tys p) (p_func_layout p)) f fd.
Lemma put_put p f gs fd gs' fd' : put (put p f gs fd) f gs' fd' = put p f gs' fd'.
Proof. unfold put, set_func. simpl. by rewrite insert_insert. Qed.
Lemma put_func p f gs fd : p_funcs (put p f gs fd) !! f = Some fd.
Proof. simpl. apply lookup_insert. Qed.
Lemma put_id p f fd : p_funcs p !! f = Some fd → put p f (p_values p) fd = p.
Proof. intros H. unfold put, set_func. simpl. rewrite insert_id by done. by destruct p. Qed.
Definition lowp (i : ids) (p : program) : Prop := ∀ v, is_Some (p_values p !! v) ∨
  (∃ f fd, p_funcs p !! f = Some fd ∧ (is_Some (vals fd !! v) ∨ v ∈ f_params fd)) → low i v.
Lemma unused_lowp i p : numbers_unused i p → lowp i p.
Proof. intros [H|[H1 H2]] v Hv; [by left|]. right. split; [done|]. by apply H2. Qed.

Section prog.
Context (checks : bool).
Definition better (p p' : program) : Prop := fold_prog p ∧ fold_prog p' ∧ opt_program checks p p'.
Lemma fold_fun_globals gs gs' fd : skm gs' = skm gs → fold_fun gs fd → fold_fun gs' fd.
Proof. intros E [H1 H2 H3 H4 H5 H6 H7 H8]. constructor; try done. intros v Hv. by apply H1, (skm_some _ _ _ E). Qed.
Lemma put_better p f fd gs' fd' : fold_prog p → p_funcs p !! f = Some fd → skm gs' = skm (p_values p) → fold_fun gs' fd' →
  opt_fun fd fd' checks → better p (put p f gs' fd').
Proof.
  intros [P1 P2] Hf E F' O. split; [done|]. split.
  - constructor.
    + intros g gd Hg. simpl in Hg |- *. apply lookup_insert_Some in Hg as [[<- <-]|[_ Hg]]; [done|].
      eapply fold_fun_globals; [exact E|by eapply P1].
    + assert (∀ g gd', p_funcs (put p f gs' fd') !! g = Some gd' → ∃ gd, p_funcs p !! g = Some gd ∧ f_name gd' = f_name gd) as Hn.
      { intros g gd' Hg. simpl in Hg. apply lookup_insert_Some in Hg as [[<- <-]|[_ Hg]]; [|by eauto]. exists fd. split; [done|].
        apply (of_name _ _ _ O). }
      intros g h gd hd Hg Hh. destruct (Hn _ _ Hg) as (? & ? & ->), (Hn _ _ Hh) as (? & ? & ->). by apply P2.
  - constructor.
    + intros v. simpl. change (sk <$> gs' !! v = sk <$> p_values p !! v). by rewrite <- !lookup_fmap, E.
    + done.
    + intros g. simpl. destruct (decide (g = f)) as [->|Hne]; [by rewrite Hf, lookup_insert|].
      rewrite lookup_insert_ne by done. destruct (p_funcs p !! g) eqn:Eg; [|done]. eapply opt_refl. by eapply P1.
Qed.
Lemma better_keeps p p' : rtc better p p' → fold_prog p → ∀ E (C : xconfig E) fuel order order' e z e1, c_checks C = checks →
  (∀ f, f ∈ order → is_Some (p_funcs p !! f) → f ∈ order') →
  interpret C fuel order p e = XOk (z, e1) → ∃ fuel', interpret C fuel' order' p' e = XOk (z, e1).
Proof.
  assert (∀ p p', better p p' → ∀ E (C : xconfig E) fuel order order' e z e1, c_checks C = checks →
    (∀ f, f ∈ order → is_Some (p_funcs p !! f) → f ∈ order') →
    interpret C fuel order p e = XOk (z, e1) → interpret C (S fuel + fuel) order' p' e = XOk (z, e1)) as Hone.
  { clear p p'. intros p p' ([P1 P2] & _ & HO) E C fuel order order' e z e1 HC Hord.
    apply interpret_opt; [by rewrite HC| |left; lia|done|done]. intros f fd v Hf. by apply (fn_local _ _ (P1 _ _ Hf)). }
  intros Hr Hp E C fuel order order' e z e1 HC Hord H.
  revert fuel order Hord H Hp. induction Hr as [p|p p1 p2 H1 Hr IH]; intros fuel order Hord H Hp.
  - exists (S fuel + fuel)%nat. apply (Hone p p) with order; [|done..]. split; [done|]. split; [done|]. constructor; [done..|].
    intros f. destruct (p_funcs p !! f) eqn:Ef; [|done]. eapply opt_refl. by eapply (fp_funs _ Hp).
  - apply (IH (S fuel + fuel)%nat order).
    + intros f Hf [fd Hs]. apply Hord; [done|]. destruct H1 as (_ & _ & HO). pose proof (op_funcs _ _ _ HO f) as Ho.
      rewrite Hs in Ho. destruct (p_funcs p !! f); [by eauto|done].
    + by apply (Hone p p1 H1) with order.
    + apply H1.
Qed.

Context (p : program) (f : func).
Notation P := (put p f).
Lemma put_low i gs fd gs' fd' : lowp i (P gs fd) → skm gs' = skm gs →
  (∀ v, is_Some (vals fd' !! v) → is_Some (vals fd !! v)) → f_params fd' = f_params fd → lowp i (P gs' fd').
Proof.
  intros H E Hv Ep v Hs. apply H. destruct Hs as [Hs|(g & gd & Hg & Hs)].
  - left. simpl in *. by apply (skm_some _ _ _ E).
  - simpl in Hg. destruct (decide (g = f)) as [->|Hne].
    + rewrite lookup_insert in Hg. injection Hg as <-. right. exists f, fd. simpl. rewrite lookup_insert. split; [done|].
      destruct Hs as [Hs|Hs]; [left; by apply Hv|right; by rewrite <- Ep].
    + rewrite lookup_insert_ne in Hg by done. right. exists g, gd. simpl. by rewrite lookup_insert_ne.
Qed.
Lemma fold_loop_better order i n : is_value_order order → ∀ gs fd gs' fd' c,
  fold_loop n checks order gs fd = Some (gs', fd', c) → fold_prog (P gs fd) → lowp i (P gs fd) →
  rtc better (P gs fd) (P gs' fd') ∧ fold_prog (P gs' fd') ∧ lowp i (P gs' fd').
Proof.
  intros Ho. induction n as [|n IH]; intros gs fd gs' fd' c H Hp Hl; cbn [fold_loop] in H.
  - by injection H as <- <- _.
  - apply bind_Some in H as ([[ch gs1] fd1] & He & H).
    assert (fold_fun gs fd) as F by exact (fp_funs _ Hp f fd (put_func _ _ _ _)).
    destruct (eval_const_bbs _ _ _ _ _ _ _ Ho He) as (Eg & _ & _ & _ & Ep).
    assert (better (P gs fd) (P gs1 fd1)) as HB.
    { rewrite <- (put_put p f gs fd gs1 fd1). apply put_better with fd; [done|by rewrite put_func|done| |].
      - by eapply round_fun.
      - by eapply round_opt. }
    assert (lowp i (P gs1 fd1)) as Hl1.
    { eapply put_low; [exact Hl|done| |done]. intros v. by eapply round_back. }
    destruct ch.
    + destruct (IH _ _ _ _ _ H) as (H1 & H2 & H3); [apply HB|done|]. split; [|done]. by eapply rtc_l.
    + injection H as <- <- _. split; [by apply rtc_once|]. split; [apply HB|done].
Qed.
Lemma put_fold_fun gs fd : fold_prog (P gs fd) → fold_fun gs fd.
Proof. intros Hp. exact (fp_funs _ Hp f fd (put_func _ _ _ _)). Qed.
Lemma replace_param_better i gs fd b j d i' gs' g' : replace_param i gs (f_dfg fd) b j d = Some (i', gs', g') →
  fold_prog (P gs fd) → lowp i (P gs fd) → agrees fd b j (v_kind d) →
  better (P gs fd) (P gs' (with_dfg fd g')) ∧ lowp i' (P gs' (with_dfg fd g')) ∧
  ∀ c m k, agrees fd c m k → agrees (with_dfg fd g') c m k.
Proof.
  intros H Hp Hl HA. pose proof (put_fold_fun _ _ Hp) as F.
  assert (∀ v, is_Some (gs !! v) ∨ is_Some (vals fd !! v) ∨ v ∈ f_params fd → low i v) as Hlow.
  { intros v [Hv|Hv]; apply Hl; [by left|right]. exists f, fd. split; [apply put_func|done]. }
  destruct (replace_all _ _ _ _ _ _ _ _ _ F HA H Hlow) as (q & _ & _ & _ & Eg & q2 & _ & _ & _ & _ & _ & Hid & _).
  split_and!.
  - rewrite <- (put_put p f gs fd gs' (with_dfg fd g')). apply put_better with fd; [done|by rewrite put_func|done| |].
    + by eapply replace_fun.
    + by eapply replace_opt.
  - intros v [Hv|(g & gd & Hg & Hv)].
    + eapply (replace_low _ _ _ _ _ _ _ _ _ F HA H Hlow). by left.
    + simpl in Hg. destruct (decide (g = f)) as [->|Hne].
      * rewrite lookup_insert in Hg. injection Hg as <-. eapply (replace_low _ _ _ _ _ _ _ _ _ F HA H Hlow). by right.
      * rewrite lookup_insert_ne in Hg by done. apply (next_fresh _ _ _ Hid). apply Hl. right. exists g, gd. simpl. by rewrite lookup_insert_ne.
  - intros c m k. by eapply replace_agrees.
Qed.
Lemma with_dfg_id fd : with_dfg fd (f_dfg fd) = fd.
Proof. by destruct fd. Qed.
Lemma replace_params_better b evs : ∀ i gs fd i' gs' g', replace_params i gs (f_dfg fd) b evs = Some (i', gs', g') →
  fold_prog (P gs fd) → lowp i (P gs fd) → (∀ j d, (j, d) ∈ evs → agrees fd b j (v_kind d)) →
  rtc better (P gs fd) (P gs' (with_dfg fd g')) ∧ fold_prog (P gs' (with_dfg fd g')) ∧ lowp i' (P gs' (with_dfg fd g')) ∧
  ∀ c m k, agrees fd c m k → agrees (with_dfg fd g') c m k.
Proof.
  induction evs as [|[j d] evs IH]; intros i gs fd i' gs' g' H Hp Hl HA; cbn [replace_params] in H.
  - injection H as <- <- <-. rewrite with_dfg_id. done.
  - apply bind_Some in H as ([[i1 gs1] g1] & H1 & H).
    destruct (replace_param_better _ _ _ _ _ _ _ _ _ H1 Hp Hl) as (B1 & B2 & B3); [apply HA; by left|].
    destruct (IH i1 gs1 (with_dfg fd g1) _ _ _ H) as (C1 & C2 & C3 & C4); [apply B1|done| |].
    + intros j2 d2 Hj. apply B3, HA. by right.
    + split_and!; [by eapply rtc_l|done|done|]. intros c m k Hc. by apply C4, B3.
Qed.
Lemma replace_blocks_better l : ∀ i gs fd i' gs' g', replace_blocks i gs (f_dfg fd) l = Some (i', gs', g') →
  fold_prog (P gs fd) → lowp i (P gs fd) → (∀ b evs j d, (b, evs) ∈ l → (j, d) ∈ evs → agrees fd b j (v_kind d)) →
  rtc better (P gs fd) (P gs' (with_dfg fd g')) ∧ fold_prog (P gs' (with_dfg fd g')) ∧ lowp i' (P gs' (with_dfg fd g')).
Proof.
  induction l as [|[b evs] l IH]; intros i gs fd i' gs' g' H Hp Hl HA; cbn [replace_blocks] in H.
  - injection H as <- <- <-. rewrite with_dfg_id. done.
  - apply bind_Some in H as ([[i1 gs1] g1] & H1 & H).
    destruct (replace_params_better _ _ _ _ _ _ _ _ H1 Hp Hl) as (B1 & B2 & B3 & B4); [intros j d; apply HA; by left|].
    destruct (IH i1 gs1 (with_dfg fd g1) _ _ _ H) as (C1 & C2 & C3); [done|done| |].
    + intros b2 evs2 j2 d2 Hb Hj. eapply B4, HA; [by right|exact Hj].
    + split_and!; [by etrans|done|done].
Qed.
Lemma fold_run_on_better fuel o i gs fd i' gs' fd' : fair_fold o → fold_run_on fuel checks o i gs fd = Dok (i', gs', fd') →
  fold_prog (P gs fd) → lowp i (P gs fd) → rtc better (P gs fd) (P gs' fd') ∧ fold_prog (P gs' fd') ∧ lowp i' (P gs' fd').
Proof.
  intros Fo H Hp Hl. unfold fold_run_on in H.
  destruct (fold_loop fuel checks (fold_values o) gs fd) as [[[gs1 fd1] c]|] eqn:EL; cbn [dopt dthen] in H; [|done].
  destruct (fold_loop_better _ _ _ (ff_values _ Fo) _ _ _ _ _ EL Hp Hl) as (B1 & B2 & B3). cbn [fst snd] in H.
  destruct c; [|done]. unfold eval_bb_params in H.
  destruct (eval_blocks _ _ _ _ _) as [l| |] eqn:Eb; cbn [dthen] in H; try done.
  destruct (replace_blocks i gs1 (f_dfg fd1) l) as [[[i2 gs2] g2]|] eqn:Er; cbn [dopt dthen fst snd] in H; [|done].
  injection H as <- <- <-.
  destruct (replace_blocks_better _ _ _ _ _ _ _ Er B2 B3) as (C1 & C2 & C3).
  - exact (eval_blocks_spec _ _ (put_fold_fun _ _ B2) _ _ _ Fo _ Eb).
  - split_and!; [by etrans|done|done].
Qed.
End prog.
Lemma fold_pass_better fuel checks o order : fair_fold o → ∀ i p i' p', fold_pass fuel checks o order i p = Dok (i', p') →
  fold_prog p → lowp i p → rtc (better checks) p p' ∧ fold_prog p' ∧ lowp i' p'.
Proof.
  intros Fo. induction order as [|f order IH]; intros i p i' p' H Hp Hl; cbn [fold_pass] in H.
  - by injection H as <- <-.
  - destruct (p_funcs p !! f) as [fd|] eqn:Ef; cbn [dopt dthen] in H; [|done].
    destruct (fold_run_on _ _ _ _ _ _) as [[[i1 gs1] fd1]| |] eqn:Er; cbn [dthen fst snd] in H; try done.
    rewrite <- (put_id p f fd Ef) in Hp, Hl.
    destruct (fold_run_on_better checks p f _ _ _ _ _ _ _ _ Fo Er Hp Hl) as (B1 & B2 & B3).
    destruct (IH _ _ _ _ H B2 B3) as (C1 & C2 & C3). rewrite put_id in B1 by done. split_and!; [by etrans|done|done].
Qed.
Lemma fold_pass_keeps {E} (C : xconfig E) fuel o order i p i' p' n fns fns' e z e1 : fair_fold o → fold_prog p → numbers_unused i p →
  fold_pass fuel (c_checks C) o order i p = Dok (i', p') → (∀ f, f ∈ fns → is_Some (p_funcs p !! f) → f ∈ fns') →
  interpret C n fns p e = XOk (z, e1) → ∃ n', interpret C n' fns' p' e = XOk (z, e1).
Proof.
  intros Fo Hp Hi H Hf. destruct (fold_pass_better _ _ _ _ Fo _ _ _ _ H Hp (unused_lowp _ _ Hi)) as (B & _).
  by apply (better_keeps _ _ _ B Hp).
Qed.
