(** Programs that are the same up to identifiers are run in step (C63). *)
From Coq Require Import Lia ZifyBool ZifyNat ZifyN.
From Verif Require Import Base IdModel TypeModel IrModel LayoutModel BuilderModel WorldModel ArithModel InterpModel UsesSpec DfgSpec TypingSpec RawModel RawSpec RawInvProofs.

(** ** Results *)
Definition xsame {A} (R : A → A → Prop) (x y : xres A) : Prop :=
  match x, y with
  | XOk a, XOk b => R a b
  | XErr, XErr | XPanic, XPanic | XBeyond, XBeyond | XDeep, XDeep => True
  | _, _ => False
  end.
Lemma xsame_bind {A B} (R : A → A → Prop) (S : B → B → Prop) x y (k l : A → xres B) :
  xsame R x y → (∀ a b, R a b → xsame S (k a) (l b)) → xsame S (x ≫= k) (y ≫= l).
Proof. intros H1 H2. destruct x, y; try done. by apply H2. Qed.
Lemma xsame_refl {A} (R : A → A → Prop) x y : (∀ a, R a a) → x = y → xsame R x y.
Proof. intros H <-. destruct x; simpl; auto. Qed.
Lemma xsame_eq {A} (x y : xres A) : xsame eq x y → x = y.
Proof. destruct x, y; simpl; try done. by intros ->. Qed.
Lemma xbind_eq {A B} (x y : xres A) (k l : A → xres B) : x = y → (∀ a, k a = l a) → x ≫= k = y ≫= l.
Proof. intros <- H. destruct x; try done. apply H. Qed.
Lemma x_each_eq (V : value → value → Prop) f g l l' : Forall2 V l l' → (∀ v v' n, V v v' → f v n = g v' n) →
  ∀ n, x_each f l n = x_each g l' n.
Proof.
  intros HL Hfg. induction HL as [|v v' l l' Hv HL IH]; intros n; [done|]. cbn [x_each]. apply xbind_eq; [by apply Hfg|].
  intros [y n1]. apply xbind_eq; [apply IH|]. by intros [].
Qed.

(** ** What is related *)
Definition const_like (m m' : gmap N vdata) (v v' : value) : Prop :=
  ∃ d d', m !! v = Some d ∧ m' !! v' = Some d' ∧ is_const (v_kind d) = true ∧ is_const (v_kind d') = true ∧
    ∀ k n, x_const k m v n = x_const k m' v' n.
Section sim.
Context {E : Type} (C : xconfig E) (p p' : program) (vars vars' : gmap N xval) (G F : N → N → Prop).

Definition vlike (fd fd' : fdata) (Vm : gmap N N) (v v' : value) : Prop :=
  (is_global_id v = true ∧ is_global_id v' = true ∧ G v v') ∨
  (is_global_id v = false ∧ is_global_id v' = false ∧
   (const_like (vals fd) (vals fd') v v' ∨
    pairs Vm v v' ∧ ∃ d d', vals fd !! v = Some d ∧ vals fd' !! v' = Some d' ∧ is_const (v_kind d) = false ∧ is_const (v_kind d') = false)).
Definition bodies (Vm : gmap N N) : option (list value) → option (list value) → Prop := option_Forall2 (Forall2 (pairs Vm)).
Record sim_fun (Vm Bm : gmap N N) (fd fd' : fdata) : Prop := {
  sm_name : f_name fd' = f_name fd;
  sm_ty : f_ty fd' = f_ty fd;
  sm_once : one_to_one Vm;
  sm_params : Forall2 (pairs Vm) (f_params fd) (f_params fd');
  sm_vals : ∀ v v', pairs Vm v v' → ∃ d d', vals fd !! v = Some d ∧ vals fd' !! v' = Some d' ∧ v_ty d' = v_ty d ∧
    renamed (vlike fd fd' Vm) (pairs Bm) F (v_kind d) (v_kind d');
  sm_bbs : ∀ b b', pairs Bm b b' → (∃ d d', blks fd !! b = Some d ∧ blks fd' !! b' = Some d' ∧ Forall2 (pairs Vm) (bb_params d) (bb_params d')) ∧
    bodies Vm (find_bb b (l_bbs (f_layout fd))) (find_bb b' (l_bbs (f_layout fd')));
  sm_head : bodies Vm (snd <$> head (l_bbs (f_layout fd))) (snd <$> head (l_bbs (f_layout fd')));
}.
Context (HG : ∀ v v', G v v' → vars !! v = vars' !! v' ∧ ∃ d d', p_values p !! v = Some d ∧ p_values p' !! v' = Some d' ∧ is_const (v_kind d) = is_const (v_kind d')).
Context (HV : ∀ v, is_global_id v = false → vars !! v = None) (HV' : ∀ v, is_global_id v = false → vars' !! v = None).
Context (HF : ∀ f f', F f f' → ∃ fd fd' Vm Bm, p_funcs p !! f = Some fd ∧ p_funcs p' !! f' = Some fd' ∧ sim_fun Vm Bm fd fd').

Definition same_frame (Vm : gmap N N) (X X' : xframe) : Prop :=
  (∀ v v', pairs Vm v v' → xf_vals X !! v = xf_vals X' !! v') ∧ xf_allocs X = xf_allocs X'.
Lemma same_insert Vm v v' x X X' : one_to_one Vm → pairs Vm v v' → same_frame Vm X X' → same_frame Vm (x_insert v x X) (x_insert v' x X').
Proof.
  intros H1 Hv [H2 H3]. split; [|exact H3]. intros w w' Hw. cbn [x_insert xf_vals]. destruct (decide (v = w)) as [<-|Hne].
  - unfold pairs in *. rewrite Hv in Hw. injection Hw as <-. by rewrite !lookup_insert.
  - rewrite !lookup_insert_ne; [by apply H2| |done]. intros ->. apply Hne. by eapply H1.
Qed.
Lemma value_same fuel fd fd' Vm X X' v v' n : vlike fd fd' Vm v v' → same_frame Vm X X' →
  x_value p vars fuel fd (xf_vals X) v n = x_value p' vars' fuel fd' (xf_vals X') v' n.
Proof.
  intros Hv [HX _]. unfold x_value. destruct Hv as [(E1 & E2 & Hg)|(E1 & E2 & Hv)]; rewrite E1, E2.
  - destruct (HG _ _ Hg) as (E3 & d & d' & -> & -> & E4). cbn [xneed mbind xres_bind]. by rewrite E4, E3.
  - destruct Hv as [(d & d' & Hd & Hd' & K & K' & Hc)|(Hv & d & d' & Hd & Hd' & K & K')]; rewrite Hd, Hd'; cbn [xneed mbind xres_bind]; rewrite K, K'.
    + apply Hc.
    + rewrite (HV _ E1), (HV' _ E2). by rewrite (HX _ _ Hv).
Qed.
Lemma eval_same fuel fd fd' Vm X X' v v' (W : xworld E) : vlike fd fd' Vm v v' → same_frame Vm X X' →
  x_eval p vars fuel fd X v W = x_eval p' vars' fuel fd' X' v' W.
Proof. intros Hv HX. unfold x_eval. by rewrite (value_same _ _ _ _ _ _ _ _ _ Hv HX). Qed.
Lemma evals_same fuel fd fd' Vm X X' l l' (W : xworld E) : Forall2 (vlike fd fd' Vm) l l' → same_frame Vm X X' →
  x_evals p vars fuel fd X l W = x_evals p' vars' fuel fd' X' l' W.
Proof.
  intros Hl HX. unfold x_evals. apply xbind_eq; [|done]. eapply x_each_eq; [exact Hl|]. intros. by eapply value_same.
Qed.
Definition step_same (Vm : gmap N N) (a b : xworld E * xframe) : Prop := a.1 = b.1 ∧ same_frame Vm a.2 b.2.
Definition done_same (Vm : gmap N N) (a b : xval * xworld E * xframe) : Prop := a.1 = b.1 ∧ same_frame Vm a.2 b.2.
Lemma params_same fuel fd fd' Vm Bm ps : sim_fun Vm Bm fd fd' → ∀ ps' args args' W X X',
  Forall2 (pairs Vm) ps ps' → Forall2 (vlike fd fd' Vm) args args' → same_frame Vm X X' →
  xsame (step_same Vm) (x_params p vars fuel fd ps args W X) (x_params p' vars' fuel fd' ps' args' W X').
Proof.
  intros S. induction ps as [|q ps IH]; intros ps' args args' W X X' Hp Ha HX.
  - apply Forall2_nil_inv_l in Hp as ->. cbn [x_params xsame]. by split.
  - apply Forall2_cons_inv_l in Hp as (q' & ps2 & Hq & Hp & ->). destruct Ha as [|a a' args args' Ha Has]; [by split|].
    cbn [x_params]. destruct (sm_vals _ _ _ _ S _ _ Hq) as (d & d' & -> & -> & _). cbn [xneed mbind xres_bind].
    rewrite (eval_same fuel _ _ _ _ _ _ _ W Ha HX). destruct (x_eval p' vars' fuel fd' X' a' W) as [[x W1]| | | |]; cbn [mbind xres_bind xsame]; try done.
    apply IH; [done|done|]. apply same_insert; [apply (sm_once _ _ _ _ S)|done|done].
Qed.

Definition go_same (go go' : fdata → list value → xworld E → xframe → xres (xval * xworld E * xframe)) : Prop :=
  ∀ Vm Bm fd fd' is is' W X X', sim_fun Vm Bm fd fd' → Forall2 (pairs Vm) is is' → same_frame Vm X X' →
    xsame (done_same Vm) (go fd is W X) (go' fd' is' W X').
Lemma args_same Vm ps ps' : one_to_one Vm → Forall2 (pairs Vm) ps ps' → ∀ args m m',
  (∀ v v', pairs Vm v v' → m !! v = m' !! v') → ∀ v v', pairs Vm v v' → x_args ps args m !! v = x_args ps' args m' !! v'.
Proof.
  intros H1. induction 1 as [|q q' ps ps' Hq Hps IH]; intros args m m' Hm; [done|]. destruct args as [|a args]; [done|]. cbn [x_args]. apply IH.
  intros v v' Hv. exact (proj1 (same_insert Vm q q' a (XFrame m []) (XFrame m' []) H1 Hq (conj Hm eq_refl)) v v' Hv).
Qed.
Lemma exist_same Vm Bm fd fd' : sim_fun Vm Bm fd fd' → params_exist fd = true ∧ params_exist fd' = true.
Proof.
  intros S. unfold params_exist. pose proof (sm_vals _ _ _ _ S) as Hv. pose proof (sm_params _ _ _ _ S) as Hp.
  induction Hp as [|q q' ps ps' Hq Hp IH]; [done|]. cbn [forallb]. destruct (Hv _ _ Hq) as (d & d' & Hd & Hd' & _). rewrite Hd, Hd'. exact IH.
Qed.
Lemma func_same go go' Vm Bm fd fd' args W : go_same go go' → sim_fun Vm Bm fd fd' → x_func C go fd args W = x_func C go' fd' args W.
Proof.
  intros Hgo S. unfold x_func. rewrite (sm_ty _ _ _ _ S). destruct (f_ty fd) as [| | | |ps r] eqn:Et; try done. destruct (negb _); [done|].
  pose proof (sm_head _ _ _ _ S) as Hh. destruct (exist_same _ _ _ _ S) as [-> ->].
  destruct (l_bbs (f_layout fd)) as [|[b is] l], (l_bbs (f_layout fd')) as [|[b' is'] l']; cbn in Hh; inversion Hh as [? ? Hi|]; subst.
  - unfold x_extern_call. by rewrite (sm_name _ _ _ _ S), (sm_ty _ _ _ _ S).
  - apply xsame_eq. eapply xsame_bind; [eapply (Hgo Vm Bm); [exact S|exact Hi|]|].
    + split; [|done]. cbn [xf_vals]. apply args_same; [apply (sm_once _ _ _ _ S)|apply (sm_params _ _ _ _ S)|done].
    + intros [[x W1] X1] [[x' W2] X2] [E1 [_ E2]]. cbn in E1, E2. injection E1 as <- <-. cbn [xsame]. by rewrite E2.
Qed.
Lemma goto_same go go' fuel Vm Bm fd fd' b b' args args' W X X' : go_same go go' → sim_fun Vm Bm fd fd' → pairs Bm b b' →
  Forall2 (vlike fd fd' Vm) args args' → same_frame Vm X X' →
  xsame (done_same Vm) (x_goto p vars go fuel fd b args W X) (x_goto p' vars' go' fuel fd' b' args' W X').
Proof.
  intros Hgo S Hb Ha HX. unfold x_goto. destruct (sm_bbs _ _ _ _ S _ _ Hb) as [(d & d' & Hd & Hd' & Hps) Hbody]. rewrite Hd, Hd'.
  cbn [xneed mbind xres_bind]. eapply xsame_bind; [eapply params_same; [exact S|exact Hps|exact Ha|exact HX]|].
  intros [W1 X1] [W2 X2] [E1 E2]. cbn in E1, E2. subst W2.
  inversion Hbody as [is is' Hi E3 E4|E3 E4]; [|done]. cbn [xneed mbind xres_bind]. by eapply Hgo.
Qed.
Lemma inst_same go go' fuel Vm Bm fd fd' v v' d d' W X X' : go_same go go' → sim_fun Vm Bm fd fd' → pairs Vm v v' →
  v_ty d' = v_ty d → renamed (vlike fd fd' Vm) (pairs Bm) F (v_kind d) (v_kind d') → same_frame Vm X X' →
  xsame (step_same Vm) (x_inst C p vars go fuel fd v d W X) (x_inst C p' vars' go' fuel fd' v' d' W X').
Proof.
  intros Hgo S Hv Et Hk HX. unfold x_inst. pose proof (sm_once _ _ _ _ S) as H1.
  destruct Hk; try done.
  - (* alloc *) unfold x_alloc. rewrite Et. destruct (v_ty d); try done. eapply xsame_bind; [by apply (xsame_refl eq)|].
    intros [x n] _ <-. cbn [x_box xsame]. split; [done|]. cbn [snd]. destruct HX as [HX1 HX2]. split; [|by cbn [xf_allocs]; rewrite HX2].
    exact (proj1 (same_insert Vm v v' _ X X' H1 Hv (conj HX1 HX2))).
  - (* load *) unfold x_load. rewrite (eval_same fuel _ _ _ _ _ _ _ W H HX). eapply xsame_bind; [by apply (xsame_refl eq)|]. intros [x W1] _ <-.
    destruct x as [| | |[q|]|[a|]]; try done. eapply xsame_bind; [by apply (xsame_refl eq)|]. intros y _ <-.
    destruct (xclone y (x_next W1)) as [z n]. cbn [xsame]. split; [done|]. by apply same_insert.
  - (* store *) unfold x_store. rewrite (eval_same fuel _ _ _ _ _ _ _ W H HX). eapply xsame_bind; [by apply (xsame_refl eq)|]. intros [x W1] _ <-.
    rewrite (eval_same fuel _ _ _ _ _ _ _ W1 H0 HX). eapply xsame_bind; [by apply (xsame_refl eq)|]. intros [y W2] _ <-.
    destruct y as [| | |[q|]|[a|]]; try done; [|destruct x; done]. eapply xsame_bind; [by apply (xsame_refl eq)|]. intros m _ <-. cbn [xsame]. by split.
  - (* getptr *) unfold x_getptr. rewrite (eval_same fuel _ _ _ _ _ _ _ W H0 HX), Et. eapply xsame_bind; [by apply (xsame_refl eq)|]. intros [x1 W1] _ <-.
    destruct x1; try done. eapply xsame_bind; [by apply (xsame_refl eq)|]. intros sz _ <-.
    rewrite (eval_same fuel _ _ _ _ _ _ _ W1 H HX). eapply xsame_bind; [by apply (xsame_refl eq)|]. intros [s W2] _ <-.
    eapply xsame_bind; [by apply (xsame_refl eq)|]. intros y _ <-. cbn [xsame]. split; [done|]. by apply same_insert.
  - (* getelemptr *) unfold x_getelemptr. rewrite (eval_same fuel _ _ _ _ _ _ _ W H0 HX), Et. eapply xsame_bind; [by apply (xsame_refl eq)|]. intros [x1 W1] _ <-.
    destruct x1; try done. eapply xsame_bind; [by apply (xsame_refl eq)|]. intros sz _ <-.
    rewrite (eval_same fuel _ _ _ _ _ _ _ W1 H HX). eapply xsame_bind; [by apply (xsame_refl eq)|]. intros [s W2] _ <-.
    eapply xsame_bind; [by apply (xsame_refl eq)|]. intros y _ <-. cbn [xsame]. split; [done|]. by apply same_insert.
  - (* binary *) unfold x_binary. rewrite (eval_same fuel _ _ _ _ _ _ _ W H HX). eapply xsame_bind; [by apply (xsame_refl eq)|]. intros [x W1] _ <-.
    rewrite (eval_same fuel _ _ _ _ _ _ _ W1 H0 HX). eapply xsame_bind; [by apply (xsame_refl eq)|]. intros [y W2] _ <-.
    destruct x; try done. destruct y; try done. eapply xsame_bind; [by apply (xsame_refl eq)|]. intros c _ <-. cbn [xsame]. split; [done|]. by apply same_insert.
  - (* call *) unfold x_call. rewrite (evals_same fuel _ _ _ _ _ _ _ W H0 HX). eapply xsame_bind; [by apply (xsame_refl eq)|]. intros [xs W1] _ <-.
    destruct (HF _ _ H) as (gd & gd' & Vm2 & Bm2 & -> & -> & S2). cbn [xneed mbind xres_bind].
    rewrite (func_same _ _ _ _ _ _ xs W1 Hgo S2). eapply xsame_bind; [by apply (xsame_refl eq)|]. intros [x W2] _ <-.
    cbn [xsame]. split; [done|]. by apply same_insert.
Qed.
Lemma insts_same go go' fuel Vm Bm fd fd' is is' : go_same go go' → sim_fun Vm Bm fd fd' → Forall2 (pairs Vm) is is' → ∀ W X X', same_frame Vm X X' →
  xsame (done_same Vm) (x_insts C p vars go fuel fd is W X) (x_insts C p' vars' go' fuel fd' is' W X').
Proof.
  intros Hgo S Hi. induction Hi as [|v v' is is' Hv Hi IH]; intros W X X' HX; [done|]. cbn [x_insts].
  destruct (sm_vals _ _ _ _ S _ _ Hv) as (d & d' & Hd & Hd' & Et & Hk). rewrite Hd, Hd'. cbn [xneed mbind xres_bind].
  pose proof (inst_same go go' fuel Vm Bm fd fd' v v' d d' W X X' Hgo S Hv Et Hk HX) as Hin.
  assert (Hstep : xsame (done_same Vm)
    (x_inst C p vars go fuel fd v d W X ≫= λ '(W1, F1), x_insts C p vars go fuel fd is W1 F1)
    (x_inst C p' vars' go' fuel fd' v' d' W X' ≫= λ '(W1, F1), x_insts C p' vars' go' fuel fd' is' W1 F1)).
  { eapply xsame_bind; [exact Hin|]. intros [W1 X1] [W2 X2] [E1 E2]. cbn in E1, E2. subst W2. by apply IH. }
  destruct Hk; try exact Hstep.
  - rewrite (eval_same fuel _ _ _ _ _ _ _ W H HX). eapply xsame_bind; [by apply (xsame_refl eq)|]. intros [x W1] _ <-.
    destruct (x_bool x); by eapply goto_same.
  - by eapply goto_same.
  - cbn [xsame]. by split.
  - rewrite (eval_same fuel _ _ _ _ _ _ _ W H HX). eapply xsame_bind; [by apply (xsame_refl eq)|]. intros [x W1] _ <-. cbn [xsame]. by split.
Qed.
Lemma bb_same fuel : go_same (x_bb C p vars fuel) (x_bb C p' vars' fuel).
Proof.
  induction fuel as [|k IH]; intros Vm Bm fd fd' is is' W X X' S Hi HX; [done|]. cbn [x_bb]. by eapply insts_same.
Qed.
End sim.
