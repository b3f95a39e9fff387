(** Runs of programs of the front end do not panic (C65). *)
From Coq Require Import Lia ZifyBool ZifyNat ZifyN.
From stdpp Require Import list gmap.
From Verif Require Import Base IdModel TypeModel IrModel LayoutModel ArithModel InterpModel DfgSpec UsesSpec TypingSpec ScopeSpec DominSpec FaithSpec RawSpec
  InterpSimProofs RegularProofs RawMakeProofs DiscoverProofs SoundSpec SoundProofs.

Lemma op_safe checks op a b : match op with Div | Mod_ => False | Add | Sub | Mul | Shl | Shr | Sar => checks = false | _ => True end →
  ∃ c, exec_op checks op a b = Some c.
Proof.
  destruct op; simpl; try done; try (intros _; eexists; reflexivity); intros ->; unfold arith, shift_amount;
    repeat case_match; simpl; try done; eexists; reflexivity.
Qed.

(** ** Worlds *)
Definition wok {E} (S : gmap N ty) (W : xworld E) : Prop :=
  memok S (x_mem W) ∧ ∀ b, is_Some (S !! b) → (b < x_next W)%N.
Lemma wok_upto {E} S (W : xworld E) n : wok S W → (x_next W ≤ n)%N → wok S (x_upto W n).
Proof. intros [H1 H2] Hn. split; [exact H1|]. intros b Hb. apply H2 in Hb. simpl. lia. Qed.
Lemma wok_drop {E} S (W : xworld E) l : wok S W → wok S (x_drop l W).
Proof.
  intros [H1 H2]. split; [|exact H2]. simpl. induction l as [|b l IH]; [exact H1|]. simpl. intros c x. rewrite lookup_delete_Some.
  intros [_ H]. by apply IH.
Qed.
Lemma wok_box {E} S (W : xworld E) t x b W1 : wok S W → hasv S t x → x_box x W = (b, W1) →
  S ⊆ <[b := t]> S ∧ wok (<[b := t]> S) W1.
Proof.
  intros [H1 H2] Hx Eb. unfold x_box in Eb. injection Eb as <- <-.
  assert (HS : S ⊆ <[x_next W := t]> S).
  { apply insert_subseteq. apply eq_None_not_Some. intros H%H2. lia. }
  split; [exact HS|]. split; simpl.
  - intros b y. rewrite lookup_insert_Some. intros [[<- <-]|[Hn Hy]].
    + exists t. rewrite lookup_insert. split; [done|]. by eapply hasv_mono.
    + destruct (H1 _ _ Hy) as (T & HT & Hy'). exists T. rewrite lookup_insert_ne by done. split; [done|]. by eapply hasv_mono.
  - intros b. destruct (decide (b = x_next W)) as [->|Hn]; [lia|]. rewrite lookup_insert_ne by done. intros H%H2. lia.
Qed.

Section run.
Context {E : Type} (C : xconfig E) (p : program) (vars : gmap N xval) (Fp : front p)
  (HL : ∀ f fd, p_funcs p !! f = Some fd → laid fd)
  (HD : ∀ f fd, p_funcs p !! f = Some fd → dominated fd)
  (HR : ∀ f fd, p_funcs p !! f = Some fd → returns_fit p fd)
  (HU : no_undef p) (HO : only_data p) (HN : no_traps (c_checks C) p)
  (Hname : ∀ f fd, p_funcs p !! f = Some fd → f_name fd ≠ EmptyString)
  (Hends : ∀ f fd b is, p_funcs p !! f = Some fd → (b, is) ∈ l_bbs (f_layout fd) →
     ∃ v d, list.last is = Some v ∧ vals fd !! v = Some d ∧ (is_control (v_kind d) = true ∨ ∃ r, v_kind d = KReturn r))
  (Hvk : ∀ v, is_Some (vars !! v) → is_global_id v = true).

Definition vok (S : gmap N ty) : Prop :=
  ∀ v, v ∈ p_inst_layout p → ∃ d x, p_values p !! v = Some d ∧ is_const (v_kind d) = false ∧ vars !! v = Some x ∧ hasv S (v_ty d) x.
Lemma vok_mono S S' : S ⊆ S' → vok S → vok S'.
Proof. intros HS H v Hv. destruct (H v Hv) as (d & x & H1 & H2 & H3 & H4). exists d, x. repeat (split; [done|]). by eapply hasv_mono. Qed.
Definition fok (fd : fdata) (S : gmap N ty) (F : xframe) : Prop :=
  ∀ v d x, vals fd !! v = Some d → xf_vals F !! v = Some x → hasv S (v_ty d) x.
Lemma fok_mono fd S S' F : S ⊆ S' → fok fd S F → fok fd S' F.
Proof. intros HS H v d x Hd Hx. eapply hasv_mono; [exact HS|]. by eapply H. Qed.
Lemma fok_insert fd S F v d x : fok fd S F → vals fd !! v = Some d → hasv S (v_ty d) x → fok fd S (x_insert v x F).
Proof.
  intros HF Hd Hx w e y He. simpl. rewrite lookup_insert_Some. intros [[<- <-]|[_ Hy]]; [|by eapply HF].
  rewrite Hd in He. by injection He as <-.
Qed.
Definition more (F F' : xframe) : Prop := ∀ u, is_Some (xf_vals F !! u) → is_Some (xf_vals F' !! u).
Lemma more_insert v x F : more F (x_insert v x F).
Proof. intros u Hu. simpl. destruct (decide (u = v)) as [->|Hn]; [rewrite lookup_insert; by eexists|by rewrite lookup_insert_ne]. Qed.

Section func.
Context (f : func) (fd : fdata) (Hf : p_funcs p !! f = Some fd).
Lemma local_id v d : vals fd !! v = Some d → is_global_id v = false.
Proof. intros H. eapply (rg_local _ (front_regular _ Fp)); [exact Hf|by eexists]. Qed.
Lemma local_not v d : vals fd !! v = Some d → p_values p !! v = None.
Proof.
  intros H. apply eq_None_not_Some. intros H'%(rg_global _ (front_regular _ Fp)). by rewrite (local_id _ _ H) in H'.
Qed.
Lemma local_ty v d : vals fd !! v = Some d → e_ty (local_env p fd) v = Some (v_ty d).
Proof. intros H. simpl. rewrite lookup_union_r by by eapply local_not. by rewrite H. Qed.
Definition ready (F : xframe) (u : value) : Prop :=
  u ∈ p_inst_layout p ∨ ∃ e, vals fd !! u = Some e ∧ (is_const (v_kind e) = true ∨ is_const (v_kind e) = false ∧ is_Some (xf_vals F !! u)).
Lemma ready_more F F' u : more F F' → ready F u → ready F' u.
Proof. intros HM [H|(e & H1 & [H2|[H2 H3]])]; [by left|right; eauto|]. right. exists e. auto. Qed.
Lemma value_safe S F u t fuel n : vok S → fok fd S F → ready F u → e_ty (local_env p fd) u = Some t →
  safe (λ e, hasv S t e.1 ∧ (n ≤ e.2)%N) (x_value p vars fuel fd (xf_vals F) u n).
Proof.
  intros HV HF Hu Ht. unfold x_value. destruct Hu as [Hu|(e & He & Hu)].
  - destruct (HV u Hu) as (d & x & Hd & Hc & Hx & Hxt). rewrite (rg_global _ (front_regular _ Fp) u) by by eexists.
    rewrite Hd. cbn [xneed mbind xres_bind]. rewrite Hc, Hx. cbn [xneed mbind xres_bind safe].
    simpl in Ht. rewrite (lookup_union_Some_l _ _ _ _ Hd) in Ht. injection Ht as <-. split; [by apply hasv_clone|apply xclone_le].
  - rewrite (local_id _ _ He), He. cbn [xneed mbind xres_bind]. rewrite (local_ty _ _ He) in Ht. injection Ht as <-.
    destruct Hu as [Hc|[Hc [x Hx]]]; rewrite Hc.
    + destruct (fr_consts _ Fp _ _ _ _ Hf He Hc) as [i Hi].
      apply (safe_mono (λ e0, hasv S (v_ty e) e0.1)).
      { intros [y m] Ey Hy. split; [done|]. by eapply x_const_le. }
      eapply (const_safe S (d_values (f_dfg fd)) (local_env p fd)); [..|exact Hi|exact He].
      * intros v d Hv Hk. pose proof (proj2 (fr_typed _ Fp) _ _ _ _ Hf Hv) as H. destruct (v_kind d); try done; exact H.
      * exact local_ty.
      * intros v d Hv. split; [by eapply (proj2 HU)|]. intros Hk. pose proof (proj2 HO _ _ _ _ Hf Hv) as H. simpl in H. by rewrite Hk in H.
    + destruct (vars !! u) as [y|] eqn:Ey.
      { pose proof (Hvk u ltac:(by eexists)) as H. by rewrite (local_id _ _ He) in H. }
      rewrite Hx. cbn [xneed mbind xres_bind safe]. split; [apply hasv_clone; by eapply HF|apply xclone_le].
Qed.
Lemma eval_safe S F u t fuel (W : xworld E) : wok S W → vok S → fok fd S F → ready F u → e_ty (local_env p fd) u = Some t →
  safe (λ e, hasv S t e.1 ∧ wok S e.2) (x_eval p vars fuel fd F u W).
Proof.
  intros HW HV HF Hu Ht. unfold x_eval. eapply safe_bind; [by eapply value_safe|]. intros [x n] _ [H1 H2]. simpl in *. split; [done|]. by apply wok_upto.
Qed.
Lemma evals_safe S F fuel (W : xworld E) us ts : wok S W → vok S → fok fd S F → (∀ u, u ∈ us → ready F u) →
  Forall2 (λ t u, e_ty (local_env p fd) u = Some t) ts us →
  safe (λ e, Forall2 (hasv S) ts e.1 ∧ wok S e.2) (x_evals p vars fuel fd F us W).
Proof.
  intros HW HV HF Hu Ht. unfold x_evals. apply (safe_bind (λ e, Forall2 (hasv S) ts e.1 ∧ (x_next W ≤ e.2)%N)).
  - generalize (x_next W). clear HW. induction Ht as [|t u ts us Ht _ IH]; intros n; cbn [x_each]; [split; [constructor|simpl; lia]|].
    eapply safe_bind; [eapply value_safe; [exact HV|exact HF|apply Hu; by left|exact Ht]|]. intros [y n1] _ [Hy Hn].
    eapply safe_bind; [apply IH; intros; apply Hu; by right|]. intros [ys n2] _ [Hys Hn2]. simpl in *. split; [by constructor|lia].
  - intros [xs n] _ [H1 H2]. simpl in *. split; [done|]. by apply wok_upto.
Qed.
Lemma params_safe S fuel ps : ∀ args (W : xworld E) F, wok S W → vok S → fok fd S F →
  (∀ q, q ∈ ps → is_Some (vals fd !! q)) → (∀ u, u ∈ args → ready F u) →
  Forall2 (λ q a, ∃ t, e_ty (local_env p fd) q = Some t ∧ e_ty (local_env p fd) a = Some t) ps args →
  safe (λ e, wok S e.1 ∧ fok fd S e.2 ∧ more F e.2 ∧ ∀ q, q ∈ ps → is_Some (xf_vals e.2 !! q)) (x_params p vars fuel fd ps args W F).
Proof.
  induction ps as [|q ps IH]; intros args W F HW HV HF Hq Hu Ht.
  - inversion Ht; subst. cbn [x_params safe]. split; [done|]. split; [done|]. split; [by intros u|]. intros q Hq'. by apply elem_of_nil in Hq'.
  - inversion Ht as [|? a ? args' (t & Ht1 & Ht2) Hts]; subst. cbn [x_params]. destruct (Hq q) as [d Hd]; [by left|]. change (d_values (f_dfg fd)) with (vals fd). rewrite Hd.
    cbn [xneed mbind xres_bind]. rewrite (local_ty _ _ Hd) in Ht1. injection Ht1 as <-.
    eapply safe_bind; [eapply eval_safe; [exact HW|exact HV|exact HF|apply Hu; by left|exact Ht2]|]. intros [x W1] _ [Hx HW1].
    simpl in Hx, HW1. eapply safe_mono; [|apply (IH args' W1 (x_insert q x F))].
    + intros [W2 F2] _ (H1 & H2 & H3 & H4). simpl in *. split; [done|]. split; [done|]. pose proof (more_insert q x F) as Hm.
      split; [intros u Hu'; by apply H3, Hm|]. intros r Hr. apply elem_of_cons in Hr as [->|Hr]; [|by apply H4]. apply H3. simpl. rewrite lookup_insert. by eexists.
    + exact HW1.
    + exact HV.
    + by eapply fok_insert.
    + intros r Hr. apply Hq. by right.
    + intros u Hu'. eapply ready_more; [apply more_insert|]. apply Hu. by right.
    + exact Hts.
Qed.
(** What has a value when control is in the block [b], after [before], and came through [l] *)
Record within (F : xframe) (l : list bblock) (b : bblock) (before : list value) : Prop := {
  wi_args : ∀ u, u ∈ f_params fd → is_Some (xf_vals F !! u);
  wi_params : ∀ c d u, c ∈ b :: l → ¬ first_block fd c → blks fd !! c = Some d → u ∈ bb_params d → is_Some (xf_vals F !! u);
  wi_insts : ∀ c is u, c ∈ l → (c, is) ∈ l_bbs (f_layout fd) → u ∈ is → has_result fd u → is_Some (xf_vals F !! u);
  wi_here : ∀ u, u ∈ before → has_result fd u → is_Some (xf_vals F !! u);
}.
Lemma within_more F F' l b before : more F F' → within F l b before → within F' l b before.
Proof. intros HM [H1 H2 H3 H4]. constructor; intros; apply HM; eauto. Qed.
Lemma operand_ready F l b before v after d u : gets_to fd (b :: l) b → (b, before ++ v :: after) ∈ l_bbs (f_layout fd) →
  vals fd !! v = Some d → u ∈ operands (v_kind d) → within F l b before → ready F u.
Proof.
  intros Hl Hb Hv Hu [W1 W2 W3 W4]. pose proof Hb as Hlay. apply elem_of_list_split in Hlay as (frt & rest & Hlay).
  assert (Hdom : ∀ c, defined_at fd u c → c ∈ b :: l).
  { intros c Hc. eapply (HD _ _ Hf); [exact Hb| |exact Hv|exact Hu|exact Hc|exact Hl]. set_solver. }
  assert (Hown : ∀ e, vals fd !! u = Some e → is_Some (xf_vals F !! u) → ready F u).
  { intros e He Hs. right. exists e. split; [done|]. destruct (is_const (v_kind e)) eqn:Ek; auto. }
  destruct (proj1 (fr_scoped _ Fp _ _ Hf) _ _ _ _ _ _ _ _ Hlay Hv Hu) as [[H|(e & He & Hk)]|H].
  - by left.
  - right. eauto.
  - destruct H as [H|c cd _ Hnf Hc H|c is _ Hc H Hr|H Hr].
    + destruct (fr_arg _ Fp _ _ _ Hf H) as (e & i & He & _). eapply Hown; [exact He|auto].
    + destruct (fr_param _ Fp _ _ _ _ _ Hf Hc H) as (e & i & He & _). eapply Hown; [exact He|]. eapply W2; [apply Hdom; left; eauto|done|done|done].
    + assert (Hc' : (c, is) ∈ l_bbs (f_layout fd)) by (rewrite Hlay; apply elem_of_app; by left).
      pose proof Hr as (e & He & _). eapply Hown; [exact He|]. eapply (W3 c); [|exact Hc'|exact H|exact Hr].
      assert (Hin : c ∈ b :: l) by (apply Hdom; right; eauto). apply elem_of_cons in Hin as [-> |Hin]; [exfalso|exact Hin].
      pose proof (rg_bbs_once _ (front_regular _ Fp) _ _ Hf) as Hnd. rewrite Hlay, fmap_app in Hnd. apply NoDup_app in Hnd as (_ & Hnd & _).
      apply (Hnd b); [|by left]. apply elem_of_list_fmap. by exists (b, is).
    + pose proof Hr as (e & He & _). eapply Hown; [exact He|]. by apply W4.
Qed.
End func.

(** ** Functions *)
Definition runs_safe (go : fdata → list value → xworld E → xframe → xres (xval * xworld E * xframe)) : Prop :=
  ∀ S f fd b is l W F, p_funcs p !! f = Some fd → (b, is) ∈ l_bbs (f_layout fd) → gets_to fd (b :: l) b →
    wok S W → vok S → fok fd S F → within fd F l b [] →
    safe (λ e, ∃ S', S ⊆ S' ∧ wok S' e.1.2 ∧ ∀ ts t, f_ty fd = TFun ts t → hasv S' t e.1.1) (go fd is W F).
Lemma args_ok fd S ps : ∀ xs m, Forall2 (λ q x, ∃ d, vals fd !! q = Some d ∧ hasv S (v_ty d) x) ps xs →
  fok fd S (XFrame m []) → fok fd S (XFrame (x_args ps xs m) []) ∧ more (XFrame m []) (XFrame (x_args ps xs m) []) ∧
  ∀ q, q ∈ ps → is_Some (x_args ps xs m !! q).
Proof.
  induction ps as [|q ps IH]; intros xs m H Hm.
  - cbn [x_args]. split; [done|]. split; [by intros u|]. intros q Hq. by apply elem_of_nil in Hq.
  - inversion H as [|? x ? xs' (d & Hd & Hx) Hxs]; subst. cbn [x_args].
    destruct (IH xs' (<[q := x]> m) Hxs) as (H1 & H2 & H3).
    { exact (fok_insert fd S (XFrame m []) q d x Hm Hd Hx). }
    split; [done|]. pose proof (more_insert q x (XFrame m [])) as Hmo.
    split; [intros u Hu; by apply H2, Hmo|]. intros r Hr. apply elem_of_cons in Hr as [->|Hr]; [|by apply H3].
    apply H2. simpl. rewrite lookup_insert. by eexists.
Qed.
Lemma func_safe go S g gd ts t xs (W : xworld E) : runs_safe go → p_funcs p !! g = Some gd → f_ty gd = TFun ts t →
  Forall2 (hasv S) ts xs → wok S W → vok S →
  safe (λ e, ∃ S', S ⊆ S' ∧ wok S' e.2 ∧ hasv S' t e.1) (x_func C go gd xs W).
Proof.
  intros Hgo Hg Hty Hxs HW HV. unfold x_func. rewrite Hty, (Forall2_length _ _ _ Hxs), Nat.eqb_refl. cbn [negb].
  destruct (rg_params _ (front_regular _ Fp) _ _ Hg) as (ts' & r & Hty' & Hps). rewrite Hty in Hty'. injection Hty' as <- <-.
  destruct (l_bbs (f_layout gd)) as [|[b is] bs] eqn:El.
  - unfold x_extern_call. rewrite Hty. pose proof (Hname _ _ Hg) as Hnm. destruct (f_name gd) as [|c name]; [done|].
    destruct (existsb _ _); [done|]. destruct (c_ext C name) as [h|]; [|done]. destruct (28 <? length xs)%nat; [done|]. eapply safe_bind; [apply words_safe|]. intros ws _ _.
    destruct (h ws (x_extern W)) as [e w]. eapply safe_bind; [apply of_word_safe|]. intros x _ Hx. simpl. exists S. split; [done|]. split; [exact HW|exact Hx].
  - rewrite decide_False in Hps by done. destruct Hps as [Hlen Hps].
    assert (Hargs : Forall2 (λ q x, ∃ d, vals gd !! q = Some d ∧ hasv S (v_ty d) x) (f_params gd) xs).
    { apply Forall2_same_length_lookup_2; [rewrite Hlen; by eapply Forall2_length|]. intros j q x Hq Hx.
      destruct (Forall2_lookup_r _ _ _ _ _ Hxs Hx) as (tj & Htj & Hxt). destruct (Hps _ _ _ Hq Htj) as (d & Hd & _ & <-). eauto. }
    assert (Hex : params_exist gd = true).
    { unfold params_exist. apply forallb_forall. intros q Hq%elem_of_list_In. destruct (fr_arg _ Fp _ _ _ Hg Hq) as (d & i & Hd & _).
      change (d_values (f_dfg gd)) with (vals gd). by rewrite Hd. }
    rewrite Hex. destruct (args_ok gd S _ _ ∅ Hargs) as (H1 & _ & H3).
    { intros v d x _ Hx. simpl in Hx. by rewrite lookup_empty in Hx. }
    assert (Hfirst : first_block gd b) by (unfold first_block; by rewrite El).
    eapply safe_bind.
    + apply (Hgo S g gd b is [] W); [exact Hg|rewrite El; by left|by constructor|exact HW|exact HV| |].
      * intros v d x Hd Hx. by eapply H1.
      * constructor; simpl.
        -- exact H3.
        -- intros c d u Hc Hnf. by apply elem_of_list_singleton in Hc as ->.
        -- intros c is' u Hc. by apply elem_of_nil in Hc.
        -- intros u Hu. by apply elem_of_nil in Hu.
    + intros [[x W1] F1] _ (S' & HS & HW1 & Hx). simpl in *. exists S'. split; [done|]. split; [by apply wok_drop|]. by eapply Hx.
Qed.

(** ** Instructions *)
Definition inst_post (fd : fdata) (S : gmap N ty) (F : xframe) (v : value) (e : xworld E * xframe) : Prop :=
  ∃ S', S ⊆ S' ∧ wok S' e.1 ∧ fok fd S' e.2 ∧ more F e.2 ∧ (has_result fd v → is_Some (xf_vals e.2 !! v)).
Lemma post_insert fd S S' F v d x (W : xworld E) : S ⊆ S' → wok S' W → fok fd S F → vals fd !! v = Some d → hasv S' (v_ty d) x →
  inst_post fd S F v (W, x_insert v x F).
Proof.
  intros HS HW HF Hd Hx. exists S'. split; [done|]. split; [done|]. split; [eapply fok_insert; [by eapply fok_mono|done|done]|].
  split; [apply more_insert|]. intros _. simpl. rewrite lookup_insert. by eexists.
Qed.
Lemma inst_safe go S f fd v d fuel (W : xworld E) F : runs_safe go → p_funcs p !! f = Some fd → vals fd !! v = Some d →
  is_local_inst (v_kind d) = true → is_control (v_kind d) = false → (∀ r, v_kind d ≠ KReturn r) →
  (∀ u, u ∈ operands (v_kind d) → ready fd F u) → wok S W → vok S → fok fd S F →
  safe (inst_post fd S F v) (x_inst C p vars go fuel fd v d W F).
Proof.
  intros Hgo Hf Hd Hli Hnc Hnr Hu HW HV HF. pose proof (proj2 (fr_typed _ Fp) _ _ _ _ Hf Hd) as HT.
  pose proof (proj2 HO _ _ _ _ Hf Hd) as Hdata. pose proof (proj2 HN _ _ _ _ Hf Hd) as Htrap. cbn beta in Hdata, Htrap.
  unfold x_inst. destruct (v_kind d) as [z| | |es|i|i| | |src|x dest|src i|src i|op l r|c t e ta ea|t a|g args|r] eqn:Ek; try done; cbn [TypingSpec.is_param] in HT.
  - (* alloc *)
    inversion HT as [| | | | |t Ht E1 E2| | | | | | | | | |]. unfold x_alloc. rewrite <- E2 in Hdata |- *. 
    eapply safe_bind; [by apply (zero_safe S)|]. intros [x n] Ez Hx. apply x_zeroinit_le in Ez. simpl in Hx.
    destruct (x_box x (x_upto W n)) as [b W1] eqn:Eb. destruct (wok_box S _ t x b W1 (wok_upto _ _ _ HW Ez) Hx Eb) as [HS HW1].
    cbn [safe]. destruct (post_insert fd S (<[b := t]> S) F v d (XPtr (Some (Ptr b [])) 0 0) W1 HS HW1 HF Hd) as (S' & H1 & H2 & H3 & H4 & H5).
    { rewrite <- E2. right. right. eexists _, _, _. split; [reflexivity|]. exists t. simpl. by rewrite lookup_insert. }
    exists S'. split; [exact H1|]. split; [exact H2|]. split; [exact H3|]. split; [exact H4|exact H5].
  - (* load *)
    inversion HT as [| | | | | |src' t Ht E1 E2| | | | | | | | |]; subst. unfold x_load.
    eapply safe_bind; [eapply (eval_safe f fd Hf S); [done|done|done|apply Hu; by left|exact Ht]|]. intros [s W1] _ [Hs HW1]. simpl in Hs, HW1.
    destruct Hs as [(i & n & ->)|[(a & ->)|(q & i & n & -> & Hq)]]; [done|by destruct a|].
    eapply safe_bind; [eapply read_safe; [apply HW1|exact Hq]|]. intros x _ Hx. pose proof (hasv_clone S _ x (x_next W1) Hx) as Hy.
    pose proof (xclone_le x (x_next W1)) as Hn. destruct (xclone x (x_next W1)) as [y n']. cbn [safe]. eapply (post_insert fd S S); [done|by apply wok_upto|done|done|done].
  - (* store *)
    inversion HT as [| | | | | | |x' dest' t Ht1 Ht2 E1 E2| | | | | | | |]; subst. unfold x_store.
    eapply safe_bind; [eapply (eval_safe f fd Hf S); [done|done|done|apply Hu; by left|exact Ht1]|]. intros [y W1] _ [Hy HW1]. simpl in Hy, HW1.
    eapply safe_bind; [eapply (eval_safe f fd Hf S); [done|done|done|apply Hu; right; by left|exact Ht2]|]. intros [s W2] _ [Hs HW2]. simpl in Hs, HW2.
    destruct Hs as [(i & n & ->)|[(a & ->)|(q & i & n & -> & Hq)]]; [done|by destruct a as [a|]; [destruct y|]|].
    eapply safe_bind; [eapply write_safe; [apply HW2|exact Hq|exact Hy]|]. intros m _ Hm. cbn [safe]. exists S. split; [done|].
    split; [split; [exact Hm|apply HW2]|]. split; [done|]. split; [by intros u|]. intros (d' & Hd' & Hne). rewrite Hd in Hd'. injection Hd' as <-. congruence.
  - (* getptr *)
    inversion HT as [| | | | | | | |src' i' t Ht1 Ht2 E1 E2| | | | | | |]; subst. unfold x_getptr.
    eapply safe_bind; [eapply (eval_safe f fd Hf S); [done|done|done|apply Hu; right; by left|exact Ht2]|]. intros [y W1] _ [Hy HW1]. simpl in Hy, HW1. destruct Hy as [off ->].
    unfold x_base_size. rewrite <- E2. cbn [mbind xres_bind].
    eapply safe_bind; [eapply (eval_safe f fd Hf S); [done|done|done|apply Hu; by left|exact Ht1]|]. intros [s W2] _ [Hs HW2]. simpl in HW2. cbn [fst] in Hs.
    eapply safe_bind; [apply pointer_safe; exact Hs|]. intros x _ Hx. cbn [safe]. eapply (post_insert fd S S); [done|done|done|done|by rewrite <- E2].
  - (* getelemptr *)
    inversion HT as [| | | | | | | | |src' i' t n Ht1 Ht2 E1 E2| | | | | |]; subst. unfold x_getelemptr.
    eapply safe_bind; [eapply (eval_safe f fd Hf S); [done|done|done|apply Hu; right; by left|exact Ht2]|]. intros [y W1] _ [Hy HW1]. simpl in Hy, HW1. destruct Hy as [off ->].
    unfold x_base_size. rewrite <- E2. cbn [mbind xres_bind].
    eapply safe_bind; [eapply (eval_safe f fd Hf S); [done|done|done|apply Hu; by left|exact Ht1]|]. intros [s W2] _ [Hs HW2]. simpl in HW2. cbn [fst] in Hs.
    eapply safe_bind; [eapply elem_safe; [apply HW2|exact Hs]|]. intros x _ Hx. cbn [safe]. eapply (post_insert fd S S); [done|done|done|done|by rewrite <- E2].
  - (* binary *)
    inversion HT as [| | | | | | | | | |op' l' r' Ht1 Ht2 E1 E2| | | | |]; subst. unfold x_binary.
    eapply safe_bind; [eapply (eval_safe f fd Hf S); [done|done|done|apply Hu; by left|exact Ht1]|]. intros [x W1] _ [Hy HW1]. simpl in Hy, HW1. destruct Hy as [a ->].
    eapply safe_bind; [eapply (eval_safe f fd Hf S); [done|done|done|apply Hu; right; by left|exact Ht2]|]. intros [y W2] _ [Hz HW2]. simpl in Hz, HW2. destruct Hz as [b ->].
    destruct (op_safe (c_checks C) op a b (Htrap _ _ _ eq_refl)) as [c ->]. cbn [xneed mbind xres_bind safe].
    eapply (post_insert fd S S); [done|done|done|done|rewrite <- E2; by eexists].
  - (* call *)
    inversion HT as [| | | | | | | | | | | | |g' args' ps ret Hg Hts E1 E2| |]; subst. unfold x_call.
    eapply safe_bind; [eapply (evals_safe f fd Hf S); [done|done|done|exact Hu|exact Hts]|]. intros [xs W1] _ [Hxs HW1]. simpl in Hxs, HW1.
    simpl in Hg. destruct (p_funcs p !! g) as [gd|] eqn:Eg; [|done]. cbn [xneed mbind xres_bind]. simpl in Hg. injection Hg as Hg.
    eapply safe_bind; [eapply func_safe; [exact Hgo|exact Eg|exact Hg|exact Hxs|exact HW1|exact HV]|]. intros [x W2] _ (S' & HS & HW2 & Hx). simpl in HW2, Hx.
    cbn [safe]. by eapply (post_insert fd S S').
  - by destruct (Hnr r).
Qed.

(** ** Blocks *)
Definition run_post (fd : fdata) (S : gmap N ty) (e : xval * xworld E * xframe) : Prop :=
  ∃ S', S ⊆ S' ∧ wok S' e.1.2 ∧ ∀ ts t, f_ty fd = TFun ts t → hasv S' t e.1.1.
Lemma goto_safe go S f fd b before v l d c args fuel (W : xworld E) F : runs_safe go → p_funcs p !! f = Some fd →
  gets_to fd (b :: l) b → (b, before ++ [v]) ∈ l_bbs (f_layout fd) → vals fd !! v = Some d → c ∈ targets (v_kind d) →
  args_match (local_env p fd) c args → (∀ u, u ∈ args → ready fd F u) → wok S W → vok S → fok fd S F → within fd F l b before →
  safe (run_post fd S) (x_goto p vars go fuel fd c args W F).
Proof.
  intros Hgo Hf Hl Hb Hd Hc (ps & Hps & Hargs) Hu HW HV HF HI. unfold x_goto.
  assert (Hfl : flows_to fd b c) by (exists (before ++ [v]), v, d; split; [done|]; split; [by rewrite last_snoc|done]).
  assert (Hl' : gets_to fd (c :: b :: l) c) by (econstructor; eassumption).
  destruct (gets_to_listed p Fp f fd Hf _ _ Hl') as (cd & is & Hcd & His).
  simpl in Hps. rewrite Hcd in Hps. injection Hps as <-. rewrite Hcd. cbn [xneed mbind xres_bind].
  eapply safe_bind; [eapply (params_safe f fd Hf S); [exact HW|exact HV|exact HF| |exact Hu|exact Hargs]|].
  { intros q Hq. destruct (fr_param _ Fp _ _ _ _ _ Hf Hcd Hq) as (e & i & He & _). by eexists. }
  intros [W1 F1] _ (HW1 & HF1 & HM & Hq). simpl in HW1, HF1, HM, Hq.
  destruct (find_bb_go c (l_bbs (f_layout fd))) as [is' His']; [apply elem_of_list_fmap; by exists (c, is)|].
  rewrite His'. cbn [xneed mbind xres_bind]. apply RawBuildProofs.find_bb_in in His'.
  apply (Hgo S f fd c is' (b :: l) W1 F1 Hf His' Hl' HW1 HV HF1). destruct (within_more fd F F1 l b before HM HI) as [I1 I2 I3 I4]. constructor.
  - exact I1.
  - intros c' d' u Hc' Hnf Hd' Hu'. apply elem_of_cons in Hc' as [->|Hc']; [|by eapply I2]. rewrite Hcd in Hd'. injection Hd' as <-. by apply Hq.
  - intros c' is0 u Hc' His0 Hu' Hr. apply elem_of_cons in Hc' as [->|Hc']; [|by eapply I3].
    rewrite (one_list p Fp f fd Hf _ _ _ His0 Hb) in Hu'. apply elem_of_app in Hu' as [Hu'|Hu']; [by apply I4|].
    apply elem_of_list_singleton in Hu' as ->. exfalso. eapply (ld_end _ (HL _ _ Hf)); [exact Hb|by rewrite last_snoc|exact Hr].
  - intros u Hu'. by apply elem_of_nil in Hu'.
Qed.
Lemma insts_safe go f fd b l fuel : runs_safe go → p_funcs p !! f = Some fd → gets_to fd (b :: l) b →
  ∀ rest before S (W : xworld E) F, (b, before ++ rest) ∈ l_bbs (f_layout fd) →
  (∀ v d, v ∈ before → vals fd !! v = Some d → is_control (v_kind d) = false ∧ ∀ r, v_kind d ≠ KReturn r) →
  wok S W → vok S → fok fd S F → within fd F l b before →
  safe (run_post fd S) (x_insts C p vars go fuel fd rest W F).
Proof.
  intros Hgo Hf Hl. induction rest as [|v rest IH]; intros before S W F Hb Hbe HW HV HF HI.
  { exfalso. rewrite app_nil_r in Hb. destruct (Hends _ _ _ _ Hf Hb) as (v & d & Hv & Hd & Hk).
    destruct (Hbe v d) as [H1 H2]; [apply list.last_Some in Hv as [l' ->]; apply elem_of_app; right; by left|done|].
    destruct Hk as [Hk|[r Hk]]; [by rewrite H1 in Hk|by destruct (H2 r)]. }
  cbn [x_insts]. destruct (fr_is_inst _ Fp _ _ _ _ v Hf Hb) as (d & Hd & Hli); [apply elem_of_app; right; by left|].
  rewrite Hd. cbn [xneed mbind xres_bind]. pose proof (proj2 (fr_typed _ Fp) _ _ _ _ Hf Hd) as HT.
  assert (Hu : ∀ u, u ∈ operands (v_kind d) → ready fd F u) by (intros u Hu; by eapply (operand_ready f fd Hf F l b before v rest)).
  assert (Hlast : ∀ c, c ∈ targets (v_kind d) → rest = []).
  { intros c Hc. eapply last_end; [exact (fr_insts_once p Fp f fd Hf _ _ Hb)|]. eapply (ld_last _ (HL _ _ Hf)); [exact Hb|apply elem_of_app; right; by left|exact Hd|exact Hc]. }
  assert (Hstep : is_control (v_kind d) = false → (∀ r, v_kind d ≠ KReturn r) →
    safe (run_post fd S) ('(W1, F1) ← x_inst C p vars go fuel fd v d W F; x_insts C p vars go fuel fd rest W1 F1)).
  { intros Hnc Hnr. eapply safe_bind; [by eapply inst_safe|]. intros [W1 F1] _ (S' & HS & HW1 & HF1 & HM & Hr). simpl in HW1, HF1, HM, Hr.
    apply (safe_mono (run_post fd S')).
    { intros e _ (S2 & HS2 & H1 & H2). exists S2. split; [by etrans|done]. }
    apply (IH (before ++ [v])); [by rewrite <- app_assoc| |done|by eapply vok_mono|done|].
    - intros w dw Hw Hdw. apply elem_of_app in Hw as [Hw|Hw]; [by eapply Hbe|]. apply elem_of_list_singleton in Hw as ->.
      rewrite Hd in Hdw. by injection Hdw as <-.
    - destruct (within_more fd F F1 l b before HM HI) as [I1 I2 I3 I4]. constructor; [exact I1|exact I2|exact I3|].
      intros u Hu'. apply elem_of_app in Hu' as [Hu'|Hu']; [by apply I4|]. apply elem_of_list_singleton in Hu' as ->. exact Hr. }
  destruct (v_kind d) as [z| | |es|i|i| | |src|x dest|src i|src i|op a r|c t e ta ea|t a|g args|r] eqn:Ek; try (apply Hstep; done); clear Hstep; cbn [TypingSpec.is_param] in HT.
  - inversion HT as [| | | | | | | | | | |c' t' e' ta' ea' Hc Hta Hea _ E1 E2| | | |]; subst.
    assert (rest = []) as -> by (apply (Hlast t); by left).
    eapply safe_bind; [eapply (eval_safe f fd Hf S); [done|done|done|apply Hu; by left|exact Hc]|]. intros [x W1] _ [_ HW1]. simpl in HW1.
    destruct (x_bool x); (eapply (goto_safe go S f fd b before v l d); [exact Hgo|exact Hf|exact Hl|exact Hb|exact Hd|rewrite Ek; simpl; set_solver|eassumption| |exact HW1|exact HV|exact HF|exact HI]);
      intros u Hu'; apply Hu; simpl; set_solver.
  - inversion HT as [| | | | | | | | | | | |t' a' Hta E1 E2| | |]; subst. assert (rest = []) as -> by (apply (Hlast t); by left).
    eapply (goto_safe go S f fd b before v l d); [exact Hgo|exact Hf|exact Hl|exact Hb|exact Hd|rewrite Ek; by left|exact Hta|exact Hu|exact HW|exact HV|exact HF|exact HI].
  - destruct (HR _ _ Hf) as (ts & t & Hty & Hfit). specialize (Hfit b _ v d Hb). rewrite Ek in Hfit.
    assert (Hin : v ∈ before ++ v :: rest) by (apply elem_of_app; right; by left). specialize (Hfit Hin Hd).
    destruct r as [u|].
    + destruct Hfit as [_ Ht]. eapply safe_bind; [eapply (eval_safe f fd Hf S); [done|done|done|apply Hu; by left|exact Ht]|]. intros [x W1] _ [Hx HW1].
      simpl in Hx, HW1. exists S. split; [done|]. split; [done|]. intros ts' t' Hty'. rewrite Hty in Hty'. by injection Hty' as <- <-.
    + subst t. exists S. split; [done|]. split; [done|]. intros ts' t' Hty'. rewrite Hty in Hty'. by injection Hty' as <- <-.
Qed.
Lemma bb_safe fuel : runs_safe (x_bb C p vars fuel).
Proof.
  induction fuel as [|k IH]; intros S f fd b is l W F Hf Hb Hl HW HV HF HI; [done|]. cbn [x_bb].
  apply (insts_safe (x_bb C p vars k) f fd b l k IH Hf Hl is [] S W F Hb); [|done..]. intros v d Hv. by apply elem_of_nil in Hv.
Qed.
End run.

(** ** Programs *)
Lemma globals_safe {E} p fuel : front p → no_undef p → only_data p →
  (∀ v, v ∈ p_inst_layout p → ∃ d init i, p_values p !! v = Some d ∧ v_kind d = KGlobalAlloc init ∧ const_is (datas (p_values p)) init i) →
  ∀ l done S vs (W : xworld E), (∀ v, v ∈ l → v ∈ p_inst_layout p) → wok S W → (∀ v, is_Some (vs !! v) → is_global_id v = true) →
  (∀ v, v ∈ done → ∃ d x, p_values p !! v = Some d ∧ is_const (v_kind d) = false ∧ vs !! v = Some x ∧ hasv S (v_ty d) x) →
  safe (λ e, ∃ S', wok S' e.2 ∧ (∀ v, is_Some (e.1 !! v) → is_global_id v = true) ∧
    ∀ v, v ∈ done ++ l → ∃ d x, p_values p !! v = Some d ∧ is_const (v_kind d) = false ∧ e.1 !! v = Some x ∧ hasv S' (v_ty d) x)
    (x_globals fuel p l vs W).
Proof.
  intros Fp HU HO HG. induction l as [|v l IH]; intros don S vs W Hl HW Hvs Hdone.
  { cbn [x_globals safe]. rewrite app_nil_r. by exists S. }
  cbn [x_globals]. destruct (HG v) as (d & init & i & Hd & Hk & Hc); [apply Hl; by left|]. rewrite Hd. cbn [xneed mbind xres_bind]. rewrite Hk.
  destruct (const_kind_is _ _ _ Hc) as (e & He & _). pose proof (proj1 (fr_typed _ Fp) _ _ Hd) as HT. rewrite Hk in HT.
  inversion HT as [| | | |init' t Ht Htu E1 E2| | | | | | | | | | |]; subst. simpl in Ht. rewrite He in Ht. injection Ht as Ht.
  eapply safe_bind.
  { eapply (const_safe S (p_values p) (global_env p)); [..|exact Hc|exact He].
    - intros w dw Hw _. exact (proj1 (fr_typed _ Fp) _ _ Hw).
    - intros w dw Hw. simpl. by rewrite Hw.
    - intros w dw Hw. split; [by eapply (proj1 HU)|]. intros Hz. pose proof (proj1 HO _ _ Hw) as H. simpl in H. by rewrite Hz in H. }
  intros [x n] Ex Hx. apply x_const_le in Ex. simpl in Hx. destruct (x_box x (x_upto W n)) as [b W1] eqn:Eb. rewrite Ht in Hx.
  destruct (wok_box S _ t x b W1 (wok_upto _ _ _ HW Ex) Hx Eb) as [HS HW1].
  eapply safe_mono; [|apply (IH (don ++ [v]) (<[b := t]> S)); [intros w Hw; apply Hl; by right|exact HW1|..]].
  - intros [vs' W'] _. by rewrite <- app_assoc.
  - intros w. destruct (decide (w = v)) as [->|Hn].
    + intros _. apply (fr_gid _ Fp). by eexists.
    + rewrite lookup_insert_ne by done. apply Hvs.
  - intros w Hw. destruct (decide (w = v)) as [->|Hn].
    + exists d, (XPtr (Some (Ptr b [])) 0 0). split; [done|]. split; [by rewrite Hk|]. split; [by rewrite lookup_insert|]. rewrite <- E2.
      right. right. eexists _, _, _. split; [reflexivity|]. exists t. simpl. by rewrite lookup_insert.
    + apply elem_of_app in Hw as [Hw|Hw]; [|by apply elem_of_list_singleton in Hw].
      destruct (Hdone w Hw) as (dw & y & H1 & H2 & H3 & H4). exists dw, y. split; [done|]. split; [done|]. rewrite lookup_insert_ne by done. split; [done|]. by eapply hasv_mono.
Qed.
