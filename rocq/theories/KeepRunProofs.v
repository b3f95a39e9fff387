(** Runs of programs that keep their pointers use memory that is there (C66). *)
From Coq Require Import Lia ZifyBool ZifyNat ZifyN.
From stdpp Require Import list gmap.
From Verif Require Import Base IdModel TypeModel IrModel LayoutModel ArithModel InterpModel DfgSpec UsesSpec TypingSpec ScopeSpec FaithSpec RawSpec
  InterpSimProofs RegularProofs RawMakeProofs SoundSpec SoundProofs SoundRunProofs KeepSpec KeepProofs.

Section run.
Context {E : Type} (C : xconfig E) (p : program) (vars : gmap N xval) (Fp : front p)
  (HR : ∀ f fd, p_funcs p !! f = Some fd → returns_fit p fd)
  (HU : no_undef p) (HT : keeping p)
  (Hvk : ∀ v, is_Some (vars !! v) → is_global_id v = true).

(** ** Worlds *)
Definition has (S : gmap N ty) (W : xworld E) (t : ty) (x : xval) : Prop := hasv S t x ∧ live (x_mem W) x.
Record wgood (S : gmap N ty) (W : xworld E) : Prop := {
  wg_w : wok S W;
  wg_mem : ∀ b x, x_mem W !! b = Some x → live (x_mem W) x;
  wg_vars : ∀ v d x, p_values p !! v = Some d → vars !! v = Some x → has S W (v_ty d) x;
}.
(** What changes in a function that was entered when the next number was [n] *)
Record steps (n : N) (S : gmap N ty) (W : xworld E) (S' : gmap N ty) (W' : xworld E) : Prop := {
  st_ty : S ⊆ S';
  st_keeps : keeps (x_mem W) (x_mem W');
  st_below : ∀ k, (k ≤ n)%N → below k (x_mem W) → below k (x_mem W');
  st_dom : ∀ b, (b < n)%N → is_Some (x_mem W' !! b) → is_Some (x_mem W !! b);
  st_next : (x_next W ≤ x_next W')%N;
}.
Lemma steps_refl n S W : steps n S W S W.
Proof. constructor; [done|apply keeps_refl|done|done|done]. Qed.
Lemma steps_trans n S1 W1 S2 W2 S3 W3 : steps n S1 W1 S2 W2 → steps n S2 W2 S3 W3 → steps n S1 W1 S3 W3.
Proof. intros [] []. constructor; [by etrans|by eapply keeps_trans|auto|auto|lia]. Qed.
Lemma has_steps n S W S' W' t x : steps n S W S' W' → has S W t x → has S' W' t x.
Proof. intros [] [H1 H2]. split; [by eapply hasv_mono|by eapply live_keeps]. Qed.
Lemma wgood_steps n S W S' W' : steps n S W S' W' → wok S' W' → (∀ b x, x_mem W' !! b = Some x → live (x_mem W') x) →
  wgood S W → wgood S' W'.
Proof. intros Hs H1 H2 []. constructor; [done|done|]. intros v d x Hd Hx. eapply has_steps; [exact Hs|]. by eapply wg_vars0. Qed.
(** Values made *)
Lemma upto_steps n S W k : (x_next W ≤ k)%N → steps n S W S (x_upto W k).
Proof. intros H. constructor; [done|apply keeps_refl|done|done|done]. Qed.
Lemma upto_good S W k : (x_next W ≤ k)%N → wgood S W → wgood S (x_upto W k).
Proof. intros H Hw. eapply (wgood_steps 0); [by apply upto_steps|by apply wok_upto; [apply Hw|]|apply Hw|done]. Qed.
Lemma next_free S W : wgood S W → x_mem W !! x_next W = None.
Proof.
  intros Hw. apply eq_None_not_Some. intros [x Hx]. destruct (proj1 (wg_w _ _ Hw) _ _ Hx) as (T & H1 & _).
  pose proof (proj2 (wg_w _ _ Hw) _ ltac:(by eexists)). lia.
Qed.
Lemma next_above S W b : wgood S W → is_Some (x_mem W !! b) → (b < x_next W)%N.
Proof.
  intros Hw [x Hx]. destruct (proj1 (wg_w _ _ Hw) _ _ Hx) as (T & H1 & _). apply (proj2 (wg_w _ _ Hw)). by eexists.
Qed.
(** A new box *)
Lemma box_good n S W t x : wgood S W → (n ≤ x_next W)%N → hasv S t x → (∀ P, alive P x) →
  let W' := (x_box x W).2 in let S' := <[x_next W := t]> S in
  steps n S W S' W' ∧ wgood S' W' ∧ has S' W' (TPtr t) (XPtr (Some (Ptr (x_next W) [])) 0 0).
Proof.
  clear Fp HR HU HT Hvk. intros Hw Hn Hx Ha W' S'. pose proof (next_free _ _ Hw) as Hf.
  destruct (wok_box S W t x (x_next W) W' (wg_w _ _ Hw) Hx eq_refl) as [HS HW].
  assert (Hs : steps n S W S' W').
  { constructor; [done|by apply new_keeps| | |simpl; lia].
    - intros k Hk Hb b y Hlt. simpl. rewrite lookup_insert_ne by lia. by apply Hb.
    - intros b Hlt. simpl. by rewrite lookup_insert_ne by lia. }
  split; [done|]. split.
  - eapply wgood_steps; [exact Hs|done| |done]. intros b y. simpl. rewrite lookup_insert_Some. intros [[<- <-]|[_ Hy]]; [apply Ha|].
    eapply live_keeps; [exact (st_keeps _ _ _ _ _ Hs)|]. by eapply wg_mem.
  - split.
    + right. right. eexists _, _, _. split; [reflexivity|]. exists t. split; [apply lookup_insert|done].
    + split; [|by left]. exists x. unfold at_mem. simpl. by rewrite lookup_insert.
Qed.

(** ** Frames *)
Record good (n : N) (fd : fdata) (S : gmap N ty) (W : xworld E) (F : xframe) : Prop := {
  gd_w : wgood S W;
  gd_vals : ∀ v d x, vals fd !! v = Some d → xf_vals F !! v = Some x → has S W (v_ty d) x;
  gd_old : ∀ b, b ∈ xf_allocs F → (n ≤ b)%N;
  gd_new : ∀ b, is_Some (x_mem W !! b) → (n ≤ b)%N → b ∈ xf_allocs F;
  gd_own : ∀ v d x, vals fd !! v = Some d → v_kind d = KAlloc → xf_vals F !! v = Some x →
    ∃ b, x = XPtr (Some (Ptr b [])) 0 0 ∧ (n ≤ b)%N;
  gd_next : (n ≤ x_next W)%N;
}.
Lemma good_steps n fd S W S' W' F : steps n S W S' W' → wgood S' W' → (∀ b, is_Some (x_mem W' !! b) → is_Some (x_mem W !! b)) →
  good n fd S W F → good n fd S' W' F.
Proof.
  intros Hs Hw Hd []. constructor; [done| |done| |done|].
  - intros v d x H1 H2. eapply has_steps; [exact Hs|]. by eapply gd_vals0.
  - intros b Hb Hn. apply gd_new0; auto.
  - pose proof (st_next _ _ _ _ _ Hs). lia.
Qed.
Lemma good_upto n fd S W k F : (x_next W ≤ k)%N → good n fd S W F → good n fd S (x_upto W k) F.
Proof. intros Hk Hg. eapply good_steps; [by apply upto_steps|apply upto_good; [done|apply Hg]|done|done]. Qed.
Lemma good_insert n fd S W F v d x : good n fd S W F → vals fd !! v = Some d → v_kind d ≠ KAlloc → has S W (v_ty d) x →
  good n fd S W (x_insert v x F).
Proof.
  intros [] Hd Hk Hx. constructor; try done.
  - intros w e y He. simpl. rewrite lookup_insert_Some. intros [[<- <-]|[_ Hy]]; [|by eapply gd_vals0]. rewrite Hd in He. by injection He as <-.
  - intros w e y He Hek. simpl. rewrite lookup_insert_Some. intros [[<- <-]|[_ Hy]]; [|by eapply gd_own0]. rewrite Hd in He. injection He as <-. done.
Qed.

Section func.
Context (f : func) (fd : fdata) (Hf : p_funcs p !! f = Some fd).
Lemma value_sane S W n0 F u t fuel n : good n0 fd S W F → e_ty (local_env p fd) u = Some t →
  sane (λ e, has S W t e.1 ∧ (n ≤ e.2)%N) (x_value p vars fuel fd (xf_vals F) u n).
Proof.
  intros Hg Ht. unfold x_value. destruct (is_global_id u) eqn:Eg.
  - destruct (p_values p !! u) as [d|] eqn:Ed; [|done]. cbn [xneed mbind xres_bind]. destruct (is_const (v_kind d)); [done|].
    destruct (vars !! u) as [x|] eqn:Ex; [|done]. cbn [xneed mbind xres_bind sane].
    simpl in Ht. rewrite (lookup_union_Some_l _ _ _ _ Ed) in Ht. injection Ht as <-.
    destruct (wg_vars _ _ (gd_w _ _ _ _ _ Hg) _ _ _ Ed Ex) as [H1 H2]. split; [|apply xclone_le]. split; [by apply hasv_clone|by apply alive_clone].
  - change (d_values (f_dfg fd)) with (vals fd). destruct (vals fd !! u) as [d|] eqn:Ed; [|done]. cbn [xneed mbind xres_bind].
    rewrite (local_ty p Fp f fd Hf _ _ Ed) in Ht. injection Ht as <-. destruct (is_const (v_kind d)) eqn:Ec.
    + apply (sane_mono (λ e, hasv S (v_ty d) e.1 ∧ ∀ P, alive P e.1)).
      { intros [y m] Ey [Hy1 Hy2]. split; [split; [done|apply Hy2]|]. by eapply x_const_le. }
      eapply (const_sane S (d_values (f_dfg fd)) (local_env p fd)); [..|exact Ed].
      * intros v e Hv Hk. pose proof (proj2 (fr_typed _ Fp) _ _ _ _ Hf Hv) as H. destruct (v_kind e); try done; exact H.
      * exact (local_ty p Fp f fd Hf).
      * intros v e Hv. by eapply (proj2 HU).
    + destruct (vars !! u) as [y|] eqn:Ey.
      { pose proof (Hvk u ltac:(by eexists)) as H. by rewrite Eg in H. }
      destruct (xf_vals F !! u) as [x|] eqn:Ex; [|done]. cbn [xneed mbind xres_bind sane].
      destruct (gd_vals _ _ _ _ _ Hg _ _ _ Ed Ex) as [H1 H2]. split; [|apply xclone_le]. split; [by apply hasv_clone|by apply alive_clone].
Qed.
Lemma eval_sane S W n0 F u t fuel : good n0 fd S W F → e_ty (local_env p fd) u = Some t →
  sane (λ e, has S e.2 t e.1 ∧ good n0 fd S e.2 F ∧ steps n0 S W S e.2 ∧ x_mem e.2 = x_mem W) (x_eval p vars fuel fd F u W).
Proof.
  intros Hg Ht. unfold x_eval. eapply sane_bind; [by eapply value_sane|]. intros [x n] _ [H1 H2]. simpl in *. split; [exact H1|].
  split; [by apply good_upto|]. split; [by apply upto_steps|done].
Qed.
Lemma evals_sane S W n0 F us ts fuel : good n0 fd S W F → Forall2 (λ t u, e_ty (local_env p fd) u = Some t) ts us →
  sane (λ e, Forall2 (has S e.2) ts e.1 ∧ good n0 fd S e.2 F ∧ steps n0 S W S e.2) (x_evals p vars fuel fd F us W).
Proof.
  intros Hg Ht. unfold x_evals. apply (sane_bind (λ e, Forall2 (has S W) ts e.1 ∧ (x_next W ≤ e.2)%N)).
  - generalize (x_next W) at 1 2. induction Ht as [|t u ts us Ht _ IH]; intros n; cbn [x_each]; [split; [constructor|simpl; lia]|].
    eapply sane_bind; [eapply value_sane; [exact Hg|exact Ht]|]. intros [y n1] _ [Hy Hn].
    eapply sane_bind; [apply IH|]. intros [ys n2] _ [Hys Hn2]. simpl in *. split; [by constructor|lia].
  - intros [xs n] _ [H1 H2]. simpl in *. split; [exact H1|]. split; [by apply good_upto|by apply upto_steps].
Qed.
Lemma params_sane fuel ps : ∀ args S W n0 F, good n0 fd S W F →
  (∀ q, q ∈ ps → ∃ d, vals fd !! q = Some d ∧ v_kind d ≠ KAlloc) →
  Forall2 (λ q a, ∃ t, e_ty (local_env p fd) q = Some t ∧ e_ty (local_env p fd) a = Some t) ps args →
  sane (λ e, good n0 fd S e.1 e.2 ∧ steps n0 S W S e.1) (x_params p vars fuel fd ps args W F).
Proof.
  induction ps as [|q ps IH]; intros args S W n0 F Hg Hq Ht.
  - inversion Ht; subst. cbn [x_params sane]. split; [done|apply steps_refl].
  - inversion Ht as [|? a ? args' (t & Ht1 & Ht2) Hts]; subst. cbn [x_params]. destruct (Hq q) as (d & Hd & Hk); [by left|].
    change (d_values (f_dfg fd)) with (vals fd). rewrite Hd. cbn [xneed mbind xres_bind]. rewrite (local_ty p Fp f fd Hf _ _ Hd) in Ht1. injection Ht1 as <-.
    eapply sane_bind; [by eapply eval_sane|]. intros [x W1] _ (Hx & Hg1 & Hs1 & _). cbn [fst snd] in Hx, Hg1, Hs1.
    eapply sane_mono; [|apply (IH args' S W1 n0 (x_insert q x F))].
    + intros [W2 F2] _ [H1 H2]. simpl in *. split; [done|by eapply steps_trans].
    + by eapply good_insert.
    + intros r Hr. apply Hq. by right.
    + exact Hts.
Qed.
End func.

(** ** Functions *)
Definition run_post (n : N) (S : gmap N ty) (W : xworld E) (fd : fdata) (e : xval * xworld E * xframe) : Prop :=
  ∃ S', good n fd S' e.1.2 e.2 ∧ steps n S W S' e.1.2 ∧ (∀ P, alive P e.1.1) ∧ ∀ ts t, f_ty fd = TFun ts t → hasv S' t e.1.1.
Definition runs_sane (go : fdata → list value → xworld E → xframe → xres (xval * xworld E * xframe)) : Prop :=
  ∀ S n f fd is W F, p_funcs p !! f = Some fd → (∀ v, v ∈ is → ∃ b l, (b, l) ∈ l_bbs (f_layout fd) ∧ v ∈ l) →
    good n fd S W F → sane (run_post n S W fd) (go fd is W F).
Lemma args_good fd S W ps : ∀ xs m, Forall2 (λ q x, ∃ d, vals fd !! q = Some d ∧ v_kind d ≠ KAlloc ∧ has S W (v_ty d) x) ps xs →
  good (x_next W) fd S W (XFrame m []) → good (x_next W) fd S W (XFrame (x_args ps xs m) []).
Proof.
  induction ps as [|q ps IH]; intros xs m H Hm; [done|].
  inversion H as [|? x ? xs' (d & Hd & Hk & Hx) Hxs]; subst. cbn [x_args]. apply IH; [done|].
  exact (good_insert _ _ _ _ (XFrame m []) q d x Hm Hd Hk Hx).
Qed.
Lemma func_sane go S g gd ts t xs W : runs_sane go → p_funcs p !! g = Some gd → f_ty gd = TFun ts t →
  Forall2 (has S W) ts xs → wgood S W →
  sane (λ e, ∃ S', wgood S' e.2 ∧ steps (x_next W) S W S' e.2 ∧ (∀ b, is_Some (x_mem e.2 !! b) → is_Some (x_mem W !! b)) ∧
    has S' e.2 t e.1) (x_func C go gd xs W).
Proof.
  intros Hgo Hg Hty Hxs HW. unfold x_func. rewrite Hty, (Forall2_length _ _ _ Hxs), Nat.eqb_refl. cbn [negb].
  destruct (rg_params _ (front_regular _ Fp) _ _ Hg) as (ts' & r & Hty' & Hps). rewrite Hty in Hty'. injection Hty' as <- <-.
  destruct (l_bbs (f_layout gd)) as [|[b is] bs] eqn:El.
  - unfold x_extern_call. rewrite Hty. destruct (f_name gd) as [|c name]; [done|].
    destruct (existsb _ _); [done|]. destruct (c_ext C name) as [h|]; [|done]. destruct (28 <? length xs)%nat; [done|].
    apply (sane_bind (λ _, True)).
    { pose proof (kp_foreign _ HT _ _ _ _ Hg El Hty) as Hi. clear -Hxs Hi. induction Hxs as [|t x ts xs [Hx _] _ IH]; [done|].
      apply list.Forall_cons in Hi as [-> Hi]. destruct Hx as [z ->]. cbn [x_words]. cbn [x_word mbind xres_bind].
      eapply sane_bind; [by apply IH|]. done. }
    intros ws _ _. destruct (h ws (x_extern W)) as [e w]. destruct (kp_return _ HT _ _ _ _ Hg Hty) as [-> | ->]; cbn [x_of_word mbind xres_bind sane fst snd].
    all: exists S; split; [destruct HW as [H1 H2 H3]; constructor; [exact H1|exact H2|exact H3]|].
    all: split; [constructor; [done|apply keeps_refl|done|done|simpl; lia]|]; split; [done|]; split; [simpl; eauto|done].
  - rewrite decide_False in Hps by done. destruct Hps as [Hlen Hps]. destruct (params_exist gd); [|done].
    set (n := x_next W). eapply sane_bind.
    + apply (Hgo S n g gd is W); [exact Hg|intros v Hv; exists b, is; rewrite El; split; [by left|done]|].
      apply args_good.
      * apply Forall2_same_length_lookup_2; [rewrite Hlen; by eapply Forall2_length|]. intros j q x Hq Hx.
        destruct (Forall2_lookup_r _ _ _ _ _ Hxs Hx) as (tj & Htj & Hxt). destruct (Hps _ _ _ Hq Htj) as (d & Hd & _ & <-). exists d. split; [done|]. split; [|done].
        destruct (fr_arg _ Fp _ _ _ Hg ltac:(by eapply elem_of_list_lookup_2)) as (e & i & He & Hek). rewrite Hd in He. injection He as <-. congruence.
      * constructor; simpl; [done| | | | |done].
        -- intros v d x _. by rewrite lookup_empty.
        -- by intros b' []%elem_of_nil.
        -- intros b' Hb' Hn. pose proof (next_above _ _ _ HW Hb'). lia.
        -- intros v d x _ _. by rewrite lookup_empty.
    + intros [[x W1] F1] _ (S' & HG1 & HS1 & Ha & Hx). cbn [fst snd] in *. cbn [sane fst snd]. exists S'.
      pose proof (gd_w _ _ _ _ _ HG1) as HW1.
      assert (Hdel : ∀ b', (b' < n)%N → x_mem (x_drop (xf_allocs F1) W1) !! b' = x_mem W1 !! b').
      { intros b' Hb'. apply (proj2 (lookup_drop _ _ _)). intros H%(gd_old _ _ _ _ _ HG1). lia. }
      assert (Hin : ∀ b' y, x_mem (x_drop (xf_allocs F1) W1) !! b' = Some y → (b' < n)%N ∧ x_mem W1 !! b' = Some y).
      { intros b' y Hy. cbn [x_drop x_mem] in Hy. destruct (decide (b' ∈ xf_allocs F1)) as [H|H].
        - by rewrite (proj1 (lookup_drop _ _ _) H) in Hy.
        - rewrite (proj2 (lookup_drop _ _ _) H) in Hy. split; [|done]. destruct (decide (b' < n)%N) as [|Hn]; [done|].
          destruct H. apply (gd_new _ _ _ _ _ HG1); [by eexists|lia]. }
      assert (Hbelow : below n (x_mem W1)).
      { apply (st_below _ _ _ _ _ HS1); [lia|]. intros b' y _ Hy. eapply alive_impl; [|by apply (wg_mem _ _ HW _ _ Hy)].
        intros q i k [[z Hz] _]. apply (next_above _ _ _ HW). unfold at_mem in Hz. destruct (x_mem W !! pt_box q); [by eexists|done]. }
      assert (Hat : ∀ b' π, (b' < n)%N → at_mem (x_mem (x_drop (xf_allocs F1) W1)) b' π = at_mem (x_mem W1) b' π).
      { intros b' π Hb'. unfold at_mem. by rewrite Hdel. }
      assert (Hs : steps n S W S' (x_drop (xf_allocs F1) W1)).
      { destruct HS1 as [T1 T2 T3 T4 T5]. constructor; [done| | | |done].
        - intros b' π y Hy. assert (Hb' : (b' < n)%N).
          { apply (next_above _ _ _ HW). unfold at_mem in Hy. destruct (x_mem W !! b'); [by eexists|done]. }
          rewrite Hat by done. by apply T2.
        - intros k Hk Hb b' y Hlt Hy. apply Hin in Hy as [_ Hy]. by eapply T3.
        - intros b' Hb' [y Hy]. apply Hin in Hy as [_ Hy]. apply T4; [done|by eexists]. }
      split; [|split; [exact Hs|split]].
      * eapply wgood_steps; [exact Hs|apply wok_drop, HW1| |done]. intros b' y Hy. apply Hin in Hy as [Hlt Hy].
        eapply alive_mono; [|exact (wg_mem _ _ HW1 _ _ Hy)|exact (Hbelow _ _ Hlt Hy)]. intros q i k [H1 H2] Hq. unfold right_ptr. rewrite Hat by done.
        split; [done|]. destruct H2 as [H2|(π & id & j & l & H2)]; [by left|]. right. exists π, id, j, l. by rewrite Hat by done.
      * intros b' [y Hy]. apply Hin in Hy as [Hlt Hy]. apply (st_dom _ _ _ _ _ HS1); [done|by eexists].
      * split; [by eapply Hx|apply Ha].
Qed.

(** ** Instructions *)
Definition inst_post (n : N) (S : gmap N ty) (W : xworld E) (fd : fdata) (e : xworld E * xframe) : Prop :=
  ∃ S', good n fd S' e.1 e.2 ∧ steps n S W S' e.1.
Lemma inst_sane go S n f fd v d fuel W F : runs_sane go → p_funcs p !! f = Some fd → vals fd !! v = Some d →
  good n fd S W F → sane (inst_post n S W fd) (x_inst C p vars go fuel fd v d W F).
Proof.
  intros Hgo Hf Hd Hg. pose proof (proj2 (fr_typed _ Fp) _ _ _ _ Hf Hd) as Hty.
  unfold x_inst. destruct (v_kind d) as [z| | |es|i|i| | |src|x dest|src i|src i|op l r|c t e ta ea|t a|g args|r] eqn:Ek; try done; cbn [TypingSpec.is_param] in Hty.
  - (* alloc *)
    inversion Hty as [| | | | |t Ht E1 E2| | | | | | | | | |]. unfold x_alloc. rewrite <- E2.
    eapply sane_bind; [by apply (zero_sane S)|]. intros [x k] Ez [Hx Ha]. apply x_zeroinit_le in Ez. cbn [fst] in Hx, Ha.
    assert (Hg1 : good n fd S (x_upto W k) F) by by apply good_upto.
    destruct (box_good n S (x_upto W k) t x (gd_w _ _ _ _ _ Hg1) (gd_next _ _ _ _ _ Hg1) Hx Ha) as (Hs & Hw & Hp).
    destruct (x_box x (x_upto W k)) as [b W1] eqn:Eb. assert (b = k) as -> by (unfold x_box in Eb; by injection Eb as <-). cbn [snd x_next x_upto] in Hs, Hw, Hp.
    cbn [sane]. exists (<[k := t]> S). cbn [fst snd]. split; [|eapply steps_trans; [by apply upto_steps|exact Hs]].
    destruct Hg1 as [G1 G2 G3 G4 G5 G6]. cbn [x_next x_upto] in G6. constructor; simpl; [done| | | | |].
    + intros w e y He. rewrite lookup_insert_Some. intros [[<- <-]|[_ Hy]]; [|eapply has_steps; [exact Hs|]; by eapply G2].
      rewrite Hd in He. injection He as <-. by rewrite <- E2.
    + intros b Hb. apply elem_of_app in Hb as [Hb|Hb]; [by apply G3|]. apply elem_of_list_singleton in Hb as ->. done.
    + intros b Hb Hn. apply elem_of_app. unfold x_box in Eb. injection Eb as <-. simpl in Hb. destruct (decide (b = k)) as [->|Hne]; [right; by left|].
      rewrite lookup_insert_ne in Hb by done. left. by apply G4.
    + intros w e y He Hek. rewrite lookup_insert_Some. intros [[<- <-]|[_ Hy]]; [|by eapply G5]. exists k. done.
    + etrans; [exact G6|]. exact (st_next _ _ _ _ _ Hs).
  - (* load *)
    inversion Hty as [| | | | | |src' t Ht E1 E2| | | | | | | | |]; subst. unfold x_load.
    eapply sane_bind; [by eapply (eval_sane f fd Hf)|]. intros [s W1] _ ([Hs Hl] & Hg1 & Hs1 & _). cbn [fst snd] in *.
    destruct Hs as [(i & m & ->)|[(a & ->)|(q & i & m & -> & Hq)]]; [done|done|].
    destruct Hl as [[y Hy] _]. pose proof (read_safe S _ _ q (proj1 (wg_w _ _ (gd_w _ _ _ _ _ Hg1))) Hq) as Hr. unfold x_read in Hr |- *.
    change (v0 ← x_mem W1 !! pt_box q; at_path v0 (pt_path q)) with (at_mem (x_mem W1) (pt_box q) (pt_path q)) in Hr |- *. rewrite Hy in Hr |- *.
    cbn [xmem mbind xres_bind safe] in Hr |- *. pose proof (hasv_clone S _ y (x_next W1) Hr) as Hy1.
    pose proof (xclone_le y (x_next W1)) as Hn. pose proof (live_read _ _ _ _ (wg_mem _ _ (gd_w _ _ _ _ _ Hg1) _) Hy) as Hly.
    apply (alive_clone _ _ (x_next W1)) in Hly. destruct (xclone y (x_next W1)) as [y' n']. cbn [sane fst snd] in *. exists S. cbn [fst snd].
    split; [|eapply steps_trans; [exact Hs1|by apply upto_steps]]. eapply good_insert; [by apply good_upto|done|congruence|]. by split.
  - (* store *)
    inversion Hty as [| | | | | | |x' dest' t Ht1 Ht2 E1 E2| | | | | | | |]; subst. unfold x_store.
    eapply sane_bind; [by eapply (eval_sane f fd Hf)|]. intros [y W1] _ (Hy & Hg1 & Hs1 & _). cbn [fst snd] in *.
    eapply sane_bind; [by eapply (eval_sane f fd Hf)|]. intros [s W2] Es ([Hs Hl] & Hg2 & Hs2 & _). cbn [fst snd] in *.
    apply (has_steps _ _ _ _ _ _ _ Hs2) in Hy. destruct Hy as [Hy Hly].
    destruct Hs as [(i & m & ->)|[(a & ->)|(q & i & m & -> & Hq)]]; [done|done|].
    destruct Hl as [[y0 Hy0] _]. pose proof (wg_w _ _ (gd_w _ _ _ _ _ Hg2)) as [HM HM2]. pose proof (read_safe S _ _ q HM Hq) as Hr. unfold x_read in Hr.
    change (v0 ← x_mem W2 !! pt_box q; at_path v0 (pt_path q)) with (at_mem (x_mem W2) (pt_box q) (pt_path q)) in Hr. rewrite Hy0 in Hr. cbn [xmem safe] in Hr.
    pose proof (kp_store _ HT _ _ _ _ _ _ _ Hf Hd Ek Ht1) as Htm.
    assert (Hna : ∀ id l, y0 ≠ XArr id l).
    { intros id l ->. destruct Htm as [-> |(t' & e & -> & _)]; [by destruct Hr|]. by destruct Hr as [(?&?&?)|[(?&?)|(?&?&?&?&_)]]. }
    destruct (write_sane (x_mem W2) q y y0 Hy0 Hna) as (m' & Em & K1 & K2 & K3). pose proof (write_safe S _ _ q y HM Hq Hy) as Hm'. rewrite Em in Hm' |- *.
    cbn [safe mbind xres_bind sane] in Hm' |- *. exists S. cbn [fst snd].
    assert (Hs3 : steps n S W2 S (XWorld m' (x_next W2) (x_extern W2))).
    { constructor; [done|exact K1| |intros b _; apply K2|simpl; lia]. intros k Hk Hb b z Hlt Hz. eapply K3; [exact Hz|intros z' Hz'; by eapply Hb|]. intros ->.
      destruct Htm as [-> |(t' & e & -> & He & Hek)]; [by destruct Hy as [? ->]|]. exfalso.
      unfold x_eval, x_value in Es. destruct (is_global_id dest) eqn:Eg; [by rewrite (local_id p Fp f fd Hf _ _ He) in Eg|].
      change (d_values (f_dfg fd)) with (vals fd) in Es. rewrite He in Es. cbn [xneed mbind xres_bind] in Es. rewrite Hek in Es. cbn [is_const] in Es.
      destruct (vars !! dest) as [u|] eqn:Eu; [pose proof (Hvk dest ltac:(by eexists)); congruence|].
      destruct (xf_vals F !! dest) as [u|] eqn:Eu'; [|done]. destruct (gd_own _ _ _ _ _ Hg _ _ _ He Hek Eu') as (b' & -> & Hb'). cbn in Es.
      injection Es as E3 E4 E5. subst q. simpl in Hlt. lia. }
    split; [|eapply steps_trans; [exact Hs1|]; eapply steps_trans; [exact Hs2|exact Hs3]].
    eapply good_steps; [exact Hs3| |exact K2|exact Hg2]. eapply wgood_steps; [exact Hs3|split; [exact Hm'|exact HM2]| |apply Hg2].
    intros b z Hz. simpl in Hz |- *. eapply K3; [exact Hz| |intros _; by eapply live_keeps]. intros z' Hz'. eapply live_keeps; [exact K1|].
    by apply (wg_mem _ _ (gd_w _ _ _ _ _ Hg2) _ _ Hz').
  - (* getptr *)
    inversion Hty as [| | | | | | | |src' i' t Ht1 Ht2 E1 E2| | | | | | |]; subst. unfold x_getptr.
    eapply sane_bind; [by eapply (eval_sane f fd Hf)|]. intros [y W1] _ ([Hy _] & Hg1 & Hs1 & _). cbn [fst snd] in *. destruct Hy as [off ->].
    unfold x_base_size. rewrite <- E2. cbn [mbind xres_bind].
    eapply sane_bind; [by eapply (eval_sane f fd Hf)|]. intros [s W2] _ ([Hs Hl] & Hg2 & Hs2 & _). cbn [fst snd] in Hs, Hl, Hg2, Hs2.
    eapply sane_bind; [by apply (pointer_sane S (x_mem W2) t)|]. intros x _ [Hx Hlx]. cbn [sane]. exists S. cbn [fst snd]. split; [|by eapply steps_trans].
    eapply good_insert; [done|done|congruence|]. rewrite <- E2. by split.
  - (* getelemptr *)
    inversion Hty as [| | | | | | | | |src' i' t k Ht1 Ht2 E1 E2| | | | | |]; subst. unfold x_getelemptr.
    eapply sane_bind; [by eapply (eval_sane f fd Hf)|]. intros [y W1] _ ([Hy _] & Hg1 & Hs1 & _). cbn [fst snd] in *. destruct Hy as [off ->].
    unfold x_base_size. rewrite <- E2. cbn [mbind xres_bind].
    eapply sane_bind; [by eapply (eval_sane f fd Hf)|]. intros [s W2] _ ([Hs Hl] & Hg2 & Hs2 & _). cbn [fst snd] in Hs, Hl, Hg2, Hs2.
    eapply sane_bind; [eapply (elem_sane S (x_mem W2) t k); [apply (wg_w _ _ (gd_w _ _ _ _ _ Hg2))|exact Hs|exact Hl]|]. intros x _ [Hx Hlx].
    cbn [sane]. exists S. cbn [fst snd]. split; [|by eapply steps_trans]. eapply good_insert; [done|done|congruence|]. rewrite <- E2. by split.
  - (* binary *)
    inversion Hty as [| | | | | | | | | |op' l' r' Ht1 Ht2 E1 E2| | | | |]; subst. unfold x_binary.
    eapply sane_bind; [by eapply (eval_sane f fd Hf)|]. intros [x W1] _ ([Hx _] & Hg1 & Hs1 & _). cbn [fst snd] in *. destruct Hx as [a ->].
    eapply sane_bind; [by eapply (eval_sane f fd Hf)|]. intros [y W2] _ ([Hy _] & Hg2 & Hs2 & _). cbn [fst snd] in *. destruct Hy as [b ->].
    destruct (exec_op (c_checks C) op a b) as [c|]; [|done]. cbn [xneed mbind xres_bind sane]. exists S. cbn [fst snd]. split; [|by eapply steps_trans].
    eapply good_insert; [done|done|congruence|]. rewrite <- E2. split; [by eexists|done].
  - (* call *)
    inversion Hty as [| | | | | | | | | | | | |g' args' ps ret Hgt Hts E1 E2| |]; subst. unfold x_call.
    eapply sane_bind; [by eapply (evals_sane f fd Hf)|]. intros [xs W1] _ (Hxs & Hg1 & Hs1). cbn [fst snd] in *.
    simpl in Hgt. destruct (p_funcs p !! g) as [gd|] eqn:Eg; [|done]. cbn [xneed mbind xres_bind]. simpl in Hgt. injection Hgt as Hgt.
    eapply sane_bind; [eapply func_sane; [exact Hgo|exact Eg|exact Hgt|exact Hxs|apply Hg1]|]. intros [x W2] _ (S' & HW2 & Hs2 & Hdom & Hx). cbn [fst snd] in *.
    assert (Hs2' : steps n S W1 S' W2).
    { pose proof (gd_next _ _ _ _ _ Hg1). destruct Hs2 as [T1 T2 T3 T4 T5]. constructor; [done|done| |intros b _; apply Hdom|done]. intros k Hk. apply T3. lia. }
    cbn [sane]. exists S'. cbn [fst snd]. split; [|by eapply steps_trans]. eapply good_insert; [by eapply good_steps|done|congruence|done].
Qed.

(** ** Blocks *)
Lemma goto_sane go S n f fd c args fuel W F : runs_sane go → p_funcs p !! f = Some fd →
  args_match (local_env p fd) c args → good n fd S W F → sane (run_post n S W fd) (x_goto p vars go fuel fd c args W F).
Proof.
  intros Hgo Hf (ps & Hps & Hargs) Hg. unfold x_goto. destruct (d_bbs (f_dfg fd) !! c) as [cd|] eqn:Hcd; [|done]. simpl in Hps. rewrite Hcd in Hps. injection Hps as <-.
  cbn [xneed mbind xres_bind]. eapply sane_bind; [eapply (params_sane f fd Hf); [exact Hg| |exact Hargs]|].
  { intros q Hq. destruct (fr_param _ Fp _ _ _ _ _ Hf Hcd Hq) as (e & i & He & Hek). exists e. split; [done|congruence]. }
  intros [W1 F1] _ [Hg1 Hs1]. cbn [fst snd] in *. destruct (find_bb c (l_bbs (f_layout fd))) as [is'|] eqn:His'; [|done]. cbn [xneed mbind xres_bind].
  apply RawBuildProofs.find_bb_in in His'.
  eapply sane_mono; [|apply (Hgo S n f fd is' W1 F1 Hf); [intros v Hv; by exists c, is'|exact Hg1]].
  intros e _ (S' & H1 & H2 & H3). exists S'. split; [done|]. split; [by eapply steps_trans|done].
Qed.
Lemma insts_sane go f fd fuel : runs_sane go → p_funcs p !! f = Some fd →
  ∀ is S n W F, (∀ v, v ∈ is → ∃ b l, (b, l) ∈ l_bbs (f_layout fd) ∧ v ∈ l) → good n fd S W F →
  sane (run_post n S W fd) (x_insts C p vars go fuel fd is W F).
Proof.
  intros Hgo Hf. induction is as [|v is IH]; intros S n W F Hl Hg; [done|]. cbn [x_insts].
  change (d_values (f_dfg fd)) with (vals fd). destruct (vals fd !! v) as [d|] eqn:Hd; [|done]. cbn [xneed mbind xres_bind].
  pose proof (proj2 (fr_typed _ Fp) _ _ _ _ Hf Hd) as Hty.
  assert (Hstep : sane (run_post n S W fd) ('(W1, F1) ← x_inst C p vars go fuel fd v d W F; x_insts C p vars go fuel fd is W1 F1)).
  { eapply sane_bind; [by eapply inst_sane|]. intros [W1 F1] _ (S' & Hg1 & Hs1). cbn [fst snd] in *.
    eapply sane_mono; [|apply (IH S' n W1 F1); [intros w Hw; apply Hl; by right|exact Hg1]].
    intros e _ (S2 & H1 & H2 & H3). exists S2. split; [done|]. split; [by eapply steps_trans|done]. }
  destruct (v_kind d) as [z| | |es|i|i| | |src|x dest|src i|src i|op a r|c t e ta ea|t a|g args|r] eqn:Ek; try exact Hstep; clear Hstep; cbn [TypingSpec.is_param] in Hty.
  - inversion Hty as [| | | | | | | | | | |c' t' e' ta' ea' Hc Hta Hea _ E1 E2| | | |]; subst.
    eapply sane_bind; [by eapply (eval_sane f fd Hf)|]. intros [x W1] _ (_ & Hg1 & Hs1 & _). cbn [fst snd] in *.
    destruct (x_bool x); (eapply sane_mono; [|by eapply goto_sane]); intros e0 _ (S2 & H1 & H2 & H3); exists S2; (split; [done|]); (split; [by eapply steps_trans|done]).
  - inversion Hty as [| | | | | | | | | | | |t' a' Hta E1 E2| | |]; subst. by eapply goto_sane.
  - destruct (HR _ _ Hf) as (ts & t & Ht & Hfit). destruct (Hl v) as (b & l & Hb & Hv); [by left|]. specialize (Hfit b l v d Hb Hv Hd). rewrite Ek in Hfit.
    destruct r as [u|].
    + destruct Hfit as [Hnu Htu]. eapply sane_bind; [by eapply (eval_sane f fd Hf)|]. intros [x W1] _ ([Hx _] & Hg1 & Hs1 & _). cbn [fst snd] in *.
      cbn [sane]. exists S. cbn [fst snd]. split; [done|]. split; [done|]. split; [|intros ts' t' Ht'; rewrite Ht in Ht'; by injection Ht' as <- <-].
      destruct (kp_return _ HT _ _ _ _ Hf Ht) as [-> | ->]; [|done]. by destruct Hx as [z ->].
    + subst t. cbn [sane]. exists S. cbn [fst snd]. split; [done|]. split; [apply steps_refl|]. split; [done|]. intros ts' t' Ht'. rewrite Ht in Ht'. by injection Ht' as <- <-.
Qed.
Lemma bb_sane fuel : runs_sane (x_bb C p vars fuel).
Proof.
  induction fuel as [|k IH]; intros S n f fd is W F Hf Hl Hg; [done|]. cbn [x_bb]. by eapply insts_sane.
Qed.
End run.
