(** Walks meet nothing twice, and what they meet is there (C59). *)
From Coq Require Import Lia.
From Verif Require Import Base IdModel TypeModel IrModel BuilderModel WorldModel UsesSpec DfgSpec TypingSpec RawModel RawSpec RawWalkProofs.

Section once.
Context (p : program) (HR : regular p).
(** Parameters are only known with their block or function. *)
Definition params_known (S : list task) : Prop :=
  (∀ f fd b d v, p_funcs p !! f = Some fd → blks fd !! b = Some d → v ∈ bb_params d → TVal v ∈ S → TBlk b ∈ S) ∧
  (∀ f fd v, p_funcs p !! f = Some fd → v ∈ f_params fd → TVal v ∈ S → TFunc f ∈ S).
(** What is about to be met belongs to functions that are known; jumps and branches belong to
    blocks that are known. *)
Definition placed (S l : list task) : Prop :=
  (∀ t f fd, t ∈ l → p_funcs p !! f = Some fd → own_task fd t → TFunc f ∈ S) ∧
  (∀ v f fd d, TVal v ∈ l → p_funcs p !! f = Some fd → vals fd !! v = Some d → is_control (v_kind d) = true →
     ∃ b is, TBlk b ∈ S ∧ (b, is) ∈ l_bbs (f_layout fd) ∧ v ∈ is).
Lemma placed_mono S S' l l' : S ⊆ S' → l' ⊆ l → placed S l → placed S' l'.
Proof.
  intros H1 H2 [A B]. split; [intros; apply H1; eapply A; eauto|]. intros v f fd d Hv Hf Hd Hk.
  destruct (B v f fd d) as (b & is & ? & ? & ?); auto. exists b, is. auto.
Qed.
Lemma value_params v d : value_of p v d → is_param (v_kind d) = false → ∀ f fd, p_funcs p !! f = Some fd →
  v ∉ f_params fd ∧ ∀ b bd, blks fd !! b = Some bd → v ∉ bb_params bd.
Proof.
  intros Hv Hk f fd Hf. split.
  - intros H. destruct (params_kind p HR _ _ _ Hf H) as (d' & j & Hd & Hj).
    rewrite (value_of_det p HR v d d') in Hk; [by rewrite Hj in Hk|done|right; eauto].
  - intros b bd Hb H. destruct (bb_params_kind p HR _ _ _ _ _ Hf Hb H) as (d' & j & Hd & Hj).
    rewrite (value_of_det p HR v d d') in Hk; [by rewrite Hj in Hk|done|right; eauto].
Qed.
Lemma params_value S v d : params_known S → value_of p v d → is_param (v_kind d) = false → params_known (S ++ [TVal v]).
Proof.
  intros [A B] Hv Hk. split.
  - intros f fd b bd x Hf Hb Hx Hin. apply elem_of_app in Hin as [Hin|Hin]; [apply elem_of_app; left; eauto|].
    apply elem_of_list_singleton in Hin. injection Hin as ->. by destruct (proj2 (value_params _ _ Hv Hk _ _ Hf) _ _ Hb).
  - intros f fd x Hf Hx Hin. apply elem_of_app in Hin as [Hin|Hin]; [apply elem_of_app; left; eauto|].
    apply elem_of_list_singleton in Hin. injection Hin as ->. by destruct (proj1 (value_params _ _ Hv Hk _ _ Hf)).
Qed.
Lemma params_block S b d is : params_known S → block_of p b d is → params_known (S ++ TBlk b :: (TVal <$> bb_params d)).
Proof.
  intros [A B] (f & fd & Hf & Hb & _). split.
  - intros g gd c e x Hg Hc Hx Hin. apply elem_of_app in Hin as [Hin|Hin]; [apply elem_of_app; left; eauto|].
    apply elem_of_cons in Hin as [?|Hin]; [done|]. apply elem_of_list_fmap in Hin as (y & [= <-] & Hy).
    assert (f = g) as <-.
    { destruct (bb_params_kind p HR _ _ _ _ _ Hf Hb Hy) as (d1 & _ & H1 & _). destruct (bb_params_kind p HR _ _ _ _ _ Hg Hc Hx) as (d2 & _ & H2 & _).
      eapply (rg_own _ HR); [exact Hf|exact Hg|by eexists|by eexists]. }
    rewrite Hf in Hg. injection Hg as <-. assert (b = c) as <- by (eapply (rg_bb_params_own _ HR); eauto).
    apply elem_of_app. right. by left.
  - intros g gd x Hg Hx Hin. apply elem_of_app in Hin as [Hin|Hin]; [apply elem_of_app; left; eauto|].
    apply elem_of_cons in Hin as [?|Hin]; [done|]. apply elem_of_list_fmap in Hin as (y & [= <-] & Hy). exfalso.
    destruct (bb_params_kind p HR _ _ _ _ _ Hf Hb Hy) as (d1 & j1 & H1 & K1). destruct (params_kind p HR _ _ _ Hg Hx) as (d2 & j2 & H2 & K2).
    rewrite (value_of_det p HR x d1 d2) in K1; [congruence|right; eauto..].
Qed.
Lemma params_func S f fd : params_known S → p_funcs p !! f = Some fd → params_known (S ++ TFunc f :: (TVal <$> f_params fd)).
Proof.
  intros [A B] Hf. split.
  - intros g gd c e x Hg Hc Hx Hin. apply elem_of_app in Hin as [Hin|Hin]; [apply elem_of_app; left; eauto|].
    apply elem_of_cons in Hin as [?|Hin]; [done|]. apply elem_of_list_fmap in Hin as (y & [= <-] & Hy). exfalso.
    destruct (bb_params_kind p HR _ _ _ _ _ Hg Hc Hx) as (d1 & j1 & H1 & K1). destruct (params_kind p HR _ _ _ Hf Hy) as (d2 & j2 & H2 & K2).
    rewrite (value_of_det p HR x d1 d2) in K1; [congruence|right; eauto..].
  - intros g gd x Hg Hx Hin. apply elem_of_app in Hin as [Hin|Hin]; [apply elem_of_app; left; eauto|].
    apply elem_of_cons in Hin as [?|Hin]; [done|]. apply elem_of_list_fmap in Hin as (y & [= <-] & Hy).
    assert (f = g) as <-; [|apply elem_of_app; right; by left].
    destruct (params_kind p HR _ _ _ Hf Hy) as (d1 & _ & H1 & _). destruct (params_kind p HR _ _ _ Hg Hx) as (d2 & _ & H2 & _).
    eapply (rg_own _ HR); [exact Hf|exact Hg|by eexists|by eexists].
Qed.
Lemma walk_params S l o : walk p S l o → params_known S → params_known (S ++ o).
Proof.
  induction 1 as [S|S t l o Ht Hw IH|S v d l o o' Hn Hv Hp Hr IHr Hw IH|S b d is l o o' Hn Hb Hr IHr Hw IH|S f fd l o o' Hn Hf Hr IHr Hw IH]; intros HS.
  - by rewrite app_nil_r.
  - by apply IH.
  - specialize (IHr HS). rewrite <- app_assoc in IH. specialize (IH ltac:(rewrite app_assoc; by eapply params_value)). rewrite <- !app_assoc in *. exact IH.
  - specialize (IHr ltac:(by eapply params_block)). rewrite <- app_assoc in IHr. specialize (IH IHr). rewrite <- !app_assoc in *. exact IH.
  - specialize (IHr ltac:(by eapply params_func)). rewrite <- app_assoc in IHr. specialize (IH IHr). rewrite <- !app_assoc in *. exact IH.
Qed.

Lemma fmap_val_once (l : list value) : NoDup l → NoDup (TVal <$> l).
Proof. apply NoDup_fmap_2. by intros x y [= ->]. Qed.
Lemma walk_once S l o : walk p S l o → (∀ v, TVal v ∈ S → Acc (opnd p) v) → params_known S → placed S l →
  NoDup o ∧ ∀ t, t ∈ o → t ∉ S.
Proof.
  induction 1 as [S|S t l o Ht Hw IH|S v d l o o' Hn Hv Hp Hr IHr Hw IH|S b d is l o o' Hn Hb Hr IHr Hw IH|S f fd l o o' Hn Hf Hr IHr Hw IH]; intros HA HP HL.
  - split; [constructor|]. by intros t ?%elem_of_nil.
  - apply IH; [done|done|]. eapply placed_mono; [| |exact HL]; set_solver.
  - assert (Hno : TVal v ∉ o).
    { destruct Hv as [Hv|(f & fd & Hf & Hv)]; [by eapply no_reentry_global|]. destruct HL as [L1 L2].
      eapply no_reentry_local; [done|exact Hf|exact Hv|done| |exact HA| |exact Hr].
      - eapply L1; [by left|exact Hf|]. simpl. by eexists.
      - intros Hc. eapply L2; [by left|exact Hf|exact Hv|exact Hc]. }
    destruct IHr as [N1 N2]; [done|done|..].
    { destruct HL as [L1 L2]. destruct Hv as [Hv|(f & fd & Hf & Hv)].
      - split.
        + intros t f fd Ht Hf Ho. destruct (global_refs p HR _ _ Hv _ Ht) as (u & -> & Hu). exfalso. by eapply (local_not_global p HR).
        + intros u f fd du Hu Hf Hdu _. destruct (global_refs p HR _ _ Hv _ Hu) as (u' & [= <-] & Hu'). exfalso. eapply (local_not_global p HR); [exact Hf|by eexists|done].
      - assert (Hfs : TFunc f ∈ S). { eapply L1; [by left|exact Hf|]. simpl. by eexists. }
        split.
        + intros t g gd Ht Hg Ho. assert (g = f) as -> by (eapply (own_refs p HR); eauto). done.
        + intros u g gd du Hu Hg Hdu Hc. exfalso. assert (g = f) as ->. { eapply (own_refs p HR g f gd fd v d (TVal u)); eauto. simpl. by eexists. }
          rewrite Hf in Hg. injection Hg as <-. rewrite (rg_control _ HR f fd v u du) in Hc; [done|done| |done]. exists d. split; [done|]. by apply elem_refs_val. }
    assert (HA' : ∀ u, TVal u ∈ S ++ o ++ [TVal v] → Acc (opnd p) u).
    { destruct (walk_acc p HR _ _ _ Hr HA) as [A1 A2]. intros u Hu. rewrite !elem_of_app, elem_of_list_singleton in Hu.
      destruct Hu as [Hu|[Hu|[= ->]]]; [by auto|by auto|]. constructor. intros x (d' & Hd' & Hx). apply A2, elem_refs_val.
      by rewrite <- (value_of_det p HR _ _ _ Hd' Hv). }
    destruct IH as [N3 N4]; [done|..].
    { rewrite app_assoc. eapply params_value; [by eapply walk_params|done|done]. }
    { eapply placed_mono; [| |exact HL]; set_solver. }
    split.
    + apply NoDup_app. split_and!; [|set_solver|done]. apply NoDup_app. split_and!; [done|set_solver|apply NoDup_singleton].
    + set_solver.
  - assert (Hbo := Hb). destruct Hb as (f & fd & Hf & Hb & Hi). destruct HL as [L1 L2].
    assert (Hfs : TFunc f ∈ S). { eapply L1; [by left|exact Hf|]. simpl. by eexists. }
    assert (Hps : ∀ t, t ∈ TVal <$> bb_params d → t ∉ S).
    { intros t Ht HtS. apply elem_of_list_fmap in Ht as (v & -> & Hv). apply Hn. by eapply (proj1 HP). }
    assert (HA0 : ∀ u, TVal u ∈ S ++ TBlk b :: (TVal <$> bb_params d) → Acc (opnd p) u).
    { intros u Hu. apply elem_of_app in Hu as [Hu|Hu]; [by auto|]. apply elem_of_cons in Hu as [?|Hu]; [done|].
      apply elem_of_list_fmap in Hu as (y & [= ->] & Hu). destruct (bb_params_kind p HR _ _ _ _ _ Hf Hb Hu) as (dd & j & Hd & Hk).
      eapply param_acc; [done|right; by exists f, fd|]. by rewrite Hk. }
    assert (HP0 : params_known (S ++ TBlk b :: (TVal <$> bb_params d))) by (by eapply params_block).
    destruct IHr as [N1 N2]; [done|done|..].
    { split.
      - intros t g gd Ht Hg Ho. apply elem_of_list_fmap in Ht as (v & -> & Hv). assert (f = g) as <-; [|apply elem_of_app; by left].
        eapply (rg_own _ HR); [exact Hf|exact Hg| |exact Ho]. by eapply (rg_insts _ HR).
      - intros v g gd dv Ht Hg Hdv _. apply elem_of_list_fmap in Ht as (w & [= <-] & Hw').
        assert (f = g) as <- by (eapply (rg_own _ HR); [exact Hf|exact Hg|by eapply (rg_insts _ HR)|by eexists]).
        rewrite Hf in Hg. injection Hg as <-. exists b, is. split; [apply elem_of_app; right; by left|]. done. }
    destruct IH as [N3 N4].
    { intros u Hu. rewrite app_assoc in Hu. apply elem_of_app in Hu as [Hu|Hu]; [by auto|]. by apply (proj1 (walk_acc p HR _ _ _ Hr HA0)). }
    { rewrite app_assoc. by eapply walk_params. }
    { eapply placed_mono; [| |split; [exact L1|exact L2]]; set_solver. }
    assert (Hnp : NoDup (TVal <$> bb_params d)) by (apply fmap_val_once; by eapply (rg_bb_params_once _ HR)).
    split.
    + apply NoDup_app. split_and!; [|set_solver|done]. cbn [app]. apply list.NoDup_cons. split.
      * rewrite elem_of_app. intros [H|H]; [by apply elem_of_list_fmap in H as (? & ? & _)|]. apply N2 in H. set_solver.
      * apply NoDup_app. split_and!; [done|set_solver|done].
    + set_solver.
  - assert (Hps : ∀ t, t ∈ TVal <$> f_params fd → t ∉ S).
    { intros t Ht HtS. apply elem_of_list_fmap in Ht as (v & -> & Hv). apply Hn. by eapply (proj2 HP). }
    assert (HA0 : ∀ u, TVal u ∈ S ++ TFunc f :: (TVal <$> f_params fd) → Acc (opnd p) u).
    { intros u Hu. apply elem_of_app in Hu as [Hu|Hu]; [by auto|]. apply elem_of_cons in Hu as [?|Hu]; [done|].
      apply elem_of_list_fmap in Hu as (y & [= ->] & Hu). destruct (params_kind p HR _ _ _ Hf Hu) as (dd & j & Hd & Hk).
      eapply param_acc; [done|right; by exists f, fd|]. by rewrite Hk. }
    assert (HP0 : params_known (S ++ TFunc f :: (TVal <$> f_params fd))) by (by eapply params_func).
    destruct IHr as [N1 N2]; [done|done|..].
    { split.
      - intros t g gd Ht Hg Ho. apply elem_of_list_fmap in Ht as (v & -> & Hv). assert (f = g) as <-; [|apply elem_of_app; right; by left].
        eapply (rg_own_bb _ HR); [exact Hf|exact Hg| |exact Ho]. by eapply (rg_bbs _ HR).
      - intros v g gd dv Ht. by apply elem_of_list_fmap in Ht as (w & ? & Hw'). }
    destruct IH as [N3 N4].
    { intros u Hu. rewrite app_assoc in Hu. apply elem_of_app in Hu as [Hu|Hu]; [by auto|]. by apply (proj1 (walk_acc p HR _ _ _ Hr HA0)). }
    { rewrite app_assoc. by eapply walk_params. }
    { eapply placed_mono; [| |exact HL]; set_solver. }
    assert (Hnp : NoDup (TVal <$> f_params fd)) by (apply fmap_val_once; by eapply (rg_params_once _ HR)).
    split.
    + apply NoDup_app. split_and!; [|set_solver|done]. cbn [app]. apply list.NoDup_cons. split.
      * rewrite elem_of_app. intros [H|H]; [by apply elem_of_list_fmap in H as (? & ? & _)|]. apply N2 in H. set_solver.
      * apply NoDup_app. split_and!; [done|set_solver|done].
    + set_solver.
Qed.
Lemma discovered_once o : discovered p o → NoDup o.
Proof.
  intros H. eapply (walk_once [] _ o H).
  - by intros v ?%elem_of_nil.
  - split; intros *; by intros ? ? ? ?%elem_of_nil || (intros ? ? ?%elem_of_nil).
  - split.
    + intros t f fd Ht Hf Ho. apply elem_of_app in Ht as [Ht|Ht]; apply elem_of_list_fmap in Ht as (v & -> & Hv); [|done].
      exfalso. eapply (local_not_global p HR); [exact Hf|exact Ho|by apply (rg_layout _ HR)].
    + intros v f fd d Ht Hf Hd _. apply elem_of_app in Ht as [Ht|Ht]; apply elem_of_list_fmap in Ht as (u & E & Hv); [|done]. injection E as <-.
      exfalso. eapply (local_not_global p HR); [exact Hf|by eexists|by apply (rg_layout _ HR)].
Qed.
End once.
