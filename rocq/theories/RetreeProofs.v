(** The text that is printed for a program is that of a syntax tree which describes the program:
    the tree that was read, with the names that the printer gives. *)
From Coq Require Import Lia ZifyBool ZifyNat ZifyN.
From Verif Require Import Base IdModel TypeModel IrModel LayoutModel BuilderModel WorldModel TextModel NameModel LexerModel LexerSpec ParserModel ParserSpec
  DfgSpec FlowSpec FaithFunProofs PrintSpec TypingSpec FaithSpec FaithProofs RoundProofs LexerRunProofs KoopaModel CanonSpec TreeTextProofs CanonNameProofs CanonProofs TreeWfProofs
  RetreeNameProofs.

(** ** Array lengths *)
Lemma short_aty a : ∀ t, denotes a t → short t → wf_aty a.
Proof.
  induction a as [|a n IH|a IH|ps r IHp IHr] using aty_ind'; intros t H S; inversion H as [|? ? u Hu|? u Hu|? ts Hp|? ts ? u Hp Hu]; subst; clear H; inversion S; subst.
  - constructor.
  - constructor; [by eapply IH|done].
  - constructor. by eapply IH.
  - constructor; [|done]. clear -Hp IHp H1. revert H1 IHp. induction Hp as [|x y l k Hx Hl IH]; intros H1 IHp; [constructor|].
    inversion H1; subst. apply list.Forall_cons in IHp as [? ?]. constructor; eauto.
  - constructor; [|intros ? [= <-]; by eapply IHr]. clear -Hp IHp H1. revert H1 IHp. induction Hp as [|x y l k Hx Hl IH]; intros H1 IHp; [constructor|].
    inversion H1; subst. apply list.Forall_cons in IHp as [? ?]. constructor; eauto.
Qed.

(** ** The handles that are printed *)
Section handles.
Context (D : gmap N (ty * vkind)).
Definition h_val (v : value) : list handle :=
  if is_global_id v then [HVal v]
  else match D !! v with Some (_, k) => if is_const k then [] else [HVal v] | None => [HVal v] end.
Definition h_vals (vs : list value) : list handle := concat (map h_val vs).
Definition h_kind (k : vkind) : list handle :=
  match k with
  | KLoad v => [HVal v]
  | KStore a b => h_val a ++ [HVal b]
  | KGetPtr v w | KGetElemPtr v w => HVal v :: h_val w
  | KBinary _ l r => h_val l ++ h_val r
  | KCall c vs => HFun c :: h_vals vs
  | KBranch c t e ta ea => h_val c ++ (HBlk t :: h_vals ta) ++ (HBlk e :: h_vals ea)
  | KJump b vs => HBlk b :: h_vals vs
  | KReturn (Some v) => h_val v
  | _ => []
  end.
Definition h_inst (v : value) : list handle :=
  match D !! v with Some (t, k) => (if is_unit t then [] else [HVal v]) ++ h_kind k | None => [] end.
Definition h_block (P : gmap N (list value)) (x : bblock * list value) : list handle :=
  HBlk x.1 :: map HVal (default [] (P !! x.1)) ++ concat (map h_inst x.2).
End handles.
Definition h_fun (f : func) (fd : fdata) : list handle :=
  HFun f :: map HVal (f_params fd) ++ concat (map (h_block (datas (vals fd)) (bb_params <$> blks fd)) (l_bbs (f_layout fd))).

Section retree.
Context (p : program) (f : func) (fd : fdata) (G Fn L B G' Fn' L' B' : gmap N string).
Notation D := (datas (vals fd)).
Notation N' := (name_in G' Fn' L' B').
Context (Hf : p_funcs p !! f = Some fd) (HT : well_typed p) (Hnames : names_of fd L B)
  (Hloc : ∀ v, is_Some (vals fd !! v) → is_global_id v = false)
  (Hshort : ∀ v d, vals fd !! v = Some d → short (v_ty d))
  (HW : ∀ h n, N' h = Some n → wf_name n).

Lemma wa_app hs1 hs2 os : writes_as N' (hs1 ++ hs2) os → ∃ o1 o2, os = o1 ++ o2 ∧ writes_as N' hs1 o1 ∧ writes_as N' hs2 o2.
Proof. intros H. apply Forall2_app_inv_l in H as (o1 & o2 & ? & ? & ->). eauto. Qed.
Lemma wa_cons h hs os : writes_as N' (h :: hs) os → ∃ n o, os = occ_of h n :: o ∧ N' h = Some n ∧ wf_name n ∧ writes_as N' hs o.
Proof. intros H. inversion H as [|? ? ? o (n & Hn & ->) Ho]; subst. exists n, o. split_and!; [done|done|by eapply HW|done]. Qed.
Lemma wa_nil os : writes_as N' [] os → os = [].
Proof. by inversion 1. Qed.
Lemma wa_one h os : writes_as N' [h] os → ∃ n, os = [occ_of h n] ∧ N' h = Some n ∧ wf_name n.
Proof. intros H. apply wa_cons in H as (n & o & -> & ? & ? & Ho). apply wa_nil in Ho as ->. by exists n. Qed.
Lemma wa_called v n : N' (HVal v) = Some n → is_called G' L' v n.
Proof. unfold is_called. simpl. by destruct (is_global_id v). Qed.

Lemma const_local v i : const_is D v i → h_val D v = [].
Proof.
  intros H. assert (∃ t k, D !! v = Some (t, k) ∧ is_const k = true) as (t & k & E & Hk) by (inversion H; eauto).
  unfold h_val. rewrite E, Hk. rewrite Hloc; [done|]. unfold datas in E. rewrite lookup_fmap in E. apply fmap_Some in E as (d & ? & _). eauto.
Qed.
Lemma called_handle v n : is_called G L v n → h_val D v = [HVal v].
Proof.
  unfold is_called, h_val. destruct (is_global_id v) eqn:E; [done|]. intros H.
  destruct (no_val _ _ _ Hnames _ _ H) as (_ & d & Hd & _ & Hc & _). unfold datas. rewrite lookup_fmap, Hd. simpl. by rewrite Hc.
Qed.
Lemma rt_val v a os : is_val G L D v a → wf_val a → writes_as N' (h_val D v) os →
  ∃ a', is_val G' L' D v a' ∧ wf_val a' ∧ occ_val a' = os.
Proof.
  destruct a as [n|z|]; simpl; intros H Hw Ho.
  - rewrite (called_handle _ _ H) in Ho. apply wa_one in Ho as (n' & -> & Hn & Hwf). exists (VSym n'). split_and!; [by apply wa_called|done|done].
  - rewrite (const_local _ _ H) in Ho. apply wa_nil in Ho as ->. by exists (VInt z).
  - rewrite (const_local _ _ H) in Ho. apply wa_nil in Ho as ->. by exists VUndef.
Qed.
Lemma rt_vals vs l : Forall2 (is_val G L D) vs l → ∀ os, Forall wf_val l → writes_as N' (h_vals D vs) os →
  ∃ l', Forall2 (is_val G' L' D) vs l' ∧ Forall wf_val l' ∧ concat (map occ_val l') = os.
Proof.
  induction 1 as [|v a vs l Hv _ IH]; intros os Hw Ho; unfold h_vals in Ho; cbn [map concat] in Ho.
  - apply wa_nil in Ho as ->. exists []. done.
  - apply list.Forall_cons in Hw as [Hw1 Hw2]. apply wa_app in Ho as (o1 & o2 & -> & H1 & H2).
    destruct (rt_val _ _ _ Hv Hw1 H1) as (a' & A1 & A2 & A3). destruct (IH _ Hw2 H2) as (l' & L1 & L2 & L3).
    exists (a' :: l'). simpl. rewrite A3, L3. split_and!; [by constructor|by constructor|done].
Qed.
Lemma rt_args vs args os : is_args G L D vs args → Forall wf_val args → writes_as N' (h_vals D vs) os →
  ∃ l', Forall2 (is_val G' L' D) vs l' ∧ Forall wf_val l' ∧ concat (map occ_val l') = os.
Proof. intros (l & rest & -> & Hl) [Hw _]%list.Forall_app. intros Ho. eapply rt_vals; eassumption. Qed.
Lemma args_all vs l : Forall2 (is_val G' L' D) vs l → is_args G' L' D vs l.
Proof. intros H. exists l, []. by rewrite app_nil_r. Qed.

Lemma rt_stmt v st os : is_stmt G Fn L B D v st → ok_stmt st → writes_as N' (h_inst D v) os →
  ∃ st', is_stmt G' Fn' L' B' D v st' ∧ exact_at fd v st' ∧ wf_stmt st' ∧ occ_stmt st' = os ∧ (terminator st' ↔ terminator st).
Proof.
  intros (t & k & Ht & Hst) Hok Ho. unfold h_inst in Ho. rewrite Ht in Ho.
  pose proof Ht as Hd. unfold datas in Hd. rewrite lookup_fmap in Hd. apply fmap_Some in Hd as (d & Hd & E). injection E as Et Ek. subst t k.
  assert (HX : ∀ st', exact (v_ty d) (v_kind d) st' → exact_at fd v st') by (intros st' H d' Hd'; congruence).
  assert (HH : TypingSpec.is_param (v_kind d) = false → has_type (local_env p fd) (v_kind d) (v_ty d)).
  { destruct HT as [_ HT2]. specialize (HT2 _ _ _ _ Hf Hd). intros E. by rewrite E in HT2. }
  assert (Hunit : v_ty d = TUnit → ∀ os, writes_as N' ((if is_unit (v_ty d) then [] else [HVal v]) ++ h_kind D (v_kind d)) os → writes_as N' (h_kind D (v_kind d)) os).
  { intros ->. done. }
  destruct st as [n e|x dst|g args|c t1 ta t2 fa|t1 a|[a|]|]; cbn [ok_stmt] in Hok.
  - destruct Hst as (Hn & Hnu & He). destruct Hok as [_ Hok].
    assert (is_unit (v_ty d) = false) as Eu by (by destruct (v_ty d)). rewrite Eu in Ho. cbn [app] in Ho.
    apply wa_cons in Ho as (n' & o & -> & Hn' & Hw' & Ho).
    assert (HL' : L' !! v = Some n').
    { simpl in Hn'. rewrite Hloc in Hn' by eauto. done. }
    assert (∃ e', is_expr G' Fn' L' D (v_ty d) (v_kind d) e' ∧ wf_expr e' ∧ occ_expr e' = o ∧
      (∀ g args c vs, e' = ECall g args → v_kind d = KCall c vs → length vs = length args)) as (e' & E1 & E2 & E3 & E4).
    { destruct e as [a|x|x i|x i|op l r|g args]; cbn [is_expr ok_expr] in He, Hok.
      - destruct He as (Hk & b & Hb & Hden). rewrite Hk in Ho. apply wa_nil in Ho as ->. exists (EMemDecl a). split_and!; [simpl; eauto| |done|done].
        simpl. eapply short_aty; [exact Hden|]. specialize (Hshort _ _ Hd). rewrite Hb in Hshort. by inversion Hshort.
      - destruct He as (w & Hk & Hc). rewrite Hk in Ho |- *. apply wa_one in Ho as (m & -> & Hm & Hwm). exists (ELoad m). apply wa_called in Hm. split_and!; [simpl; eauto|done|done|done].
      - destruct He as (w & u & Hk & Hc & Hu). destruct Hok as [_ Hok]. rewrite Hk in Ho |- *. apply wa_cons in Ho as (m & o' & -> & Hm & Hwm & Ho).
        destruct (rt_val _ _ _ Hu Hok Ho) as (i' & I1 & I2 & I3). exists (EGetPtr m i'). apply wa_called in Hm. split_and!; [simpl; eauto 10|done|simpl; by rewrite I3|done].
      - destruct He as (w & u & Hk & Hc & Hu). destruct Hok as [_ Hok]. rewrite Hk in Ho |- *. apply wa_cons in Ho as (m & o' & -> & Hm & Hwm & Ho).
        destruct (rt_val _ _ _ Hu Hok Ho) as (i' & I1 & I2 & I3). exists (EGetElemPtr m i'). apply wa_called in Hm. split_and!; [simpl; eauto 10|done|simpl; by rewrite I3|done].
      - destruct He as (w & u & Hk & Hl & Hr). destruct Hok as [Hok1 Hok2]. rewrite Hk in Ho |- *. apply wa_app in Ho as (o1 & o2 & -> & H1 & H2).
        destruct (rt_val _ _ _ Hl Hok1 H1) as (l' & L1 & L2 & L3). destruct (rt_val _ _ _ Hr Hok2 H2) as (r' & R1 & R2 & R3).
        exists (EBin op l' r'). split_and!; [simpl; eauto 10|done|simpl; by rewrite L3, R3|done].
      - destruct He as (c & vs & Hk & Hc & Ha). destruct Hok as [_ Hok]. rewrite Hk in Ho |- *. apply wa_cons in Ho as (m & o' & -> & Hm & Hwm & Ho).
        destruct (rt_args _ _ _ Ha Hok Ho) as (l' & L1 & L2 & L3). exists (ECall m l'). split_and!.
        + simpl. exists c, vs. split_and!; [done|done|by apply args_all].
        + done.
        + simpl. by rewrite L3.
        + intros ? ? ? ? [= <- <-] [= <- <-]. by eapply Forall2_length. }
    exists (SDef n' e'). split_and!.
    + exists (v_ty d), (v_kind d). done.
    + apply HX. split; [|done]. destruct e'; try done. destruct (v_kind d) eqn:Ek; try done. by eapply E4.
    + done.
    + simpl. by rewrite E3.
    + done.
  - destruct Hst as (a & b & Hk & Ha & Hb).
    assert (Hu : v_ty d = TUnit) by (rewrite Hk in HH; specialize (HH eq_refl); by inversion HH). apply Hunit in Ho; [|done].
    rewrite Hk in Ho. cbn [h_kind] in Ho. apply wa_app in Ho as (o1 & o2 & -> & H1 & H2). apply wa_one in H2 as (m & -> & Hm & Hwm). apply wa_called in Hm.
    destruct x as [n|i]; simpl in Ha, Hok.
    + rewrite (called_handle _ _ Ha) in H1. apply wa_one in H1 as (n' & -> & Hn' & Hwn). apply wa_called in Hn'. exists (SStore (SvSym n') m). split_and!.
      * exists (v_ty d), (v_kind d). split; [done|]. exists a, b. done.
      * apply HX. by rewrite Hk.
      * done.
      * done.
      * done.
    + rewrite (const_local _ _ Ha) in H1. apply wa_nil in H1 as ->. exists (SStore (SvInit i) m). split_and!.
      * exists (v_ty d), (v_kind d). split; [done|]. exists a, b. done.
      * apply HX. by rewrite Hk.
      * by destruct Hok.
      * done.
      * done.
  - destruct Hst as (c & vs & Hk & Hc & Ha). destruct Hok as [_ Hok].
    destruct (is_unit (v_ty d)) eqn:Eu.
    + assert (Hu : v_ty d = TUnit) by (by destruct (v_ty d)). cbn [app] in Ho.
      rewrite Hk in Ho. apply wa_cons in Ho as (m & o' & -> & Hm & Hwm & Ho).
      destruct (rt_args _ _ _ Ha Hok Ho) as (l' & L1 & L2 & L3). exists (SCall m l'). split_and!.
      * exists (v_ty d), (v_kind d). split; [done|]. exists c, vs. split_and!; [done|done|by apply args_all].
      * apply HX. rewrite Hk. split; [by eapply Forall2_length|done].
      * done.
      * simpl. by rewrite L3.
      * done.
    + cbn [app] in Ho. apply wa_cons in Ho as (n' & o & -> & Hn' & Hw' & Ho).
      assert (HL' : L' !! v = Some n').
      { simpl in Hn'. rewrite Hloc in Hn' by eauto. done. }
      rewrite Hk in Ho. apply wa_cons in Ho as (m & o' & -> & Hm & Hwm & Ho).
      destruct (rt_args _ _ _ Ha Hok Ho) as (l' & L1 & L2 & L3). exists (SDef n' (ECall m l')). split_and!.
      * exists (v_ty d), (v_kind d). split; [done|]. split_and!; [done|by intros E; rewrite E in Eu|]. exists c, vs. split_and!; [done|done|by apply args_all].
      * apply HX. rewrite Hk. split; [by eapply Forall2_length|done].
      * done.
      * simpl. by rewrite L3.
      * done.
  - destruct Hst as (w & b1 & b2 & vs1 & vs2 & Hk & Hc & Hb1 & Ha1 & Hb2 & Ha2). destruct Hok as (K1 & _ & K2 & _ & K3).
    assert (Hu : v_ty d = TUnit) by (rewrite Hk in HH; specialize (HH eq_refl); by inversion HH). apply Hunit in Ho; [|done].
    rewrite Hk in Ho. cbn [h_kind] in Ho. apply wa_app in Ho as (o1 & o2 & -> & H1 & H2). apply wa_app in H2 as (o3 & o4 & -> & H3 & H4).
    apply wa_cons in H3 as (n1 & o5 & -> & Hn1 & Hw1 & H3). apply wa_cons in H4 as (n2 & o6 & -> & Hn2 & Hw2 & H4).
    destruct (rt_val _ _ _ Hc K1 H1) as (c' & C1 & C2 & C3).
    destruct (rt_args _ _ _ Ha1 K2 H3) as (l1 & L1 & L2 & L3). destruct (rt_args _ _ _ Ha2 K3 H4) as (l2 & M1 & M2 & M3).
    exists (SBr c' n1 l1 n2 l2). split_and!.
    + exists (v_ty d), (v_kind d). split; [done|]. exists w, b1, b2, vs1, vs2. split_and!; [done|done|done|by apply args_all|done|by apply args_all].
    + apply HX. rewrite Hk. split; [split; by eapply Forall2_length|done].
    + done.
    + simpl. by rewrite C3, L3, M3.
    + done.
  - destruct Hst as (b & vs & Hk & Hb & Ha). destruct Hok as (_ & K).
    assert (Hu : v_ty d = TUnit) by (rewrite Hk in HH; specialize (HH eq_refl); by inversion HH). apply Hunit in Ho; [|done].
    rewrite Hk in Ho. apply wa_cons in Ho as (n1 & o5 & -> & Hn1 & Hw1 & H3).
    destruct (rt_args _ _ _ Ha K H3) as (l1 & L1 & L2 & L3).
    exists (SJump n1 l1). split_and!.
    + exists (v_ty d), (v_kind d). split; [done|]. exists b, vs. split_and!; [done|done|by apply args_all].
    + apply HX. rewrite Hk. split; [by eapply Forall2_length|done].
    + done.
    + simpl. by rewrite L3.
    + done.
  - destruct Hst as (w & Hk & Hw).
    assert (Hu : v_ty d = TUnit) by (rewrite Hk in HH; specialize (HH eq_refl); by inversion HH). apply Hunit in Ho; [|done].
    rewrite Hk in Ho. destruct (rt_val _ _ _ Hw (Hok _ eq_refl) Ho) as (a' & A1 & A2 & A3). exists (SRet (Some a')). split_and!.
    + exists (v_ty d), (v_kind d). split; [done|]. by exists w.
    + apply HX. by rewrite Hk.
    + by intros ? [= <-].
    + done.
    + done.
  - assert (Hu : v_ty d = TUnit) by (rewrite Hst in HH; specialize (HH eq_refl); by inversion HH). apply Hunit in Ho; [|done].
    rewrite Hst in Ho. apply wa_nil in Ho as ->. exists (SRet None). split_and!.
    + exists (v_ty d), (v_kind d). done.
    + apply HX. by rewrite Hst.
    + done.
    + done.
    + done.
  - done.
Qed.
Lemma rt_stmts vs sts : Forall2 (is_stmt G Fn L B D) vs sts → ∀ os, Forall ok_stmt sts → writes_as N' (concat (map (h_inst D) vs)) os →
  ∃ sts', Forall2 (is_stmt G' Fn' L' B' D) vs sts' ∧ Forall2 (exact_at fd) vs sts' ∧ Forall wf_stmt sts' ∧ concat (map occ_stmt sts') = os ∧
    Forall2 (λ st' st, terminator st' ↔ terminator st) sts' sts.
Proof.
  induction 1 as [|v st vs sts Hv _ IH]; intros os Hok Ho; cbn [map concat] in Ho.
  - apply wa_nil in Ho as ->. exists []. done.
  - apply list.Forall_cons in Hok as [K1 K2]. apply wa_app in Ho as (o1 & o2 & -> & H1 & H2).
    destruct (rt_stmt _ _ _ Hv K1 H1) as (s' & A1 & A2 & A3 & A4 & A5). destruct (IH _ K2 H2) as (l' & B1 & B2 & B3 & B4 & B5).
    exists (s' :: l'). cbn [map concat]. rewrite A4, B4. split_and!; [by constructor..|done|by constructor].
Qed.
Lemma rt_params c vs ps : Forall2 (FaithSpec.is_param L D c) vs ps → ∀ os, writes_as N' (map HVal vs) os →
  ∃ ps', Forall2 (FaithSpec.is_param L' D c) vs ps' ∧ Forall wf_param ps' ∧ occ_params ps' = os ∧ map snd ps' = map snd ps.
Proof.
  induction 1 as [|v q vs ps (Hl & t & i & Ht & Hden) _ IH]; intros os Ho; cbn [map] in Ho.
  - apply wa_nil in Ho as ->. exists []. done.
  - apply wa_cons in Ho as (n' & o & -> & Hn' & Hw' & Ho). destruct (IH _ Ho) as (ps' & A1 & A2 & A3 & A4).
    pose proof Ht as Hd. unfold datas in Hd. rewrite lookup_fmap in Hd. apply fmap_Some in Hd as (d & Hd & E). injection E as -> _.
    assert (HL' : L' !! v = Some n').
    { simpl in Hn'. rewrite Hloc in Hn' by eauto. done. }
    exists ((n', q.2) :: ps'). split_and!.
    + constructor; [|done]. split; [done|]. eauto.
    + constructor; [|done]. split; [done|]. simpl. eapply short_aty; [exact Hden|by eapply Hshort].
    + unfold occ_params. cbn [map]. by rewrite <- A3.
    + cbn [map]. by rewrite A4.
Qed.
Lemma shape_like (l l' : list astmt) : Forall2 (λ st' st, terminator st' ↔ terminator st) l' l → Forall wf_stmt l' → Forall (λ st, st ≠ SErr) l →
  (∃ body fin, l = body ++ [fin] ∧ Forall (λ st, ¬ terminator st) body ∧ (terminator fin ∨ err_stmt fin)) →
  ∃ body fin, l' = body ++ [fin] ∧ Forall (λ st, ¬ terminator st) body ∧ (terminator fin ∨ err_stmt fin).
Proof.
  intros F W NE (body & fin & -> & Hb & Hfin). apply Forall2_app_inv_r in F as (b' & f' & F1 & F2 & ->).
  inversion F2 as [|x ? ? ? Hx F3]; subst. inversion F3; subst. exists b', x. split; [done|]. split.
  - clear -F1 Hb. induction F1 as [|y z l l' Hy _ IH]; [constructor|]. apply list.Forall_cons in Hb as [H1 H2]. constructor; [|by apply IH]. by rewrite Hy.
  - left. apply Hx. destruct Hfin as [?|He]; [done|]. apply list.Forall_app in NE as [_ NE]. inversion NE; subst. done.
Qed.
Lemma rt_block x b os : is_block G Fn L B D (bb_params <$> blks fd) x b → ok_block b → block_shape b → Forall (λ st, st ≠ SErr) (b_stmts b) →
  writes_as N' (h_block D (bb_params <$> blks fd) x) os →
  ∃ b', is_block G' Fn' L' B' D (bb_params <$> blks fd) x b' ∧ Forall2 (exact_at fd) x.2 (b_stmts b') ∧ wf_block b' ∧ occ_block b' = os ∧
    map snd (b_params b') = map snd (b_params b).
Proof.
  intros (Hb & (ps & Hps & Hpar) & Hst) (_ & _ & K) Hsh Hne Ho. unfold h_block in Ho. rewrite Hps in Ho. simpl default in Ho.
  apply wa_cons in Ho as (n' & o & -> & Hn' & Hw' & Ho). apply wa_app in Ho as (o1 & o2 & -> & H1 & H2).
  destruct (rt_params _ _ _ Hpar _ H1) as (ps' & A1 & A2 & A3 & A4). destruct (rt_stmts _ _ Hst _ K H2) as (l' & B1 & B2 & B3 & B4 & B5).
  exists (ABlock n' ps' l'). split; [|split; [|split; [|split]]].
  - split; [done|]. split; [|done]. exists ps. done.
  - done.
  - split; [done|]. split; [done|]. split; [done|]. unfold block_shape in *. simpl. by eapply shape_like.
  - unfold occ_block. simpl. by rewrite A3, B4.
  - done.
Qed.
Lemma rt_blocks xs bs : Forall2 (is_block G Fn L B D (bb_params <$> blks fd)) xs bs → ∀ os, Forall ok_block bs → Forall block_shape bs →
  Forall (λ b, Forall (λ st, st ≠ SErr) (b_stmts b)) bs →
  writes_as N' (concat (map (h_block D (bb_params <$> blks fd)) xs)) os →
  ∃ bs', Forall2 (is_block G' Fn' L' B' D (bb_params <$> blks fd)) xs bs' ∧
    Forall2 (λ (x : bblock * list value) b, Forall2 (exact_at fd) x.2 (b_stmts b)) xs bs' ∧
    Forall wf_block bs' ∧ concat (map occ_block bs') = os.
Proof.
  induction 1 as [|x b xs bs Hv _ IH]; intros os K S E Ho; cbn [map concat] in Ho.
  - apply wa_nil in Ho as ->. exists []. done.
  - apply list.Forall_cons in K as [K1 K2]. apply list.Forall_cons in S as [S1 S2]. apply list.Forall_cons in E as [E1 E2].
    apply wa_app in Ho as (o1 & o2 & -> & H1 & H2).
    destruct (rt_block _ _ _ Hv K1 S1 E1 H1) as (b' & A1 & A2 & A3 & A4 & A5). destruct (IH _ K2 S2 E2 H2) as (l' & B1 & B2 & B3 & B4).
    exists (b' :: l'). cbn [map concat]. rewrite A4, B4. split_and!; [by constructor..|done].
Qed.
End retree.
