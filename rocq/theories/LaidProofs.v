(** The blocks of functions of the front end: control gets to all of them, and ends them (C59). *)
From Coq Require Import Lia ZifyBool ZifyNat ZifyN.
From Verif Require Import Base IdModel TypeModel IrModel LayoutModel BuilderModel WorldModel LexerModel ParserModel ParserSpec
  UsesSpec DfgSpec WorldSpec TypingSpec FlowSpec FaithSpec ScopeSpec ScopeProofs CompleteSpec RawModel RawSpec RawWalkProofs RegularProofs DominSpec DiscoverProofs.

Lemma target_ends G Fn L B D v st c t k : is_stmt G Fn L B D v st → D !! v = Some (t, k) → c ∈ UsesSpec.targets k → terminator st.
Proof.
  intros (t' & k' & Hk & H) Hk' Hc. rewrite Hk in Hk'. injection Hk' as <- <-. destruct st as [m e|a d|g args|a t1 ta e ea|t1 args|[a|]|]; try done.
  - destruct H as (_ & _ & H). destruct e; simpl in H; naive_solver (try by apply elem_of_nil in Hc).
  - destruct H as (? & ? & -> & _). by apply elem_of_nil in Hc.
  - destruct H as (? & ? & -> & _). by apply elem_of_nil in Hc.
Qed.
Lemma goes_target G Fn L B D v st n : is_stmt G Fn L B D v st → goes_to st n → ∃ t k c, D !! v = Some (t, k) ∧ c ∈ UsesSpec.targets k ∧ B !! c = Some n.
Proof.
  intros (t & k & Hk & H) Hg. exists t, k. destruct st as [m e|a d|g args|a t1 ta e ea|t1 args|[a|]|]; try done.
  - destruct H as (w & b1 & b2 & vs1 & vs2 & -> & _ & H1 & _ & H2 & _). destruct Hg as [-> | ->]; [exists b1|exists b2]; (split; [done|]; split; [|done]); simpl; set_solver.
  - destruct H as (b & vs & -> & H1 & _). simpl in Hg. subst n. exists b. split; [done|]. split; [simpl; set_solver|done].
Qed.
Lemma first_named G Fn L B D P lay (l : list ablock) n ns : Forall2 (is_block G Fn L B D P) lay l → map b_name l = firsts [] (n :: ns) →
  ∃ b, head (map fst lay) = Some b ∧ B !! b = Some n.
Proof.
  intros Hl E. cbn [firsts] in E. rewrite decide_False in E by apply not_elem_of_nil.
  destruct Hl as [|[b is] a lay l (HB & _) _]; [done|]. injection E as <- _. by exists b.
Qed.
Section front.
Context (p : program) (Fp : front p) (f : func) (fd : fdata) (Hf : p_funcs p !! f = Some fd).
Lemma in_datas v t k : datas (vals fd) !! v = Some (t, k) → ∃ d, vals fd !! v = Some d ∧ v_ty d = t ∧ v_kind d = k.
Proof. unfold datas. rewrite lookup_fmap. intros H. apply fmap_Some in H as (d & H & E). injection E as -> ->. eauto. Qed.
Context (G Fn L B : gmap N string) (ps : list (string * aty)) (bbs l : list ablock)
  (Ho : in_order bbs l) (Hnd : NoDup (map b_name l)) (HB : distinct (map b_name l) B)
  (Hl : Forall2 (is_block G Fn L B (datas (vals fd)) (bb_params <$> blks fd)) (l_bbs (f_layout fd)) l)
  (He : Forall no_err_block bbs) (Hs : Forall block_shape bbs).
Lemma block_ends a : a ∈ l → ∃ body fin, b_stmts a = body ++ [fin] ∧ Forall (λ st, ¬ terminator st) body ∧ terminator fin.
Proof.
  intros Ha. destruct Ho as (entry & _ & H & _). destruct (proj1 (H a) Ha) as [Ha' _]. clear H. pose proof He as He'. pose proof Hs as Hs'. rewrite list.Forall_forall in He', Hs'.
  destruct (Hs' _ Ha') as (body & fin & E & H1 & [H2|H2]); [by exists body, fin|]. specialize (He' _ Ha'). unfold no_err_block in He'.
  rewrite E, Forall_app, Forall_singleton in He'. by destruct He'.
Qed.
Lemma at_block b is : (b, is) ∈ l_bbs (f_layout fd) → ∃ a, a ∈ l ∧ B !! b = Some (b_name a) ∧ Forall2 (is_stmt G Fn L B (datas (vals fd))) is (b_stmts a).
Proof.
  intros H. apply elem_of_list_lookup in H as [i Hi]. destruct (Forall2_lookup_l _ _ _ _ _ Hl Hi) as (a & Ha & H1 & _ & H2).
  exists a. split; [by eapply elem_of_list_lookup_2|]. done.
Qed.
Lemma of_block a : a ∈ l → ∃ b is, (b, is) ∈ l_bbs (f_layout fd) ∧ B !! b = Some (b_name a) ∧ Forall2 (is_stmt G Fn L B (datas (vals fd))) is (b_stmts a).
Proof.
  intros H. apply elem_of_list_lookup in H as [i Hi]. destruct (Forall2_lookup_r _ _ _ _ _ Hl Hi) as ([b is] & Ha & H1 & _ & H2).
  exists b, is. split; [by eapply elem_of_list_lookup_2|]. done.
Qed.
Lemma path_gets n a c : bpath bbs n a c → ∀ entry π b, head bbs = Some entry → reachable bbs entry a → a ∈ bbs → B !! b = Some (b_name a) → gets_to fd π b →
  ∃ π' b', B !! b' = Some (b_name c) ∧ gets_to fd π' b'.
Proof.
  induction 1 as [a|n a a' c Hsu Ha' _ IH]; intros entry π b Hh Hr Ha Hb Hπ; [by eauto|].
  assert (Hin : ∀ x, x ∈ bbs → reachable bbs entry x → x ∈ l).
  { destruct Ho as (entry' & Hh' & H & _). rewrite Hh in Hh'. injection Hh' as <-. intros x H1 H2. by apply H. }
  assert (Hr' : reachable bbs entry a').
  { destruct Hr as [m Hm]. exists (m + 1)%nat. clear -Hm Hsu Ha'. induction Hm as [a|m a b c H1 H2 H3 IH].
    - econstructor; [exact Hsu|done|constructor].
    - simpl. econstructor; [exact H1|done|by apply IH]. }
  destruct (of_block a (Hin _ Ha Hr)) as (b0 & is & Hi & Hb0 & Hst).
  assert (b0 = b) as -> by (by eapply (proj2 HB Hnd)).
  destruct Hsu as (body & fin & E & Hg). assert (Hla : list.last (b_stmts a) = Some fin) by (rewrite E; apply last_snoc).
  destruct (Forall2_last _ _ _ Hst _ Hla) as (v & Hv & Hfin). destruct (goes_target _ _ _ _ _ _ _ _ Hfin Hg) as (t & k & c' & Hk & Hc & HBc).
  apply in_datas in Hk as (d & Hd & _ & <-).
  eapply (IH entry (c' :: π) c'); [done|done|done|done|]. eapply gt_next; [exact Hπ|]. exists is, v, d. done.
Qed.
Lemma def_laid : laid fd.
Proof.
  constructor.
  - intros b is v d c Hb Hv Hd Hc. destruct (at_block _ _ Hb) as (a & Ha & _ & Hst).
    destruct (block_ends _ Ha) as (body & fin & E & Hbody & _). rewrite E in Hst.
    apply Forall2_app_inv_r in Hst as (is1 & is2 & H1 & H2 & ->). apply Forall2_cons_inv_r in H2 as (w & is3 & H2 & H3 & ->).
    apply Forall2_nil_inv_r in H3 as ->. rewrite last_snoc. f_equal.
    apply elem_of_app in Hv as [Hv|Hv]; [exfalso|by apply elem_of_list_singleton in Hv].
    apply elem_of_list_lookup in Hv as [j Hj]. destruct (Forall2_lookup_l _ _ _ _ _ H1 Hj) as (st & Hst & Hs1).
    rewrite list.Forall_forall in Hbody. apply (Hbody st); [by eapply elem_of_list_lookup_2|].
    eapply target_ends; [exact Hs1|unfold datas; by rewrite lookup_fmap, Hd|exact Hc].
  - intros b is v Hb Hv (d & Hd & Hty). destruct (at_block _ _ Hb) as (a & Ha & _ & Hst).
    destruct (block_ends _ Ha) as (body & fin & E & _ & Hfin). destruct (Forall2_last_l _ _ _ Hst _ Hv) as (st & Hla & t & k & Hk & H).
    rewrite E, last_snoc in Hla. injection Hla as <-. apply in_datas in Hk as (d' & Hd' & _ & <-). rewrite Hd in Hd'. injection Hd' as <-.
    pose proof (proj2 (fr_typed _ Fp) _ _ _ _ Hf Hd) as HT.
    destruct fin as [m e|x y|g args|x t1 ta e ea|t1 args|[x|]|]; try done.
    + destruct H as (w & b1 & b2 & vs1 & vs2 & Ek & _). rewrite Ek in HT. inversion HT. congruence.
    + destruct H as (b1 & vs & Ek & _). rewrite Ek in HT. inversion HT. congruence.
    + destruct H as (w & Ek & _). rewrite Ek in HT. inversion HT. congruence.
    + rewrite H in HT. inversion HT. congruence.
  - intros b Hb. apply elem_of_list_fmap in Hb as ([b' is] & -> & Hb). simpl. destruct (at_block _ _ Hb) as (a & Ha & HBb & _).
    destruct Ho as (entry & Hh & Hin & Hfi). pose proof Ha as [Hab [n Hn]]%Hin.
    assert (Hent : entry ∈ bbs) by (destruct bbs; [done|injection Hh as ->; by left]).
    destruct (first_named _ _ _ _ _ _ _ _ _ _ Hl Hfi) as (b0 & Hf0 & HB0).
    destruct (path_gets _ _ _ Hn entry [b0] b0) as (π & b1 & HB1 & Hπ).
    + done.
    + exists 0. constructor.
    + done.
    + done.
    + by constructor.
    + exists π. assert (b1 = b') as -> by (eapply (proj2 HB Hnd); [exact HB1|exact HBb]). done.
Qed.
End front.
Lemma front_laid p f fd : front p → p_funcs p !! f = Some fd → laid fd.
Proof.
  intros Fp Hf. destruct (fr_shape _ Fp) as (ts & (G & Fn & _ & HF & _) & He & Hs).
  pose proof (proj1 (fr_funcs _ Fp f) ltac:(by eexists)) as Hin. apply elem_of_list_lookup in Hin as [i Hi].
  destruct (Forall2_lookup_l _ _ _ _ _ HF Hi) as (t & Ht & fd' & Hf' & _ & Hfun). rewrite Hf in Hf'. injection Hf' as <-.
  apply elem_of_list_lookup_2, elem_of_list_filter in Ht as [_ Ht]. rewrite list.Forall_forall in He, Hs. specialize (He _ Ht). specialize (Hs _ Ht).
  destruct t as [|n ps r bbs|n ps r| |]; try done.
  - destruct Hfun as (_ & _ & _ & L & B & l & _ & H1 & H2 & _ & H3 & _ & H4). eapply def_laid; try done. apply Hs.
  - destruct Hfun as (_ & Hb & _). apply (fr_decl _ Fp _ _ Hf) in Hb.
    constructor; rewrite Hb; [intros ? ? ? ? ? H|intros ? ? ? H|intros ? H]; by apply elem_of_nil in H.
Qed.
