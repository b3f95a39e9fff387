(** A canonical text is what is printed for the program that it describes (C28). *)
From Coq Require Import Lia ZifyBool ZifyNat ZifyN.
From Verif Require Import Base IdModel TypeModel IrModel LayoutModel BuilderModel WorldModel TextModel NameModel LexerModel ParserModel ParserSpec
  DfgSpec FlowSpec PrintSpec TypingSpec FaithSpec FaithProofs FaithFunProofs RoundProofs LexerRunProofs KoopaModel CanonSpec TreeTextProofs CanonNameProofs.

(** ** The order of blocks *)
Lemma firsts_app seen a b : firsts seen (a ++ b) = firsts seen a ++ firsts (rev (firsts seen a) ++ seen) b.
Proof.
  revert seen. induction a as [|n a IH]; intros seen; [done|]. simpl. case_decide as Hd; [apply IH|].
  simpl. f_equal. rewrite IH. by rewrite <- app_assoc.
Qed.
Lemma firsts_in seen l n : n ∈ l → n ∈ seen ∨ n ∈ firsts seen l.
Proof.
  revert seen. induction l as [|x l IH]; intros seen; [by intros ?%elem_of_nil|].
  intros [-> |Hn]%elem_of_cons; simpl; case_decide as Hd; [by left|right; by left|by apply IH|].
  destruct (IH (x :: seen) Hn) as [[-> |?]%elem_of_cons|?]; [right; by left|by left|right; by right].
Qed.
Lemma ends_succ b t : succ b t → t ∈ ends_to b.
Proof.
  intros (body & fin & E & Hg). unfold ends_to. rewrite E, last_snoc.
  destruct fin; simpl in Hg; try done; [destruct Hg as [-> | ->]; [by left|right; by left]|subst; by left].
Qed.
Lemma order_unique bbs l : NoDup (map b_name l) → in_order bbs bbs → in_order bbs l → l = bbs.
Proof.
  intros Hnd (e & He & Hall & Hn1) (e' & He' & Hin & Hn2). rewrite He in He'. injection He' as <-.
  assert (Hsame : ∀ b, b ∈ l ↔ b ∈ bbs) by (intros b; rewrite Hin, (Hall b); naive_solver).
  assert (Huniq : ∀ b c, b ∈ l → c ∈ l → b_name b = b_name c → b = c).
  { intros b c Hb Hc E. apply elem_of_list_lookup in Hb as [i Hi], Hc as [j Hj].
    assert (i = j) as ->.
    { eapply NoDup_lookup; [exact Hnd| |]; [by rewrite list_lookup_fmap, Hi|]. rewrite list_lookup_fmap, Hj. simpl. by rewrite E. }
    congruence. }
  assert (Hnd1 : NoDup (map b_name bbs)).
  { rewrite Hn1. assert (forall seen x, NoDup (firsts seen x) ∧ ∀ n, n ∈ firsts seen x → n ∉ seen) as Hf; [|apply Hf].
    clear. intros seen x. revert seen. induction x as [|n x IH]; intros seen; simpl.
    { split; [constructor|by intros n ?%elem_of_nil]. }
    case_decide as Hd; [apply IH|]. destruct (IH (n :: seen)) as [H1 H2]. split.
    - constructor; [|done]. intros Hx. apply H2 in Hx. apply Hx. by left.
    - intros y [-> |Hy]%elem_of_cons; [done|]. intros Hs. apply (H2 y); [done|]. by right. }
  (* common prefixes *)
  assert (Hpre : ∀ k, k ≤ length l → take k l = take k bbs).
  { induction k as [|k IH]; intros Hk; [by rewrite !take_0|]. specialize (IH ltac:(lia)).
    destruct (lookup_lt_is_Some_2 l k ltac:(lia)) as [b Hb].
    assert (El : l = take k l ++ b :: drop (S k) l) by (symmetry; by apply take_drop_middle).
    set (q := take k l) in *.
    assert (Eb : bbs = q ++ drop k bbs) by (rewrite IH; symmetry; apply take_drop).
    set (F := firsts [] (b_name e :: concat (map ends_to q))).
    assert (P1 : ∃ r, map b_name l = F ++ r).
    { eexists. rewrite Hn2. rewrite El at 1. rewrite map_app, concat_app, app_comm_cons, firsts_app. reflexivity. }
    assert (P2 : ∃ r, map b_name bbs = F ++ r).
    { eexists. rewrite Hn1. rewrite Eb at 1. rewrite map_app, concat_app, app_comm_cons, firsts_app. reflexivity. }
    destruct P1 as [r1 P1], P2 as [r2 P2].
    assert (Hlen : length q = k) by (unfold q; rewrite take_length; lia).
    destruct (decide (k < length F)) as [Hlt|Hge].
    - destruct (lookup_lt_is_Some_2 F k Hlt) as [x Hx].
      assert (E1 : map b_name l !! k = Some x) by (rewrite P1; by apply lookup_app_l_Some).
      assert (E2 : map b_name bbs !! k = Some x) by (rewrite P2; by apply lookup_app_l_Some).
      change (map b_name l) with (b_name <$> l) in E1. rewrite list_lookup_fmap, Hb in E1. simpl in E1.
      change (map b_name bbs) with (b_name <$> bbs) in E2. rewrite list_lookup_fmap in E2. apply fmap_Some in E2 as (c & Hc & Ec).
      injection E1 as E1. assert (b = c) as <-.
      { apply Huniq; [by eapply elem_of_list_lookup_2|apply Hsame; by eapply elem_of_list_lookup_2|congruence]. }
      rewrite (take_S_r _ _ _ Hb), (take_S_r _ _ _ Hc). fold q. by rewrite <- IH.
    - (* all targets of [q] are in [q] *)
      exfalso. assert (HF : ∀ n, n ∈ F → n ∈ map b_name q).
      { intros n Hn. apply elem_of_list_lookup in Hn as [i Hi].
        assert (Hi' : map b_name l !! i = Some n) by (rewrite P1; by apply lookup_app_l_Some).
        apply lookup_lt_Some in Hi. rewrite El, map_app in Hi'. rewrite lookup_app_l in Hi' by (rewrite map_length; lia).
        by eapply elem_of_list_lookup_2. }
      assert (Hclosed : ∀ n a c, bpath bbs n a c → a ∈ q → c ∈ q).
      { clear -HF Hsame Huniq El. intros n a c H. induction H as [a|n a b0 c Hs Hb0 _ IH]; [done|]. intros Ha. apply IH.
        assert (Hx : b_name b0 ∈ map b_name q).
        { apply HF. unfold F. destruct (firsts_in [] (b_name e :: concat (map ends_to q)) (b_name b0)) as [?%elem_of_nil|?]; [|done..].
          right. apply elem_of_list_In, in_concat. exists (ends_to a).
          split; [apply in_map; by apply elem_of_list_In|apply elem_of_list_In; by apply ends_succ]. }
        apply elem_of_list_fmap in Hx as (y & Hy & Hyq). assert (b0 = y) as ->; [|done].
        apply Huniq; [by apply Hsame|rewrite El; apply elem_of_app; by left|done]. }
      assert (Hbq : b ∈ q).
      { apply elem_of_list_lookup_2 in Hb as Hbl. apply Hin in Hbl as [_ [n Hp]]. eapply Hclosed; [exact Hp|].
        assert (Hx : b_name e ∈ map b_name q).
        { apply HF. unfold F. simpl. left. }
        apply elem_of_list_fmap in Hx as (y & Hy & Hyq). assert (e = y) as ->; [|done].
        apply Huniq; [|rewrite El; apply elem_of_app; by left|done]. apply Hsame. destruct bbs; [done|]. injection He as <-. by left. }
      rewrite El, map_app in Hnd. apply list.NoDup_app in Hnd as (_ & Hnd & _). apply (Hnd (b_name b)); [|simpl; left].
      apply elem_of_list_fmap. by exists b. }
  specialize (Hpre (length l) ltac:(lia)). rewrite take_ge in Hpre by lia.
  assert (length bbs ≤ length l).
  { apply submseteq_length. apply NoDup_submseteq; [|intros b; apply Hsame].
    by apply NoDup_fmap_1 in Hnd1. }
  rewrite take_ge in Hpre; done.
Qed.

(** ** Every name of the text is that of something *)
Section askable.
Context (p : program) (fd : fdata) (G Fn L B : gmap N string) (N0 : named p fd G Fn L B).
Notation D := (datas (vals fd)).
Definition askable (o : occ) : Prop := (∃ r, asks p fd G Fn L B o r) ∧ ∀ n, o ≠ OGlobal n.
Lemma ak_called v n : is_called G L v n → askable (OVal n).
Proof.
  intros H. split; [|done]. pose proof H as H'. unfold is_called in H'. destruct (is_global_id v) eqn:E.
  - destruct (nd_globals _ _ _ _ _ _ N0 _ _ H') as (_ & d & i & Hd & _). eexists. simpl. exists v, d. split; [done|]. by rewrite E.
  - destruct (na_val _ _ _ (nd_names _ _ _ _ _ _ N0) _ _ H') as (_ & d & Hd & _). eexists. simpl. exists v, d. split; [done|]. by rewrite E.
Qed.
Lemma ak_local v n : L !! v = Some n → askable (OVal n).
Proof. intros H. apply (ak_called v). unfold is_called. destruct (na_val _ _ _ (nd_names _ _ _ _ _ _ N0) _ _ H) as (-> & _). done. Qed.
Lemma ak_val v a : is_val G L D v a → Forall askable (occ_val a).
Proof. destruct a; simpl; intros H; repeat constructor; by apply (ak_called v). Qed.
Lemma ak_vals vs l : Forall2 (is_val G L D) vs l → Forall askable (concat (map occ_val l)).
Proof. induction 1 as [|v a vs l H _ IH]; simpl; [constructor|]. apply list.Forall_app. split; [by eapply ak_val|done]. Qed.
Lemma ak_fun c f : Fn !! c = Some f → askable (OFun f).
Proof. intros H. split; [|done]. destruct (nd_funs _ _ _ _ _ _ N0 _ _ H) as [x Hx]. eexists. simpl. by exists c, x. Qed.
Lemma ak_blk b n : B !! b = Some n → askable (OBlk n).
Proof. intros H. split; [|done]. destruct (na_blk _ _ _ (nd_names _ _ _ _ _ _ N0) _ _ H) as [x Hx]. eexists. simpl. by exists b, x. Qed.
Lemma ak_stmt v st : is_stmt G Fn L B D v st → exact_at fd v st → Forall askable (occ_stmt st).
Proof.
  intros (t & k & Ht & Hst) Hx. unfold datas in Ht. rewrite lookup_fmap in Ht. apply fmap_Some in Ht as (d & Hd & E). injection E as -> ->.
  destruct (Hx _ Hd) as [He _].
  destruct st as [n e|x dst|f args|c t1 ta t2 fa|t1 a|[a|]|]; cbn [occ_stmt].
  - destruct Hst as (Hn & _ & Hexp). constructor; [by eapply ak_local|]. destruct e as [a|x|x i|x i|op l r|f args]; cbn [is_expr occ_expr] in *.
    + constructor.
    + destruct Hexp as (w & _ & Hw). constructor; [by eapply ak_called|constructor].
    + destruct Hexp as (w & u & _ & Hw & Hu). constructor; [by eapply ak_called|by eapply ak_val].
    + destruct Hexp as (w & u & _ & Hw & Hu). constructor; [by eapply ak_called|by eapply ak_val].
    + destruct Hexp as (w & u & _ & Hw & Hu). apply list.Forall_app. split; by eapply ak_val.
    + destruct Hexp as (c & vs & Hk & Hc & Ha). rewrite Hk in He. constructor; [by eapply ak_fun|]. eapply ak_vals, exact_args; done.
  - destruct Hst as (a & b & _ & Ha & Hb). destruct x as [n|i]; simpl in Ha; repeat constructor; by eapply ak_called.
  - destruct Hst as (c & vs & Hk & Hc & Ha). rewrite Hk in He. constructor; [by eapply ak_fun|]. eapply ak_vals, exact_args; done.
  - destruct Hst as (v0 & b1 & b2 & vs1 & vs2 & Hk & Hv & Hb1 & Ha1 & Hb2 & Ha2). rewrite Hk in He. destruct He as [He1 He2].
    rewrite !list.Forall_app, !list.Forall_cons. split_and!; [by eapply ak_val|by eapply ak_blk| |by eapply ak_blk|].
    + eapply ak_vals, exact_args; done.
    + eapply ak_vals, exact_args; done.
  - destruct Hst as (b & vs & Hk & Hb & Ha). rewrite Hk in He. constructor; [by eapply ak_blk|]. eapply ak_vals, exact_args; done.
  - destruct Hst as (w & _ & Hw). by eapply ak_val.
  - constructor.
  - done.
Qed.
Lemma ak_params c vs ps : Forall2 (is_param L D c) vs ps → Forall askable (occ_params ps).
Proof. induction 1 as [|v q vs l [H _] _ IH]; simpl; constructor; [by eapply ak_local|done]. Qed.
Lemma ak_blocks xs bs : Forall2 (is_block G Fn L B D (bb_params <$> blks fd)) xs bs → Forall2 (λ (x : bblock * list value) b, Forall2 (exact_at fd) x.2 (b_stmts b)) xs bs →
  Forall askable (concat (map occ_block bs)).
Proof.
  induction 1 as [|x b xs bs (Hb & (ps & _ & Hp) & Hs) _ IH]; intros Hx; [constructor|].
  inversion Hx as [|? ? ? ? Hx1 Hx2]; subst. cbn [map concat]. apply list.Forall_app. split; [|by apply IH].
  constructor; [by eapply ak_blk|]. apply list.Forall_app. split; [by eapply ak_params|].
  clear -Hs Hx1 N0. induction Hs as [|v st vs sts H _ IH]; [constructor|]. inversion Hx1; subst. simpl. apply list.Forall_app.
  split; [by eapply ak_stmt|by apply IH].
Qed.
End askable.

(** ** Numbers of arguments *)
Definition sig_of (p : program) (Fn : gmap N string) (ts : list atop) : Prop :=
  ∀ c f, Fn !! c = Some f → ∃ x n r us t, p_funcs p !! c = Some x ∧ f_ty x = TFun us t ∧ length us = n ∧ has_sig ts f n r ∧ denotes_ret r t.
Lemma exact_stmt p G Fn L B fd f ts bbs v st : well_typed p → p_funcs p !! f = Some fd → sig_of p Fn ts →
  (∀ b n, B !! b = Some n → ∃ blk ps, blk ∈ bbs ∧ b_name blk = n ∧ blks fd !! b = Some ps ∧ length (bb_params ps) = length (b_params blk)) →
  stmt_fits ts bbs st → is_stmt G Fn L B (datas (vals fd)) v st → exact_at fd v st.
Proof.
  intros [_ HT] Hf Hsig Hblk Hfit (t & k & Ht & Hst) d Hd. unfold datas in Ht. rewrite lookup_fmap, Hd in Ht. simpl in Ht. injection Ht as <- <-.
  specialize (HT _ _ _ _ Hf Hd).
  assert (Hcall : ∀ c vs g, v_kind d = KCall c vs → Fn !! c = Some g → ∃ n r, has_sig ts g n r ∧ length vs = n ∧ denotes_ret r (v_ty d)).
  { intros c vs g Hk Hc. rewrite Hk in HT. simpl in HT. inversion HT as [| | | | | | | | | | | | |? ? us ret Hfun Hargs| |]; subst.
    destruct (Hsig _ _ Hc) as (x & n & r & us' & t' & Hx & Hty & Hlen & Hs & Hr). simpl in Hfun. rewrite Hx in Hfun. simpl in Hfun.
    rewrite Hty in Hfun. injection Hfun as -> ->. exists n, r. split_and!; [done|by apply Forall2_length in Hargs; congruence|done]. }
  assert (Hgo : ∀ b n vs a, B !! b = Some n → args_match (local_env p fd) b vs →
    (∀ blk, blk ∈ bbs → b_name blk = n → length a = length (b_params blk)) → length vs = length (a : list aval)).
  { intros b n vs a Hb (ps & Hps & Hm) Hg. destruct (Hblk _ _ Hb) as (blk & bd & Hin & Hn & Hbd & Hlen).
    simpl in Hps. rewrite Hbd in Hps. injection Hps as <-. rewrite (Hg _ Hin Hn), <- Hlen. symmetry. by apply Forall2_length in Hm. }
  destruct st as [n e|x dst|g args|c t1 ta t2 fa|t1 a|[a|]|]; simpl in Hst, Hfit.
  - split; [|done]. destruct e as [| | | | |g args]; try done. destruct Hst as (_ & _ & c & vs & Hk & Hc & _). rewrite Hk.
    destruct (Hcall _ _ _ Hk Hc) as (n' & r & Hs & Hl & _). rewrite (Hfit _ _ Hs). done.
  - destruct Hst as (a & b & Hk & _). rewrite Hk in HT |- *. simpl in HT. inversion HT. done.
  - destruct Hst as (c & vs & Hk & Hc & _). destruct (Hcall _ _ _ Hk Hc) as (n' & r & Hs & Hl & Hr). destruct (Hfit _ _ Hs) as [Hf1 ->].
    rewrite Hk. split; [by rewrite Hf1|]. done.
  - destruct Hst as (v0 & b1 & b2 & vs1 & vs2 & Hk & _ & Hb1 & _ & Hb2 & _). rewrite Hk in HT |- *. simpl in HT. inversion HT; subst.
    destruct Hfit as [F1 F2]. split; [|done]. split; [eapply (Hgo b1)|eapply (Hgo b2)]; done.
  - destruct Hst as (b & vs & Hk & Hb & _). rewrite Hk in HT |- *. simpl in HT. inversion HT; subst. split; [|done]. by eapply Hgo.
  - destruct Hst as (w & Hk & _). rewrite Hk in HT |- *. simpl in HT. inversion HT. done.
  - rewrite Hst in HT |- *. simpl in HT. inversion HT. done.
  - done.
Qed.

(** ** Global variables *)
Lemma nrel_up G Fn L B m st : nrel G Fn ∅ ∅ m st → nrel G Fn L B m st.
Proof.
  intros []. constructor; try done.
  - etrans; [exact nr_vals|]. apply map_empty_subseteq.
  - etrans; [exact nr_blks|]. apply map_empty_subseteq.
Qed.
Lemma step_global p G Fn m st v n t i st' : nrel G Fn ∅ ∅ m st → global_is G (p_values p) v (TGlobal n t i) → init_fits t i →
  writes st (OGlobal n) st' →
  ∃ m', visit_global_inst p v m = (Rok (text_top (TGlobal n t i)), m') ∧ nrel G Fn ∅ ∅ m' (end_top st') ∧
    nm_in_func m' = nm_in_func m ∧ nm_gvars m' = <[v := n]> (nm_gvars m) ∧ nm_values m' = nm_values m ∧ nm_bbs m' = nm_bbs m.
Proof.
  intros R (Hv & d & init & e & Hd & Hk & Hkept & He & Hc & Hden & _) Hfit Hw. pose proof R as [].
  assert (Hvals : ∀ x, x ∉ wr_vals st).
  { intros x Hx. apply nr_wv in Hx as [w Hx]. apply (lookup_weaken _ _ _ _ Hx) in nr_vals. by rewrite lookup_empty in nr_vals. }
  assert (Hblks : ∀ x, x ∉ wr_blks st).
  { intros x Hx. apply nr_wb in Hx as [w Hx]. apply (lookup_weaken _ _ _ _ Hx) in nr_blks. by rewrite lookup_empty in nr_blks. }
  assert (Hnew : n ∉ wr_globals st) by (inversion Hw; subst; done).
  pose proof (unnamed _ _ _ _ _ nr_gvars Hv nr_wg Hnew) as Hun.
  assert (∃ m', p_value_name v d m = (Rok n, m') ∧ nrel G Fn ∅ ∅ m' (end_top st') ∧
    nm_in_func m' = nm_in_func m ∧ nm_gvars m' = <[v := n]> (nm_gvars m) ∧ nm_values m' = nm_values m ∧ nm_bbs m' = nm_bbs m) as (m' & H1 & H2).
  { unfold p_value_name, p_name, value_name. rewrite Hk. cbn [is_const is_global_alloc]. rewrite Hun.
    destruct Hkept as [Ht Ho]. inversion Hw; subst; simpl in *.
    - assert (Htmp : temporary (numbered k)).
      { rewrite numbered_temp. simpl. constructor; [by left|]. apply digits_percent, NameProofs.pretty_N_digits. }
      rewrite (Ht Htmp). simpl. rewrite nr_prefix, nr_next. eexists. split; [rewrite numbered_temp; reflexivity|].
      rewrite <- numbered_temp. split; [|done]. unfold end_top. constructor; simpl; try done.
      + by apply sub_insert.
      + by apply named_insert.
      + intros x. rewrite <- nr_wv. set_solver.
      + intros x. rewrite <- nr_wb. set_solver.
      + intros x. rewrite !elem_of_union, nr_names. set_solver.
      + intros x. rewrite nr_bnames. set_solver.
    - rewrite (Ho ltac:(done)). simpl. rewrite nr_prefix. rewrite next_fresh; [|rewrite nr_names; naive_solver]. simpl.
      eexists. split; [done|]. split; [|done]. unfold end_top. constructor; simpl; try done.
      + by apply sub_insert.
      + by apply named_insert.
      + intros x. rewrite <- nr_wv. set_solver.
      + intros x. rewrite <- nr_wb. set_solver.
      + intros x. rewrite !elem_of_union, nr_names. set_solver.
      + intros x. rewrite nr_bnames. set_solver. }
  exists m'. split; [|done]. unfold visit_global_inst. rewrite Hd. rewrite (mthen_ok _ _ _ d m) by done. rewrite Hk.
  rewrite He. rewrite (mthen_ok _ _ _ e m) by done. rewrite (mthen_ok _ _ _ _ _ H1).
  rewrite (mthen_ok _ _ _ (text_init i) m') by (by eapply p_const_text). unfold mok. cbn [text_top].
  by destruct (denotes_show _ _ (Hden Hfit)) as [-> _].
Qed.
Lemma step_globals p G Fn vs gs : Forall2 (global_is G (p_values p)) vs gs → ∀ m st st' ts, nrel G Fn ∅ ∅ m st → Forall (top_fits ts) gs →
  writes_tops st gs st' →
  ∃ m', p_map (visit_global_inst p) vs m = (Rok (map text_top gs), m') ∧ nrel G Fn ∅ ∅ m' st' ∧
    nm_in_func m' = nm_in_func m ∧ (∀ v, v ∈ vs → nm_gvars m' !! v = G !! v) ∧ nm_gvars m ⊆ nm_gvars m'.
Proof.
  induction 1 as [|v t vs gs Hv _ IH]; intros m st st' ts R Hfit Hw; inversion Hw; subst.
  { exists m. split_and!; try done. by intros v ?%elem_of_nil. }
  destruct t as [n a i| | | |]; try done. apply list.Forall_cons in Hfit as [Hf Hfit]. simpl in Hf.
  match goal with A : writes_all _ (occ_top _) _ |- _ => simpl in A; inversion A as [|? ? ? ? ? A1 A2]; subst; inversion A2; subst end.
  destruct (step_global _ _ _ _ _ _ _ _ _ _ R Hv Hf A1) as (m1 & E1 & R1 & I1 & G1 & V1 & B1).
  destruct (IH _ _ _ ts R1 Hfit ltac:(eassumption)) as (m2 & E2 & R2 & I2 & G2 & G3).
  exists m2. split; [|split_and!].
  - cbn [p_map]. by rewrite (mthen_ok _ _ _ _ _ E1), (mthen_ok _ _ _ _ _ E2).
  - done.
  - congruence.
  - intros w [-> |Hw']%elem_of_cons; [|by apply G2]. destruct Hv as (Hv & _). rewrite Hv.
    eapply lookup_weaken; [|exact G3]. rewrite G1. apply lookup_insert.
  - etrans; [|exact G3]. rewrite G1. apply insert_subseteq. destruct (nm_gvars m !! v) as [x|] eqn:Ex; [|done]. exfalso.
    pose proof R as []. inversion A1; subst; simpl in *.
    + assert (E : x = numbered k) by (destruct Hv as (Hv & _); apply (lookup_weaken _ _ _ _ Ex) in nr_gvars; congruence).
      match goal with A : numbered k ∉ _ |- _ => apply A, nr_wg end. exists v. by rewrite Ex, E.
    + assert (E : x = n) by (destruct Hv as (Hv & _); apply (lookup_weaken _ _ _ _ Ex) in nr_gvars; congruence).
      match goal with A : n ∉ G0 |- _ => apply A, nr_wg end. exists v. by rewrite Ex, E.
Qed.

(** ** Functions *)
(** Between two functions *)
Definition trel (G Fn : gmap N string) (m : nm) (st : written) : Prop :=
  nm_in_func m = false ∧ ∃ m', enter_func_scope m = Some m' ∧ nrel G Fn ∅ ∅ m' st ∧ (∀ v, nm_gvars m' !! v = G !! v) ∧ nm_in_func m' = true.
Lemma leave G Fn L B m st : nrel G Fn L B m st → nm_in_func m = true → (∀ v, nm_gvars m !! v = G !! v) →
  ∃ m', exit_func_scope m = Some m' ∧ trel G Fn m' (end_top st).
Proof.
  intros [] Hi Hg. unfold exit_func_scope. rewrite Hi. eexists. split; [done|]. split; [done|].
  unfold enter_func_scope. cbn [nm_in_func]. eexists. split; [done|]. split; [|done].
  unfold end_top. constructor; simpl; try done.
  - intros n. split; [by intros ?%elem_of_empty|]. intros [v Hv]. by rewrite lookup_empty in Hv.
  - intros n. split; [by intros ?%elem_of_empty|]. intros [v Hv]. by rewrite lookup_empty in Hv.
  - intros n. rewrite elem_of_difference, nr_names, elem_of_list_to_set.
    assert (Hx : n ∈ map snd (map_to_list (nm_values m)) ↔ n ∈ wr_vals st).
    { rewrite nr_wv. change (map snd) with (fmap (M := list) (@snd N string)). rewrite elem_of_list_fmap. split.
      - intros ([v x] & -> & Hv). exists v. by apply elem_of_map_to_list.
      - intros [v Hv]. exists (v, n). split; [done|]. by apply elem_of_map_to_list. }
    rewrite Hx. split; [|intros [?|[?|?%elem_of_empty]]; [|naive_solver|done]].
    + intros [[?|[?|?]] ?]; [by left|right; by left|done].
    + split; [by left|]. intros Hv. by apply nr_apart in Hv as [? _].
Qed.

Section funs.
Context (p : program) (G Fn : gmap N string) (ts : list atop).
Context (HT : well_typed p) (HGi : inj_names G) (HFi : inj_names Fn) (Hsig : sig_of p Fn ts)
  (HG : ∀ v n, G !! v = Some n → is_global_id v = true ∧ ∃ d i, p_values p !! v = Some d ∧ v_kind d = KGlobalAlloc i)
  (HGn : ∀ v n, G !! v = Some n → n ∈ gvars_of ts)
  (HFn : ∀ f n, Fn !! f = Some n → ∃ x, p_funcs p !! f = Some x ∧ f_name x = n)
  (Hloc : ∀ f fd v, p_funcs p !! f = Some fd → is_Some (vals fd !! v) → is_global_id v = false).

Lemma step_fun f fd t m st st' : p_funcs p !! f = Some fd → Fn !! f = Some (f_name fd) → fun_is G Fn fd t → top_fits ts t →
  trel G Fn m st → writes_all st (occ_top t) st' →
  ∃ m', (p_name_ enter_func_scope;; s <- visit_func p f fd;; p_name_ exit_func_scope;; mok s) m = (Rok (text_top t), m') ∧ trel G Fn m' (end_top st').
Proof.
  intros Hf Hn Ht Hfit (Hi & m1 & He & R & Hfull & Hi1) Hw.
  assert (Hfin : ∀ L B m2, visit_func p f fd m1 = (Rok (text_top t), m2) → nrel G Fn L B m2 st' → nm_in_func m2 = nm_in_func m1 →
    (∀ v, nm_gvars m2 !! v = G !! v) →
    ∃ m', (p_name_ enter_func_scope;; s <- visit_func p f fd;; p_name_ exit_func_scope;; mok s) m = (Rok (text_top t), m') ∧ trel G Fn m' (end_top st')).
  { intros L B m2 Hv R2 Hi2 Hg2. destruct (leave _ _ _ _ _ _ R2 ltac:(congruence) Hg2) as (m3 & H3 & T3). exists m3. split; [|done].
    rewrite (mthen_ok _ _ _ tt m1) by (unfold p_name_; by rewrite He). rewrite (mthen_ok _ _ _ _ _ Hv).
    rewrite (mthen_ok _ _ _ tt m3) by (unfold p_name_; by rewrite H3). done. }
  destruct t as [|n ps r bbs|n ps r| |]; try done.
  - destruct Ht as (En & Hne & (us & t & Hty & _ & Hr) & L & B & l & Hnames & Hord & Hnd & HL & HB & Hps & Hbs).
    destruct Hfit as (Hord' & Hnd' & Hng & Hfits).
    assert (l = bbs) as -> by (by apply (order_unique bbs l)).
    assert (HLi : inj_names L) by (intros v w x; by apply HL).
    assert (HBi : inj_names B) by (intros v w x; by apply HB).
    assert (HGL : ∀ v w n, G !! v = Some n → L !! w = Some n → False).
    { intros v w x Hv Hw'. apply HGn in Hv. destruct HL as [HL _]. apply HL in Hw'. by apply (Hng x). }
    assert (N0 : named p fd G Fn L B).
    { constructor; [intros ? Hx; exact (Hloc _ _ _ Hf Hx)|by apply names_nameable|done|]. intros g x Hg. destruct (HFn _ _ Hg) as (y & ? & _). eauto. }
    assert (Hblk : ∀ b x, B !! b = Some x → ∃ blk bd, blk ∈ bbs ∧ b_name blk = x ∧ blks fd !! b = Some bd ∧ length (bb_params bd) = length (b_params blk)).
    { intros b x Hb. destruct HB as [HB _]. pose proof (HB _ _ Hb) as Hin. apply elem_of_list_fmap in Hin as (blk & -> & Hin).
      apply elem_of_list_lookup in Hin as [i Hi']. destruct (Forall2_lookup_r _ _ _ _ _ Hbs Hi') as (y & _ & (Hy & (qs & Hq & Hpar) & _)).
      rewrite (HBi _ _ _ Hb Hy). rewrite lookup_fmap in Hq. apply fmap_Some in Hq as (bd & Hbd & ->).
      exists blk, bd. split_and!; [by eapply elem_of_list_lookup_2|done|done|by eapply Forall2_length]. }
    assert (Hex : Forall2 (λ (x : bblock * list value) b, Forall2 (exact_at fd) x.2 (b_stmts b)) (l_bbs (f_layout fd)) bbs).
    { apply Forall2_same_length_lookup. split; [by eapply Forall2_length|]. intros i x b Hx Hb.
      destruct (Forall2_lookup_lr _ _ _ _ _ _ Hbs Hx Hb) as (_ & _ & Hst).
      apply Forall2_same_length_lookup. split; [by eapply Forall2_length|]. intros j v s Hv Hs.
      pose proof (Forall2_lookup_lr _ _ _ _ _ _ Hst Hv Hs) as Hvs.
      eapply exact_stmt; [done|done|done|exact Hblk| |exact Hvs].
      eapply Hfits; [by eapply elem_of_list_lookup_2|by eapply elem_of_list_lookup_2]. }
    destruct (steps p fd G Fn L B HGi HFi HLi HBi HGL) with (st := st) (l := occ_top (TFunDef n ps r bbs)) (st' := st') (m := m1)
      as (m2 & S2 & R2 & G2 & I2); [|done|done|by apply nrel_up|done| |].
    { intros g x y Hx Hy. destruct (HFn _ _ Hy) as (z & Hz & <-). congruence. }
    { rewrite En in Hn. cbn [occ_top]. constructor; [by eapply (ak_fun p fd G Fn L B N0)|]. apply list.Forall_app. split; [by eapply (ak_params p fd G Fn L B N0)|].
      by eapply (ak_blocks p fd G Fn L B N0). }
    eapply Hfin; [|exact R2|done|done]. eapply t_fun_def; try done; [by rewrite <- En|eauto].
  - destruct Ht as (En & Hne & Hvs & us & t & Hty & Hps & Hr).
    assert (N0 : named p fd G Fn ∅ ∅).
    { constructor; [intros ? Hx; exact (Hloc _ _ _ Hf Hx)| |done|].
      - constructor; intros ? ? H; by rewrite lookup_empty in H.
      - intros g x Hg. destruct (HFn _ _ Hg) as (y & ? & _). eauto. }
    assert (Hemp : inj_names ∅) by (intros v w x H; by rewrite lookup_empty in H).
    destruct (steps p fd G Fn ∅ ∅ HGi HFi Hemp Hemp) with (st := st) (l := occ_top (TFunDecl n ps r)) (st' := st') (m := m1)
      as (m2 & S2 & R2 & G2 & I2); [|intros| |done|done|done| |].
    { intros v w x _ H. by rewrite lookup_empty in H. }
    { destruct (HFn _ _ H0) as (z & Hz & <-). congruence. }
    { constructor; [intros ? ? H; by rewrite lookup_empty in H| |intros ? ? H; by rewrite lookup_empty in H].
      intros v d Hd _. by rewrite Hvs in Hd. }
    { constructor; [|constructor]. rewrite En in Hn. by eapply (ak_fun p fd G Fn ∅ ∅ N0). }
    eapply Hfin; [|exact R2|done|done]. eapply t_fun_decl; try done; [by rewrite <- En|]. eauto.
Qed.
Lemma step_funs fs xs : Forall2 (λ f t, ∃ fd, p_funcs p !! f = Some fd ∧ Fn !! f = Some (f_name fd) ∧ fun_is G Fn fd t) fs xs →
  ∀ m st st', trel G Fn m st → Forall (top_fits ts) xs → writes_tops st xs st' →
  ∃ m', p_map (λ f, fd <- p_some (p_funcs p !! f);; p_name_ enter_func_scope;; s <- visit_func p f fd;; p_name_ exit_func_scope;; mok s) fs m =
    (Rok (map text_top xs), m').
Proof.
  induction 1 as [|f t fs xs (fd & Hf & Hn & Ht) _ IH]; intros m st st' T Hfit Hw; inversion Hw; subst; [by exists m|].
  apply list.Forall_cons in Hfit as [Hf1 Hfit].
  match goal with A : writes_all _ (occ_top _) _ |- _ => destruct (step_fun _ _ _ _ _ _ Hf Hn Ht Hf1 T A) as (m1 & E1 & T1) end.
  destruct (IH _ _ _ T1 Hfit ltac:(eassumption)) as (m2 & E2). exists m2. cbn [p_map].
  rewrite (mthen_ok _ _ _ (text_top t) m1).
  2: { rewrite Hf. by rewrite (mthen_ok _ _ _ fd m). }
  by rewrite (mthen_ok _ _ _ _ _ E2).
Qed.
End funs.

(** ** Programs *)
Lemma writes_tops_app gs fs : ∀ s s', writes_tops s (gs ++ fs) s' → ∃ s1, writes_tops s gs s1 ∧ writes_tops s1 fs s'.
Proof.
  induction gs as [|t gs IH]; intros s s' H; [eexists; split; [constructor|done]|].
  inversion H; subst. apply IH in H5 as (s2 & ? & ?). exists s2. split; [by econstructor|done].
Qed.
Lemma join_cat l : join l = cat l.
Proof. induction l as [|s l IH]; [done|]. simpl. by rewrite IH. Qed.
Lemma filter_globals gs fs : Forall wf_global gs → Forall wf_func fs → filter is_global_def (gs ++ fs) = gs ∧ filter is_fun_top (gs ++ fs) = fs.
Proof.
  intros Hg Hf. rewrite !list.filter_app. split.
  - assert (filter is_global_def fs = []) as ->.
    { induction Hf as [|t fs Ht _ IH]; [done|]. destruct t; try done; (rewrite filter_cons_False by (by simpl)); done. }
    rewrite app_nil_r. induction Hg as [|t gs Ht _ IH]; [done|]. destruct t; try done. rewrite filter_cons_True by done. by rewrite IH.
  - assert (filter is_fun_top gs = []) as ->.
    { induction Hg as [|t gs Ht _ IH]; [done|]. destruct t; try done; (rewrite filter_cons_False by (by simpl)); done. }
    rewrite app_nil_l. induction Hf as [|t fs Ht _ IH]; [done|]. destruct t; try done; rewrite filter_cons_True by done; by rewrite IH.
Qed.
Lemma canonical_prints p gs fs : canonical gs fs → well_typed p → faithful p (gs ++ fs) →
  (∀ f fd v, p_funcs p !! f = Some fd → is_Some (vals fd !! v) → is_global_id v = false) →
  print_program p = Rok (text_program gs fs).
Proof.
  intros (Wg & Wf & [s Hw] & Hfit) HT (G & Fn & Hg & Hf & HG & HF & HGi & HFi) Hloc.
  destruct (filter_globals gs fs Wg Wf) as [E1 E2]. rewrite E1 in Hg. rewrite E2 in Hf.
  apply writes_tops_app in Hw as (s1 & Hw1 & Hw2). pose proof Hfit as Hfit'. apply list.Forall_app in Hfit' as [Hfit1 Hfit2].
  assert (R0 : nrel G Fn ∅ ∅ nm0 written0).
  { constructor; simpl; try done; try apply map_empty_subseteq; intros n; try set_solver.
    all: split; [by intros ?%elem_of_empty|]; intros [v Hv]; by rewrite lookup_empty in Hv. }
  destruct (step_globals p G Fn _ _ Hg _ _ _ (gs ++ fs) R0 Hfit1 Hw1) as (m1 & P1 & R1 & I1 & G1 & _).
  assert (Hfull : ∀ v, nm_gvars m1 !! v = G !! v).
  { intros v. destruct (G !! v) as [n|] eqn:E.
    - rewrite G1; [done|]. by apply HG in E as [_ ?].
    - destruct (nm_gvars m1 !! v) as [n|] eqn:E'; [|done]. pose proof (lookup_weaken _ _ _ _ E' (nr_gvars _ _ _ _ _ _ R1)). congruence. }
  assert (T1 : trel G Fn m1 s1).
  { simpl in I1. split; [done|]. unfold enter_func_scope. rewrite I1. eexists. split; [done|]. split; [|done].
    destruct R1. constructor; simpl; try done.
    intros n. rewrite nr_wv. split; intros [v Hv].
    - apply (lookup_weaken _ _ _ _ Hv) in nr_vals. by rewrite lookup_empty in nr_vals.
    - by rewrite lookup_empty in Hv. }
  assert (HGv : ∀ v n, G !! v = Some n → is_global_id v = true ∧ ∃ d i, p_values p !! v = Some d ∧ v_kind d = KGlobalAlloc i).
  { intros v n Hv. destruct (HG _ _ Hv) as [Hid Hin]. split; [done|]. apply elem_of_list_lookup in Hin as [i Hi].
    destruct (Forall2_lookup_l _ _ _ _ _ Hg Hi) as (t & _ & Ht). destruct t; try done. destruct Ht as (_ & d & init & e & Hd & Hk & _). eauto. }
  assert (HGn : ∀ v n, G !! v = Some n → n ∈ gvars_of (gs ++ fs)).
  { intros v n Hv. destruct (HG _ _ Hv) as [_ Hin]. apply elem_of_list_lookup in Hin as [i Hi].
    destruct (Forall2_lookup_l _ _ _ _ _ Hg Hi) as (t & Hi' & Ht). destruct t as [n' a z| | | |]; try done. destruct Ht as (Hn & _).
    assert (n' = n) as -> by congruence. unfold gvars_of. apply elem_of_list_In, in_concat. exists [n]. split; [|by left].
    apply (in_map (λ t, match t with TGlobal n _ _ => [n] | _ => [] end) _ (TGlobal n a z)). apply elem_of_list_In, elem_of_app. left.
    by eapply elem_of_list_lookup_2. }
  assert (HFv : ∀ f n, Fn !! f = Some n → ∃ x t, p_funcs p !! f = Some x ∧ f_name x = n ∧ t ∈ fs ∧ fun_is G Fn x t).
  { intros f n Hn. apply HF in Hn as Hin. apply elem_of_list_lookup in Hin as [i Hi].
    destruct (Forall2_lookup_l _ _ _ _ _ Hf Hi) as (t & Hi' & fd & Hfd & Hfn & Ht). exists fd, t. split_and!; [done|congruence| |done].
    by eapply elem_of_list_lookup_2. }
  assert (Hsig : sig_of p Fn (gs ++ fs)).
  { intros c f Hc. destruct (HFv _ _ Hc) as (x & t & Hx & Hn & Hin & Ht). destruct t as [|n ps r bbs|n ps r| |]; try done.
    - destruct Ht as (En & _ & (us & u & Hty & Hus & Hr) & _). exists x, (length us), r, us, u. split_and!; try done.
      right. exists ps, bbs. split; [apply elem_of_app; right; by rewrite <- Hn, En|]. apply Forall2_length in Hus. by rewrite map_length in Hus.
    - destruct Ht as (En & _ & _ & us & u & Hty & Hus & Hr). exists x, (length us), r, us, u. split_and!; try done.
      left. exists ps. split; [apply elem_of_app; right; by rewrite <- Hn, En|]. by apply Forall2_length in Hus. }
  destruct (step_funs p G Fn (gs ++ fs) HT HGi HFi Hsig HGv HGn) with (fs := p_func_layout p) (xs := fs) (m := m1) (st := s1) (st' := s) as (m2 & P2); try done.
  { intros f n Hn. destruct (HFv _ _ Hn) as (x & _ & ? & ? & _). eauto. }
  unfold print_program, visit_program. rewrite (mthen_ok _ _ _ _ _ P1), (mthen_ok _ _ _ _ _ P2). unfold mok. simpl.
  unfold text_program. rewrite join_cat, join_blank_cat. f_equal. f_equal. f_equal.
  case_decide as Hdec.
  - rewrite Hdec in Hg. by inversion Hg.
  - destruct gs; [by inversion Hg; congruence|done].
Qed.
