(** Programs of the front end are regular (C58). *)
From Coq Require Import Sorted Lia ZifyBool ZifyNat ZifyN.
From Verif Require Import Base IdModel TypeModel IrModel LayoutModel LayoutSpec LayoutProofs BuilderModel WorldModel
  LexerModel ParserModel ParserSpec FrontModel DriverModel DriverSpec UsesSpec
  DfgSpec WorldSpec TypingSpec SkelProofs ParamProofs HistoryProofs FrontShapeProofs DceModel DceSpec DceFrontProofs OrderProofs
  FlowSpec FaithSpec FaithFunProofs FaithTopProofs ScopeSpec ScopeProofs CompleteSpec CompleteProofs RawModel RawSpec.

(** What is known about the programs of the front end *)
Record front (p : program) : Prop := {
  fr_typed : well_typed p;
  fr_closed : no_dangling p;
  fr_users : use_lists_exact p;
  fr_gid : ∀ v, is_Some (p_values p !! v) → is_global_id v = true;
  fr_unnamed : ∀ v d, p_values p !! v = Some d → v ∉ p_inst_layout p → v_name d = None;
  fr_lid : ∀ f fd v, p_funcs p !! f = Some fd → is_Some (vals fd !! v) → (local_value_id_starts_from ≤ v)%N;
  fr_sep : separated p;
  fr_own : own_blocks p;
  fr_complete : complete p;
  fr_faithful : ∃ ts, faithful p ts;
  fr_good : ∃ n, ∀ f fd, p_funcs p !! f = Some fd → good n (λ _, False) (skm (vals fd)) (pbm (blks fd)) (f_layout fd);
  fr_sorted : StronglySorted N.lt (p_func_layout p);
  fr_funcs : ∀ f, is_Some (p_funcs p !! f) ↔ f ∈ p_func_layout p;
  fr_calls : ∀ f fd v d c args, p_funcs p !! f = Some fd → vals fd !! v = Some d →
    v_kind d = KCall c args → (c ≤ f)%N ∧ c ∈ p_func_layout p;
  fr_scoped : ∀ f fd, p_funcs p !! f = Some fd → scoped p fd;
  fr_shape : ∃ ts, faithful p ts ∧ Forall no_err_top ts ∧ Forall top_shape ts;
}.
Lemma read_front r p n b s ts s' : read_program r = (Rok p, n, b) → driver_new r = (Rok s, 0%N) → parses s ts s' →
  (foldr (λ t n, globals_in t + n) 0 ts < local_value_id_starts_from)%N → front p.
Proof.
  intros Hr Hd Hp Hg.
  destruct (read_consistent _ _ _ _ _ _ _ Hr Hd Hp Hg) as (HU & HD & HT).
  destruct (read_complete _ _ _ _ _ _ _ Hr Hd Hp Hg) as (HC & HO & A1).
  destruct (read_ex _ _ _ _ Hr) as (w & (_ & _ & Hex) & E).
  destruct (read_olds _ _ _ _ Hr) as (w' & Ho & E').
  destruct (read_apart _ _ _ _ _ _ _ Hr Hd Hp Hg) as [_ A2].
  constructor; [exact HT|exact HD|exact HU| | |exact A2| |exact HO|exact HC| | | | | | |].
  - intros v [d Hv]. by apply (A1 v d).
  - intros v d Hv. by apply (A1 v d).
  - exact (read_separated _ _ _ _ _ _ _ Hr Hd Hp Hg).
  - exists ts. exact (read_faithful _ _ _ _ _ _ _ Hr Hd Hp Hg).
  - eexists. intros f fd Hf. rewrite <- E in Hf. exact (Hex f fd Hf).
  - rewrite <- E'. apply Ho.
  - rewrite <- E'. apply Ho.
  - rewrite <- E'. apply Ho.
  - exact (read_scoped _ _ _ _ _ _ _ Hr Hd Hp Hg).
  - exists ts. split; [exact (read_faithful _ _ _ _ _ _ _ Hr Hd Hp Hg)|].
    destruct (read_builds _ _ _ _ _ _ _ Hr Hd Hp) as (_ & _ & He & Hs). by split.
Qed.

(** ** Constants *)
Lemma const_parts D r i : const_is D r i → ∀ u, part_of D r u → ∃ j, const_is D u j.
Proof.
  intros H u Hp. revert i H. induction Hp as [v|v t vs e u Hv He _ IH]; intros i H; [by exists i|].
  inversion H as [v' t' z E|v' t' E|v' t' E|v' t' vs' l E Hl]; subst; rewrite Hv in E; try done. injection E as <- <-.
  apply elem_of_list_lookup in He as [j Hj]. destruct (Forall2_lookup_l _ _ _ _ _ Hl Hj) as (i & _ & Hi). by apply (IH i).
Qed.
Lemma const_kind_is m v i : const_is (datas m) v i → ∃ d, m !! v = Some d ∧ is_const (v_kind d) = true.
Proof.
  intros H. assert (∃ t k, datas m !! v = Some (t, k) ∧ is_const k = true) as (t & k & E & Hk) by (inversion H; eauto).
  unfold datas in E. rewrite lookup_fmap in E. apply fmap_Some in E as (d & Hd & E). injection E as -> ->. by exists d.
Qed.
Section stmts.
Context (G Fn L B : gmap N string) (D : gmap N (ty * vkind)).
Definition known (r : value) : Prop := (∃ n, is_called G L r n) ∨ ∃ i, const_is D r i.
Lemma known_val v a : is_val G L D v a → known v.
Proof. destruct a; simpl; intros H; [left|right..]; eauto. Qed.
Lemma known_args vs args : is_args G L D vs args → ∀ r, r ∈ vs → known r.
Proof.
  intros (l & rest & _ & H) r Hr. apply elem_of_list_lookup in Hr as [j Hj].
  destruct (Forall2_lookup_l _ _ _ _ _ H Hj) as (a & _ & Ha). by eapply known_val.
Qed.
Lemma stmt_operands v st t k : is_stmt G Fn L B D v st → D !! v = Some (t, k) → ∀ r, r ∈ operands k → known r.
Proof.
  intros (t' & k' & Hv & H) Hv' r. rewrite Hv in Hv'. injection Hv' as -> ->. clear Hv.
  assert (Hsym : ∀ w n, is_called G L w n → known w) by (intros; left; eauto).
  destruct st as [n e|x d|c args|c b1 ta b2 ea|b args|[a|]|]; simpl in H.
  - destruct H as (_ & _ & H). destruct e; simpl in H.
    + destruct H as [-> _]. simpl. by intros ?%elem_of_nil.
    + destruct H as (w & -> & H). simpl. intros ->%elem_of_list_singleton. eauto.
    + destruct H as (w & w' & -> & H1 & H2). simpl. intros [-> | ->%elem_of_list_singleton]%elem_of_cons; eauto using known_val.
    + destruct H as (w & w' & -> & H1 & H2). simpl. intros [-> | ->%elem_of_list_singleton]%elem_of_cons; eauto using known_val.
    + destruct H as (w & w' & -> & H1 & H2). simpl. intros [-> | ->%elem_of_list_singleton]%elem_of_cons; eauto using known_val.
    + destruct H as (w & vs & -> & H1 & H2). simpl. by eapply known_args.
  - destruct H as (w & w' & -> & H1 & H2). simpl. intros [-> | ->%elem_of_list_singleton]%elem_of_cons; [|eauto].
    destruct x; simpl in H1; [eauto|right; eauto].
  - destruct H as (w & vs & -> & H1 & H2). simpl. by eapply known_args.
  - destruct H as (w & c1 & c2 & vs1 & vs2 & -> & H1 & _ & H2 & _ & H3). simpl.
    intros [-> |[Hr|Hr]%elem_of_app]%elem_of_cons; eauto using known_val, known_args.
  - destruct H as (c & vs & -> & _ & H2). simpl. by eapply known_args.
  - destruct H as (w & -> & H1). simpl. intros ->%elem_of_list_singleton. by eapply known_val.
  - rewrite H. simpl. by intros ?%elem_of_nil.
  - done.
Qed.
End stmts.

Section front.
Context (p : program) (Fp : front p).
Lemma fr_local_id f fd v : p_funcs p !! f = Some fd → is_Some (vals fd !! v) → is_global_id v = false.
Proof. intros H1 H2. pose proof (fr_lid _ Fp _ _ _ H1 H2). unfold is_global_id. lia. Qed.
Lemma fr_is_inst f fd b is v : p_funcs p !! f = Some fd → (b, is) ∈ l_bbs (f_layout fd) → v ∈ is →
  ∃ d, vals fd !! v = Some d ∧ is_local_inst (v_kind d) = true.
Proof.
  intros Hf Hb Hv. destruct (fr_good _ Fp) as [n Hg]. destruct (Hg _ _ Hf) as [G1 G2 G3 G4 G5 G6 G7 G8 G9].
  destruct (proj1 (G2 v)) as (y & Hy & Hk); [left; exists b, is; done|].
  rewrite lookup_fmap in Hy. apply fmap_Some in Hy as (d & Hd & ->). by exists d.
Qed.
(** The constants of a function are trees of constants of the function. *)
Lemma fr_consts f fd u d : p_funcs p !! f = Some fd → vals fd !! u = Some d → is_const (v_kind d) = true →
  ∃ i, const_is (datas (vals fd)) u i.
Proof.
  intros Hf Hu Hk. destruct (cp_funcs _ (fr_complete _ Fp) _ _ Hf) as [Hl [C1 C2 C3 C4]].
  destruct (C2 u) as [H|b bd Hb H|b is Hb H|b is v vd q Hb Hv Hvd Hq Hp]; [by eauto|..].
  - destruct C3 as (ts & r & _ & C3 & C3'). destruct (decide (blks fd = ∅)) as [E|E].
    { rewrite (C3' E) in H. by apply elem_of_nil in H. }
    destruct (C3 E) as (_ & Hlen & Hn). apply elem_of_list_lookup in H as [j Hj].
    destruct (ts !! j) as [t|] eqn:Ht; [|apply lookup_lt_Some in Hj; apply lookup_ge_None in Ht; lia].
    specialize (Hn _ _ _ Hj Ht). unfold datas in Hn. rewrite lookup_fmap, Hu in Hn. injection Hn as _ E'. by rewrite E' in Hk.
  - destruct (C4 _ _ Hb) as (ts & _ & Hlen & Hn). apply elem_of_list_lookup in H as [j Hj].
    destruct (ts !! j) as [t|] eqn:Ht; [|apply lookup_lt_Some in Hj; apply lookup_ge_None in Ht; lia].
    specialize (Hn _ _ _ Hj Ht). unfold datas in Hn. rewrite lookup_fmap, Hu in Hn. injection Hn as _ E'. by rewrite E' in Hk.
  - destruct (fr_is_inst _ _ _ _ _ Hf Hb H) as (d' & Hd' & Hi). rewrite Hu in Hd'. injection Hd' as <-. by destruct (v_kind d).
  - destruct (fr_faithful _ Fp) as (ts & G & Fn & _ & HF & _).
    apply elem_of_list_lookup in Hl as [j Hj]. destruct (Forall2_lookup_l _ _ _ _ _ HF Hj) as (t & _ & fd' & Hfd' & _ & Ht).
    rewrite Hf in Hfd'. injection Hfd' as <-. destruct t; try done; simpl in Ht.
    2: { destruct Ht as (_ & _ & E & _). by rewrite E in Hu. }
    destruct Ht as (_ & _ & _ & L & B & l & [N1 N2 N3] & _ & _ & _ & _ & _ & HB).
    apply elem_of_list_lookup in Hb as [k' Hk']. destruct (Forall2_lookup_l _ _ _ _ _ HB Hk') as (ab & _ & _ & _ & HS).
    apply elem_of_list_lookup in Hv as [k1 Hk1]. destruct (Forall2_lookup_l _ _ _ _ _ HS Hk1) as (st & _ & Hst).
    eapply stmt_operands in Hst; [|unfold datas; by rewrite lookup_fmap, Hvd|exact Hq].
    destruct Hst as [[nm Hc]|[i Hi]]; [|by eapply const_parts]. exfalso.
    assert (q = u) as ->.
    { destruct Hp as [|q tq vs e u Hqv _ _]; [done|]. unfold datas in Hqv. rewrite lookup_fmap in Hqv.
      apply fmap_Some in Hqv as (e' & He' & E). unfold is_called in Hc. rewrite (fr_local_id _ _ _ Hf) in Hc by eauto.
      apply N1 in Hc as (_ & e2 & He2 & _ & Hk2 & _). rewrite He' in He2. injection He2 as <-. injection E as _ E. by rewrite <- E in Hk2. }
    unfold is_called in Hc. rewrite (fr_local_id _ _ _ Hf) in Hc by eauto.
    apply N1 in Hc as (_ & e2 & He2 & _ & Hk2 & _). rewrite Hu in He2. injection He2 as <-. congruence.
Qed.
Lemma fr_arg f fd v : p_funcs p !! f = Some fd → v ∈ f_params fd → ∃ d i, vals fd !! v = Some d ∧ v_kind d = KFuncArg i.
Proof.
  intros Hf H. destruct (cp_funcs _ (fr_complete _ Fp) _ _ Hf) as [Hl [C1 C2 C3 C4]].
  destruct C3 as (ts & r & _ & C3 & C3'). destruct (decide (blks fd = ∅)) as [E|E].
  { rewrite (C3' E) in H. by apply elem_of_nil in H. }
  destruct (C3 E) as (_ & Hlen & Hn). apply elem_of_list_lookup in H as [j Hj].
  destruct (ts !! j) as [t|] eqn:Ht; [|apply lookup_lt_Some in Hj; apply lookup_ge_None in Ht; lia].
  specialize (Hn _ _ _ Hj Ht). unfold datas in Hn. rewrite lookup_fmap in Hn. apply fmap_Some in Hn as (d & Hd & Ed).
  injection Ed as _ Ed. eauto.
Qed.
Lemma fr_param f fd b bd v : p_funcs p !! f = Some fd → blks fd !! b = Some bd → v ∈ bb_params bd →
  ∃ d i, vals fd !! v = Some d ∧ v_kind d = KBlockArg i.
Proof.
  intros Hf Hb H. destruct (cp_funcs _ (fr_complete _ Fp) _ _ Hf) as [Hl [C1 C2 C3 C4]].
  destruct (C4 _ _ Hb) as (ts & _ & Hlen & Hn). apply elem_of_list_lookup in H as [j Hj].
  destruct (ts !! j) as [t|] eqn:Ht; [|apply lookup_lt_Some in Hj; apply lookup_ge_None in Ht; lia].
  specialize (Hn _ _ _ Hj Ht). unfold datas in Hn. rewrite lookup_fmap in Hn. apply fmap_Some in Hn as (d & Hd & Ed).
  injection Ed as _ Ed. eauto.
Qed.
(** What a value of a function is *)
Lemma fr_values f fd u d : p_funcs p !! f = Some fd → vals fd !! u = Some d →
  (is_const (v_kind d) = true) ∨ (u ∈ f_params fd) ∨ (∃ b bd, blks fd !! b = Some bd ∧ u ∈ bb_params bd) ∨
  ∃ b is, (b, is) ∈ l_bbs (f_layout fd) ∧ u ∈ is.
Proof.
  intros Hf Hu. destruct (is_const (v_kind d)) eqn:Ek; [by left|right].
  destruct (fr_good _ Fp) as [n Hg]. destruct (Hg _ _ Hf) as [G1 G2 G3 G4 G5 G6 G7 G8 G9].
  destruct (cp_funcs _ (fr_complete _ Fp) _ _ Hf) as [Hl [C1 C2 C3 C4]].
  destruct (C2 u) as [H|b bd Hb H|b is Hb H|b is v vd q Hb Hv Hvd Hq Hp]; [by eauto|by left|by right; left; eauto|by right; right; eauto|].
  destruct (is_local_inst (v_kind d)) eqn:Ei.
  - destruct (proj2 (G2 u)) as [(c & is' & H1 & H2)|[]]; [exists (sk d); split; [by rewrite lookup_fmap, Hu|done]|]. right; right. eauto.
  - destruct (decide (q = u)) as [-> |Hne].
    2: { exfalso. assert (∃ i, const_is (datas (vals fd)) u i) as [i Hi].
         { destruct Hp as [|q tq vs e u Hqv He Hp]; [done|]. unfold datas in Hqv. rewrite lookup_fmap in Hqv.
           apply fmap_Some in Hqv as (e' & He' & E). injection E as _ E.
           destruct (fr_consts _ _ _ _ Hf He') as [i Hi]; [by rewrite <- E|].
           eapply const_parts; [exact Hi|]. eapply po_elem; [unfold datas; rewrite lookup_fmap, He'; simpl; by rewrite <- E|done|done]. }
         apply const_kind_is in Hi as (d' & Hd' & Hk'). rewrite Hu in Hd'. injection Hd' as <-. congruence. }
    apply elem_of_list_split in Hb as (front & rest & Hlay). apply elem_of_list_split in Hv as (before & after & ->).
    destruct (fr_scoped _ Fp _ _ Hf) as [Hs _].
    destruct (Hs _ _ _ _ _ _ _ _ Hlay Hvd Hq) as [[H|(e & He & Hk)]|H].
    + exfalso. destruct (fr_faithful _ Fp) as (ts & G & Fn & HG & _). apply elem_of_list_lookup in H as [j Hj].
      destruct (Forall2_lookup_l _ _ _ _ _ HG Hj) as (t & _ & Ht). destruct t; try done. destruct Ht as (_ & d' & _ & _ & Hd' & _).
      pose proof (fr_gid _ Fp u (ex_intro _ _ Hd')). pose proof (fr_local_id _ _ u Hf (ex_intro _ _ Hu)). congruence.
    + exfalso. rewrite Hu in He. injection He as <-. congruence.
    + destruct H as [H|c cd _ _ Hc H|c is _ Hc H _|H _]; [by left|by right; left; eauto|right; right..].
      * exists c, is. split; [rewrite Hlay; apply elem_of_app; by left|done].
      * exists b, (before ++ v :: after). rewrite Hlay. split; [set_solver|set_solver].
Qed.
(** What a function uses *)
Lemma fr_uses f fd u v : p_funcs p !! f = Some fd → uses (vals fd) u v →
  v ∈ p_inst_layout p ∨ ∃ e, vals fd !! v = Some e ∧ (is_const (v_kind e) = true ∨ TypingSpec.is_param (v_kind e) = true ∨ v_ty e ≠ TUnit).
Proof.
  intros Hf (d & Hu & Hv). destruct (fr_values _ _ _ _ Hf Hu) as [Hk|[H|[(b & bd & Hb & H)|(b & is & Hb & H)]]].
  - destruct (fr_consts _ _ _ _ Hf Hu Hk) as [i Hi]. right.
    assert (∃ j, const_is (datas (vals fd)) v j) as [j Hj].
    { inversion Hi as [v' t' z E|v' t' E|v' t' E|v' t' vs' l E Hl]; subst; unfold datas in E; rewrite lookup_fmap, Hu in E; injection E as _ E; rewrite E in Hv; simpl in Hv;
        try (by apply elem_of_nil in Hv). apply elem_of_list_lookup in Hv as [j Hj].
      destruct (Forall2_lookup_l _ _ _ _ _ Hl Hj) as (i & _ & Hi'). by exists i. }
    apply const_kind_is in Hj as (e & He & Hk'). exists e. eauto.
  - destruct (fr_arg _ _ _ Hf H) as (d' & i & Hd' & E). rewrite Hu in Hd'. injection Hd' as <-. rewrite E in Hv. by apply elem_of_nil in Hv.
  - destruct (fr_param _ _ _ _ _ Hf Hb H) as (d' & i & Hd' & E). rewrite Hu in Hd'. injection Hd' as <-. rewrite E in Hv. by apply elem_of_nil in Hv.
  - apply elem_of_list_split in Hb as (front & rest & Hlay). apply elem_of_list_split in H as (before & after & ->).
    destruct (fr_scoped _ Fp _ _ Hf) as [Hs _].
    destruct (Hs _ _ _ _ _ _ _ _ Hlay Hu Hv) as [[H|(e & He & Hk)]|H]; [by left|right; eauto|right].
    destruct H as [H|c cd _ _ Hc H|c is _ Hc H (e & He & Ht)|H (e & He & Ht)]; [| |eauto..].
    + destruct (fr_arg _ _ _ Hf H) as (e & i & He & E). exists e. rewrite E. eauto.
    + destruct (fr_param _ _ _ _ _ Hf Hc H) as (e & i & He & E). exists e. rewrite E. eauto.
Qed.
Lemma fr_layout v : v ∈ p_inst_layout p → ∃ d i, p_values p !! v = Some d ∧ v_kind d = KGlobalAlloc i.
Proof.
  intros H. destruct (fr_faithful _ Fp) as (ts & G & Fn & HG & _). apply elem_of_list_lookup in H as [j Hj].
  destruct (Forall2_lookup_l _ _ _ _ _ HG Hj) as (t & _ & Ht). destruct t; try done. destruct Ht as (_ & d' & j' & _ & Hd' & E & _). eauto.
Qed.
Lemma numbered_are fd arg ps ts : numbered (datas (vals fd)) arg ps ts → params_are (vals fd) arg ps ts.
Proof.
  intros (_ & Hl & Hn). split; [done|]. intros j v t Hv Ht. specialize (Hn _ _ _ Hv Ht). unfold datas in Hn.
  rewrite lookup_fmap in Hn. apply fmap_Some in Hn as (d & Hd & E). injection E as -> ->. by exists d.
Qed.
Lemma fr_decl f fd : p_funcs p !! f = Some fd → blks fd = ∅ ↔ l_bbs (f_layout fd) = [].
Proof.
  intros Hf. destruct (cp_funcs _ (fr_complete _ Fp) _ _ Hf) as [Hl [C1 C2 C3 C4]]. split; intros E.
  - destruct (l_bbs (f_layout fd)) as [|[b is] l]; [done|]. destruct (proj2 (C1 b)) as [d Hd]; [by left|]. by rewrite E in Hd.
  - apply map_empty. intros b. apply eq_None_not_Some. intros Hb%C1. rewrite E in Hb. by apply elem_of_nil in Hb.
Qed.
Lemma front_regular : regular p.
Proof.
  destruct (fr_good _ Fp) as [n Hg].
  constructor.
  - apply Fp.
  - apply Fp.
  - apply Fp.
  - apply fr_local_id.
  - intros f f' fd fd' v Hf Hf' Hv Hv'. destruct (decide (f = f')) as [|Hne]; [done|].
    rewrite (sp_local _ (fr_sep _ Fp) _ _ _ _ _ Hf Hf' Hne Hv) in Hv'. by apply is_Some_None in Hv'.
  - apply Fp.
  - intros f fd v d i Hf Hv E. destruct (Hg _ _ Hf) as [G1 G2 G3 G4 G5 G6 G7 G8 G9]. apply (G9 v (v_ty d) i).
    rewrite lookup_fmap, Hv. simpl. unfold sk. by rewrite E.
  - intros v Hv. destruct (fr_layout v Hv) as (d & i & Hd & _). eauto.
  - intros f fd u v Hf Hu Hv. destruct (fr_uses _ _ _ _ Hf Hu) as [?|(e & He & _)]; [done|].
    rewrite (sp_global _ (fr_sep _ Fp) _ _ _ Hf Hv) in He. done.
  - intros f fd Hf. destruct (cp_funcs _ (fr_complete _ Fp) _ _ Hf) as [Hl [C1 C2 C3 C4]].
    destruct C3 as (ts & r & E & C3 & C3'). exists ts, r. split; [done|]. case_decide as Hd.
    + apply C3'. by apply (fr_decl _ _ Hf).
    + apply numbered_are, C3. by rewrite (fr_decl _ _ Hf).
  - intros f fd b d Hf Hb. destruct (cp_funcs _ (fr_complete _ Fp) _ _ Hf) as [Hl [C1 C2 C3 C4]].
    destruct (C4 _ _ Hb) as (ts & H). exists ts. by apply numbered_are.
  - intros f fd Hf. destruct (cp_funcs _ (fr_complete _ Fp) _ _ Hf) as [Hl [C1 C2 C3 C4]].
    destruct C3 as (ts & r & E & C3 & C3'). destruct (decide (blks fd = ∅)) as [Eb|Eb]; [rewrite (C3' Eb); constructor|apply (C3 Eb)].
  - intros f fd b d Hf Hb. destruct (cp_funcs _ (fr_complete _ Fp) _ _ Hf) as [Hl [C1 C2 C3 C4]].
    destruct (C4 _ _ Hb) as (ts & H). apply H.
  - intros f fd b b' d d' v Hf Hb Hb' Hv Hv'. destruct (Hg _ _ Hf) as [G1 G2 G3 G4 G5 G6 G7 G8 G9].
    eapply (G6 b (bb_params d) b' (bb_params d') v); rewrite ?lookup_fmap, ?Hb, ?Hb'; done.
  - intros f fd Hf. destruct (Hg _ _ Hf) as [G1 G2 G3 G4 G5 G6 G7 G8 G9]. apply G7.
  - intros f fd b Hf Hb. destruct (cp_funcs _ (fr_complete _ Fp) _ _ Hf) as [Hl [C1 C2 C3 C4]]. by apply C1.
  - intros f fd b b' is is' v Hf Hb Hb' Hv Hv'. destruct (Hg _ _ Hf) as [G1 G2 G3 G4 G5 G6 G7 G8 G9].
    eapply linv_unique; [exact G7|by exists is|by exists is'].
  - intros f fd b is v Hf Hb Hv. destruct (fr_is_inst _ _ _ _ _ Hf Hb Hv) as (d & Hd & _). eauto.
  - intros f fd u v d Hf Hu Hv. destruct (fr_uses _ _ _ _ Hf Hu) as [H|(e & He & H)].
    + destruct (fr_layout v H) as (e & i & He & _). rewrite (sp_global _ (fr_sep _ Fp) _ _ v Hf) in Hv by eauto. done.
    + rewrite Hv in He. injection He as <-. destruct (is_control (v_kind d)) eqn:Ec; [|done]. exfalso.
      pose proof (proj2 (fr_typed _ Fp) _ _ _ _ Hf Hv) as HT. destruct (v_kind d); try done; simpl in HT.
      * inversion HT. naive_solver.
      * inversion HT. naive_solver.
Qed.
End front.
