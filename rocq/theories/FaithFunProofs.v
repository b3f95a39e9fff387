(** The front end builds what the text says (C48): blocks and functions. *)
From Coq Require Import Lia ZifyBool ZifyNat ZifyN.
From Verif Require Import Base IdModel TypeModel IrModel LayoutModel BuilderModel WorldModel
  LexerModel ParserModel ParserSpec FrontModel FrontProofs FlowSpec FlowProofs BlockListProofs
  CleanProofs BuildCleanProofs FunCleanProofs FlowBuildProofs DriverModel DriverSpec DriverProofs UsesSpec UsesProofs
  DfgSpec DfgProofs WorldSpec WorldProofs TypingSpec TypingProofs TypingHistory EqHistory SkelProofs ParamProofs HistoryProofs
  FaithSpec RoundProofs ViewProofs FaithProofs.

(** ** More names, more values *)
Section mono.
Context (G G' Fn Fn' L L' B B' : gmap N string) (D D' : gmap N (ty * vkind)).
Context (HG : G ⊆ G') (HF : Fn ⊆ Fn') (HL : L ⊆ L') (HB : B ⊆ B') (HD : D ⊆ D').
Lemma up_called v n : is_called G L v n → is_called G' L' v n.
Proof. unfold is_called. intros Hv. case_match; by eapply lookup_weaken. Qed.
Lemma up_val v a : is_val G L D v a → is_val G' L' D' v a.
Proof. destruct a; simpl; [apply up_called|by apply const_mono..]. Qed.
Lemma up_stored v a : is_stored G L D v a → is_stored G' L' D' v a.
Proof. destruct a; simpl; [apply up_called|by apply const_mono]. Qed.
Lemma up_args v a : is_args G L D v a → is_args G' L' D' v a.
Proof. intros (l & r & -> & H). exists l, r. split; [done|]. eapply Forall2_impl; [done|apply up_val]. Qed.
Lemma up_expr t k e : is_expr G Fn L D t k e → is_expr G' Fn' L' D' t k e.
Proof.
  pose proof up_called. pose proof up_val. pose proof up_args.
  assert (∀ c n, Fn !! c = Some n → Fn' !! c = Some n) by (intros; by eapply lookup_weaken).
  destruct e; simpl; naive_solver.
Qed.
Lemma up_stmt v st : is_stmt G Fn L B D v st → is_stmt G' Fn' L' B' D' v st.
Proof.
  pose proof up_called as U1. pose proof up_val as U2. pose proof up_args as U3. pose proof up_stored as U4.
  assert (∀ c n, Fn !! c = Some n → Fn' !! c = Some n) as U5 by (intros; by eapply lookup_weaken).
  assert (∀ c n, B !! c = Some n → B' !! c = Some n) as U6 by (intros; by eapply lookup_weaken).
  intros (t & k & Hk & H). exists t, k. split; [by eapply lookup_weaken|]. destruct st; try done.
  - destruct H as (? & ? & ?). split_and!; [by eapply lookup_weaken|done|by apply up_expr].
  - naive_solver.
  - naive_solver.
  - destruct H as (v0 & b1 & b2 & vs1 & vs2 & -> & ? & ? & ? & ? & ?). exists v0, b1, b2, vs1, vs2. split_and!; auto.
  - naive_solver.
  - destruct v0; naive_solver.
Qed.
Lemma up_param c v p : is_param L D c v p → is_param L' D' c v p.
Proof.
  intros (? & t & k & ? & ?). split; [by eapply lookup_weaken|]. exists t, k. split; [by eapply lookup_weaken|done].
Qed.
Lemma up_block P x b : is_block G Fn L B D P x b → is_block G' Fn' L' B' D' P x b.
Proof.
  intros (? & (ps & ? & ?) & ?). split; [by eapply lookup_weaken|]. split.
  - exists ps. split; [done|]. eapply Forall2_impl; [done|apply up_param].
  - eapply Forall2_impl; [done|apply up_stmt].
Qed.
End mono.

Lemma distinct_add ns L v n : L !! v = None → distinct ns L → distinct (ns ++ [n]) (<[v := n]> L).
Proof.
  intros Hv [H1 H2]. split.
  - intros w m [[<- <-]|[_ Hw]]%lookup_insert_Some; set_solver.
  - intros Hnd u w m Hu Hw. apply list.NoDup_app in Hnd as (Hnd & Hn & _).
    apply lookup_insert_Some in Hu as [[E1 E2]|[? Hu]]; apply lookup_insert_Some in Hw as [[E3 E4]|[? Hw]]; subst.
    + done.
    + apply H1 in Hw. exfalso. apply (Hn m); [done|]. by left.
    + apply H1 in Hu. exfalso. apply (Hn m); [done|]. by left.
    + by eapply H2.
Qed.

(** ** Steps of the builder inside a function *)
Record fstep (f : func) (G Fn B : gmap N string) (x : fview) (L : gmap N string) (s : bstate)
    (x' : fview) (L' : gmap N string) (s' : bstate) : Prop := {
  fs_fi : fi f G Fn x' L' B s';
  fs_L : L ⊆ L';
  fs_D : w_sk x ⊆ w_sk x';
  fs_only : only f x x' (b_world s) (b_world s');
  fs_same : w_fname x' = w_fname x ∧ w_fty x' = w_fty x ∧ w_pars x' = w_pars x ∧ w_bbs x' = w_bbs x;
  fs_bbs : ∀ n, bi_bb <$> b_bbs s' !! n = bi_bb <$> b_bbs s !! n;
  fs_gvars : b_gvars s' = b_gvars s;
  fs_gfuncs : b_gfuncs s' = b_gfuncs s;
}.
Lemma fs_refl f G Fn B x L s : fi f G Fn x L B s → fstep f G Fn B x L s x L s.
Proof. intros I. constructor; try done. apply only_refl, I. Qed.
Lemma fs_trans f G Fn B x L s y L1 s1 z L2 s2 : fstep f G Fn B x L s y L1 s1 → fstep f G Fn B y L1 s1 z L2 s2 →
  fstep f G Fn B x L s z L2 s2.
Proof.
  intros [A1 A2 A3 A4 A5 A6 A7 A8] [B1 B2 B3 B4 B5 B6 B7 B8]. constructor; try done; try (by etrans).
  - by eapply only_trans.
  - destruct A5 as (?&?&?&?), B5 as (?&?&?&?). split_and!; congruence.
  - intros n. by rewrite B6.
Qed.
Lemma fs_mv f G Fn B x L s m s' : fi f G Fn x L B s → mv f x s m s' → fstep f G Fn B x L s (set_wvals x m) L s'.
Proof.
  intros I M. pose proof (fi_mv _ _ _ _ _ _ _ _ _ I M). destruct M as [[w ->] A2 A5 A3 A4].
  constructor; try done. unfold w_sk. simpl. by apply sks_mono.
Qed.
Lemma fi_syms f G Fn x L B s q : fi f G Fn x L B s → fi f G Fn x L B (set_syms q s).
Proof. intros []. by constructor. Qed.
Lemma opt_name_if n : opt_name n = if is_temp n then None else Some n.
Proof. done. Qed.

Lemma faith_def f G Fn B x L bb r n e s v s' ns : fi f G Fn x L B s → distinct ns L →
  clean (gen_stmt f bb r (SDef n e)) s v s' →
  ∃ x' L', fstep f G Fn B x L s x' L' s' ∧ w_lay x' = w_lay x ∧ distinct (ns ++ [n]) L' ∧
    is_stmt G Fn L' B (w_sk x') v (SDef n e).
Proof.
  intros I Hd H. pose proof (room_clean 0 _ _ _ _ _ H (fi_room _ _ _ _ _ _ _ I)) as R.
  apply clean_stmt_def in H as (s1 & s2 & t & w & info & _ & _ & -> & H1 & H2 & Hu & Hw & Hb & ->).
  apply (fi_syms _ _ _ _ _ _ _ ({[n]} ∪ b_syms s)) in I.
  apply (faith_inst f G Fn L B x) in H1 as (t' & k & m & M & Hv & HL & Hg & K1 & K2 & He); [|done].
  pose proof (fs_mv _ _ _ _ _ _ _ _ _ I M) as S1. pose proof (fs_fi _ _ _ _ _ _ _ _ _ _ S1) as I1.
  apply clean_value_ty in H2 as [_ H2]. rewrite Hg in H2.
  assert (t' = t) as ->.
  { pose proof (fi_view _ _ _ _ _ _ _ I1) as Hf. rewrite lookup_fmap in Hf. apply fmap_Some in Hf as (fd & Hf & Ef).
    rewrite Hf in H2. simpl in H2. apply fmap_Some in H2 as (d & Hd' & ->).
    apply (f_equal w_vals) in Ef. simpl in Ef. subst m. rewrite lookup_fmap in Hv.
    rewrite Hd' in Hv. by injection Hv. }
  set (m' := <[v := (opt_name n, (t, k))]> m).
  assert (O : only f (set_wvals x m) (set_wvals x m') (b_world s2) w).
  { destruct (is_temp n) eqn:E.
    - subst w. replace m' with m; [apply only_refl, I1|]. unfold m'. rewrite insert_id; [done|].
      by rewrite opt_name_if, E.
    - apply view_name_local in Hw as (y & z & O & Hz). pose proof (proj1 O) as Hy. rewrite (fi_view _ _ _ _ _ _ _ I1) in Hy.
      injection Hy as <-. simpl in *. rewrite Hv in Hz. injection Hz as <-. unfold m'. rewrite opt_name_if, E. done. }
  assert (Hsk : w_sk (set_wvals x m') = sks m).
  { unfold w_sk, m'. simpl. rewrite fmap_insert. apply insert_id. by rewrite lookup_fmap, Hv. }
  exists (set_wvals x m'), (<[v := n]> L). split_and!; [|done|by apply distinct_add|].
  - destruct S1 as [A1 A2 A3 A4 A5 A6 A7 A8]. constructor; try done.
    + constructor; simpl.
      * by eapply only_after.
      * done.
      * apply I1.
      * apply I1.
      * intros b n' v' (i & Hi & Hn). apply lookup_insert_Some in Hi as [[<- <-]|[Hne Hi]]; simpl in Hn.
        -- apply lookup_insert_Some in Hn as [[<- <-]|[_ Hn]]; [by rewrite lookup_insert|].
           assert (L !! v' = Some n') by (apply (fi_defs _ _ _ _ _ _ _ I1 bb); by exists info).
           rewrite lookup_insert_ne; [done|]. intros <-. congruence.
        -- assert (L !! v' = Some n') by (apply (fi_defs _ _ _ _ _ _ _ I1 b); by exists i).
           rewrite lookup_insert_ne; [done|]. intros <-. congruence.
      * intros n' i Hi. apply lookup_insert_Some in Hi as [[<- <-]|[Hne Hi]]; simpl; by eapply (fi_bbs _ _ _ _ _ _ _ I1).
      * intros v' n' Hv'. unfold m'. apply lookup_insert_Some in Hv' as [[<- <-]|[Hne Hv']].
        -- split; [done|]. exists t, k. by rewrite lookup_insert.
        -- rewrite lookup_insert_ne by done. by apply (fi_L _ _ _ _ _ _ _ I1).
      * apply I1.
      * intros u y Hy HLu. apply lookup_insert_None in HLu as [HLu Hne]. unfold m' in Hy. rewrite lookup_insert_ne in Hy by done.
        by apply (fi_unnamed _ _ _ _ _ _ _ I1 u).
    + by apply insert_subseteq.
    + by rewrite Hsk.
    + simpl. eapply only_trans; [exact A4|exact O].
    + intros n'. simpl. destruct (decide (n' = bb)) as [-> |Hne].
      * rewrite lookup_insert. simpl. rewrite <- A6, Hb. done.
      * by rewrite lookup_insert_ne.
  - rewrite Hsk. exists t, k. split; [by rewrite lookup_fmap, Hv|]. split; [by rewrite lookup_insert|].
    split; [by intros ->|]. eapply up_expr; [done|done| |done|exact He]. by apply insert_subseteq.
Qed.

Lemma set_bb_mid h vs vs' l1 l2 : h ∉ map fst l1 → set_bb h vs' (l1 ++ (h, vs) :: l2) = l1 ++ (h, vs') :: l2.
Proof.
  induction l1 as [|[c cs] l1 IH]; simpl; intros H; [by rewrite N.eqb_refl|].
  apply not_elem_of_cons in H as [H1 H2]. destruct (N.eqb_spec c h) as [-> |]; [done|]. by rewrite IH.
Qed.
Lemma find_bb_mid h vs l1 l2 : h ∉ map fst l1 → find_bb h (l1 ++ (h, vs) :: l2) = Some vs.
Proof.
  induction l1 as [|[c cs] l1 IH]; simpl; intros H; [by rewrite N.eqb_refl|].
  apply not_elem_of_cons in H as [H1 H2]. destruct (N.eqb_spec c h) as [-> |]; [done|]. by rewrite IH.
Qed.

Lemma faith_stmts f G Fn B nm r h l1 l2 sts : h ∉ map fst l1 → SErr ∉ sts → ∀ x L s vs0 u s' ns,
  fi f G Fn x L B s → distinct ns L → w_lay x = l1 ++ (h, vs0) :: l2 →
  bi_bb <$> b_bbs s !! nm = Some h →
  clean (b_each (λ st, b_ok (gen_stmt f nm r st) (push_step f nm)) sts) s u s' →
  ∃ x' L' vs, fstep f G Fn B x L s x' L' s' ∧ w_lay x' = l1 ++ (h, vs0 ++ vs) :: l2 ∧
    distinct (ns ++ concat (map stmt_defs sts)) L' ∧ Forall2 (is_stmt G Fn L' B (w_sk x')) vs sts.
Proof.
  intros Hh. induction sts as [|st sts IH]; intros Herr x L s vs0 u s' ns I Hd Hl Hb H; cbn [b_each] in H.
  { apply clean_mok in H as [_ ->]. exists x, L, []. rewrite !app_nil_r. split; [by apply fs_refl|]. done. }
  apply not_elem_of_cons in Herr as [E1 E2].
  cb H as u1 s1 H1. pose proof (fi_room _ _ _ _ _ _ _ I) as R.
  apply (room_clean 0 _ _ _ _ _ H1) in R.
  apply clean_block_step in H1 as [[? _]|(v & s2 & info & w & H1 & Hi & Hw & ->)]; [done|].
  assert (∃ y L1, fstep f G Fn B x L s y L1 s2 ∧ w_lay y = w_lay x ∧ distinct (ns ++ stmt_defs st) L1 ∧
    is_stmt G Fn L1 B (w_sk y) v st) as (y & L1 & S1 & Hy & Hd1 & Hst).
  { destruct (match st with SDef _ _ => true | _ => false end) eqn:Est.
    - destruct st as [n e| | | | | |]; try done. by eapply faith_def in H1.
    - eapply (faith_stmt f G Fn L B x) in H1 as (m & M & Hst); [|done|by intros n e ->].
      exists (set_wvals x m), L. split; [by apply fs_mv|]. split; [done|]. split; [|done].
      destruct st; try done; simpl; by rewrite app_nil_r. }
  pose proof (fs_fi _ _ _ _ _ _ _ _ _ _ S1) as I1.
  assert (bi_bb info = h) as Eh.
  { pose proof (fs_bbs _ _ _ _ _ _ _ _ _ _ S1 nm) as E. rewrite Hi, Hb in E. by injection E. }
  rewrite Eh in Hw. apply view_push_inst in Hw as (y' & is & O & His).
  pose proof (proj1 O) as Ey. rewrite (fi_view _ _ _ _ _ _ _ I1) in Ey. injection Ey as <-.
  rewrite Hy, Hl in O, His. rewrite find_bb_mid in His by done. injection His as <-. rewrite set_bb_mid in O by done.
  set (z := set_wlay y (l1 ++ (h, vs0 ++ [v]) :: l2)) in *.
  assert (S2 : fstep f G Fn B y L1 s2 z L1 (set_world w s2)).
  { constructor; try done. destruct I1 as [A1 A2 A3 A4 A5 A6 A7 A8 A9]. constructor; try done. by eapply only_after. }
  pose proof (fs_trans _ _ _ _ _ _ _ _ _ _ _ _ _ S1 S2) as S3.
  destruct (IH E2 z L1 (set_world w s2) (vs0 ++ [v]) u s' (ns ++ stmt_defs st)) as (x' & L' & vs & S4 & Hl' & Hd' & Hall); try done.
  { apply S2. }
  { simpl. rewrite <- Hb. apply S1. }
  exists x', L', (v :: vs). split; [by eapply fs_trans|]. split; [by rewrite Hl', <- app_assoc|].
  split; [simpl; by rewrite <- app_assoc in Hd'|]. constructor; [|done].
  eapply up_stmt; [done|done|apply S4|done| |exact Hst]. apply S4.
Qed.

(** ** The blocks of a function *)
Lemma faith_blocks f G Fn B r bl : ∀ l1 l2 x L s u s' ns,
  fi f G Fn x L B s → distinct ns L → w_lay x = l1 ++ l2 → map snd l2 = replicate (length l2) [] → NoDup (map fst (l1 ++ l2)) →
  (∀ b, b ∈ bl → SErr ∉ b_stmts b) →
  Forall2 (λ x b, bi_bb <$> b_bbs s !! b_name b = Some x.1) l2 bl →
  clean (b_each (build_block f r) bl) s u s' →
  ∃ x' L' l2', fstep f G Fn B x L s x' L' s' ∧ w_lay x' = l1 ++ l2' ∧
    distinct (ns ++ concat (map body_names bl)) L' ∧ map fst l2' = map fst l2 ∧
    Forall2 (λ x b, Forall2 (is_stmt G Fn L' B (w_sk x')) x.2 (b_stmts b)) l2' bl.
Proof.
  induction bl as [|b bl IH]; intros l1 l2 x L s u s' ns I Hd Hl Hnil Hnd Herr Hbs H; cbn [b_each] in H.
  { apply clean_mok in H as [_ ->]. apply Forall2_nil_inv_r in Hbs as ->. exists x, L, []. simpl. rewrite !app_nil_r. rewrite app_nil_r in Hl.
    split; [by apply fs_refl|]. done. }
  inversion Hbs as [|[h hs] ? l3 ? Hh Hbs' E1 E2]; subst. simpl in Hnil. injection Hnil as -> Hnil.
  cb H as u1 s1 H1. rewrite build_block_eq in H1.
  pose proof Hnd as Hnd'. rewrite map_app in Hnd'. apply list.NoDup_app in Hnd' as (N1 & N2 & N3).
  eapply (faith_stmts f G Fn B _ r h l1 l3) in H1 as (y & L1 & vs & S1 & Hy & Hd1 & Hst); try done.
  2: { intros Hin. apply (N2 _ Hin). by left. }
  2: { apply Herr. by left. }
  rewrite app_nil_l in Hy.
  destruct (IH (l1 ++ [(h, vs)]) l3 y L1 s1 u s' (ns ++ body_names b)) as (z & L2 & l4 & S2 & Hz & Hd2 & Hf & Hall); try done.
  { apply S1. }
  { by rewrite Hy, <- app_assoc. }
  { rewrite <- app_assoc, map_app. rewrite map_app in Hnd. exact Hnd. }
  { intros c Hc. apply Herr. by right. }
  { eapply Forall2_impl; [exact Hbs'|]. intros [? ?] c Hc. simpl in *. rewrite <- Hc. apply S1. }
  exists z, L2, ((h, vs) :: l4). split; [by eapply fs_trans|]. split; [by rewrite Hz, <- app_assoc|].
  split; [simpl; by rewrite <- app_assoc in Hd2|]. split; [simpl; by rewrite Hf|]. constructor; [|done]. simpl.
  eapply Forall2_impl; [exact Hst|]. intros. eapply up_stmt; [done|done|apply S2|done| |done]. apply S2.
Qed.

(** ** Creating the blocks *)
Lemma distinct_adds vs names : ∀ ns L, NoDup vs → (∀ v, v ∈ vs → L !! v = None) → length vs = length names →
  distinct ns L → ∃ L', L ⊆ L' ∧ distinct (ns ++ names) L' ∧ Forall2 (λ v n, L' !! v = Some n) vs names ∧
    ∀ v n, L' !! v = Some n → L !! v = Some n ∨ ∃ j : nat, vs !! j = Some v ∧ names !! j = Some n.
Proof.
  revert names. induction vs as [|v vs IH]; intros [|n names] ns L Hnd Hf Hl Hd; try done.
  { exists L. rewrite app_nil_r. split_and!; auto. }
  apply list.NoDup_cons in Hnd as [H1 H2]. injection Hl as Hl.
  destruct (IH names (ns ++ [n]) (<[v := n]> L)) as (L' & A1 & A2 & A3 & A4); try done.
  - intros w Hw. rewrite lookup_insert_ne by (intros ->; done). apply Hf. by right.
  - apply distinct_add; [|done]. apply Hf. by left.
  - rewrite <- app_assoc in A2. exists L'. split_and!; [|done| |].
    + etrans; [|exact A1]. apply insert_subseteq, Hf. by left.
    + constructor; [|done]. eapply lookup_weaken; [|exact A1]. by rewrite lookup_insert.
    + intros w k [Hw|(j & ? & ?)]%A4; [|right; by exists (S j)].
      apply lookup_insert_Some in Hw as [[<- <-]|[_ Hw]]; [right; by exists 0|by left].
Qed.
Record ienv (f : func) (G Fn : gmap N string) (x : fview) (L B : gmap N string) (s : bstate)
    (x' : fview) (L' B' : gmap N string) (s' : bstate) : Prop := {
  ie_fi : fi f G Fn x' L' B' s';
  ie_L : L ⊆ L';
  ie_B : B ⊆ B';
  ie_D : w_sk x ⊆ w_sk x';
  ie_P : w_bbs x ⊆ w_bbs x';
  ie_only : only f x x' (b_world s) (b_world s');
  ie_same : w_fname x' = w_fname x ∧ w_fty x' = w_fty x ∧ w_pars x' = w_pars x;
  ie_gvars : b_gvars s' = b_gvars s;
  ie_gfuncs : b_gfuncs s' = b_gfuncs s;
}.
Lemma ie_refl f G Fn B x L s : fi f G Fn x L B s → ienv f G Fn x L B s x L B s.
Proof. intros I. constructor; try done. apply only_refl, I. Qed.
Lemma ie_trans f G Fn x L B s y L1 B1 s1 z L2 B2 s2 : ienv f G Fn x L B s y L1 B1 s1 →
  ienv f G Fn y L1 B1 s1 z L2 B2 s2 → ienv f G Fn x L B s z L2 B2 s2.
Proof.
  intros [A1 A2 A3 A4 A5 A6 A7 A8 A9] [B1' B2' B3 B4 B5 B6 B7 B8 B9]. constructor; try done; try (by etrans).
  - by eapply only_trans.
  - destruct A7 as (?&?&?), B7 as (?&?&?). split_and!; congruence.
Qed.
Definition placed (x : fview) (L B : gmap N string) (y : bblock * list value) (b : ablock) : Prop :=
  B !! y.1 = Some (b_name b) ∧
  ∃ o ps, w_bbs x !! y.1 = Some (o, ps) ∧ Forall2 (is_param L (w_sk x) KBlockArg) ps (b_params b).
Lemma adds_views_sub m m' arg ps vs : adds_views m m' arg ps vs → m ⊆ m'.
Proof.
  intros (_ & _ & H1 & H2 & _). apply map_subseteq_spec. intros v d Hv. rewrite H2; [done|].
  intros [E _]%H1. congruence.
Qed.
Lemma faith_init_bb f G Fn x L B s b u s' ns bs : fi f G Fn x L B s → distinct ns L → distinct bs B →
  clean (init_bb f b) s u s' →
  ∃ x' L' B' h, ienv f G Fn x L B s x' L' B' s' ∧ distinct (ns ++ param_names b) L' ∧ distinct (bs ++ [b_name b]) B' ∧
    w_bbs x !! h = None ∧ w_lay x' = w_lay x ++ [(h, [])] ∧ placed x' L' B' (h, []) b ∧
    bi_bb <$> b_bbs s' !! b_name b = Some h ∧
    ∀ n, n ≠ b_name b → b_bbs s' !! n = b_bbs s !! n.
Proof.
  intros I Hd Hdb H. pose proof (room_clean 0 _ _ _ _ _ H (fi_room _ _ _ _ _ _ _ I)) as R.
  apply clean_init_bb in H as (ps & h & w1 & w2 & fd & bd & d & s1 & H1 & H2 & H3 & H4 & H5 & H6 & E & ->).
  apply clean_param_defs in H6 as (_ & _ & H6). apply gen_params_denote in H1.
  apply (view_new_bb 0) in H2 as (y & m & vs & O1 & Hh & Hadd); [|apply I].
  pose proof (proj1 O1) as Hy. rewrite (fi_view _ _ _ _ _ _ _ I) in Hy. injection Hy as <-.
  apply view_push_bb in H3 as (y & O2). pose proof (proj1 O2) as Hy. rewrite (only_after _ _ _ _ _ O1) in Hy. injection Hy as <-.
  pose proof (only_trans _ _ _ _ _ _ _ O1 O2) as O. clear O1 O2.
  pose proof (adds_views_sub _ _ _ _ _ Hadd) as Hsub. destruct Hadd as (V1 & V2 & V3 & V4 & V5).
  pose proof (only_after _ _ _ _ _ O) as Hf. rewrite lookup_fmap, H4 in Hf. apply (inj Some) in Hf as Ef.
  assert (bb_params bd = vs) as Ep.
  { apply (f_equal (λ x, w_bbs x !! h)) in Ef. simpl in Ef. rewrite lookup_insert, lookup_fmap, H5 in Ef.
    by injection Ef. }
  rewrite Ep in H6. clear Ef Hf H4 H5 Ep fd bd.
  assert (Hlen : length vs = length (param_names b)).
  { apply Forall2_length in H1. unfold param_names. rewrite map_length. lia. }
  destruct (distinct_adds vs (param_names b) ns L) as (L' & A1 & A2 & A3 & A4); try done.
  { intros v Hv. destruct (L !! v) eqn:EL; [|done]. apply (fi_L _ _ _ _ _ _ _ I) in EL as (_ & t & k & Hk & _).
    apply V3 in Hv as [Hv _]. congruence. }
  assert (HB : B !! h = None).
  { destruct (B !! h) eqn:EB; [|done]. apply (fi_B _ _ _ _ _ _ _ I) in EB as (q & Hq). congruence. }
  assert (HL : ∀ (j : nat) v n, vs !! j = Some v → param_names b !! j = Some n →
    ∃ t i, m !! v = Some (opt_name n, (t, KBlockArg i)) ∧ ∃ a, b_params b !! j = Some (n, a) ∧ denotes a t).
  { intros j v n Hv Hn. unfold param_names in Hn. rewrite list_lookup_fmap in Hn. apply fmap_Some in Hn as ([n' a] & Hp & ->).
    destruct (Forall2_lookup_l _ _ _ _ _ H1 Hp) as ([o t] & Hq & Eo & Ht). simpl in *. subst o.
    pose proof (V5 _ _ _ _ Hv Hq) as Hi. eexists t, _. split; [done|]. by exists a. }
  set (x' := set_wlay (set_wbbs (set_wvals x m) (<[h := (opt_name (b_name b), vs)]> (w_bbs x))) (w_lay x ++ [(h, [])])) in *.
  exists x', L', (<[h := b_name b]> B), h. split_and!.
  - constructor; try done.
    + rewrite E. constructor; simpl.
      * by eapply only_after.
      * rewrite E in R. done.
      * apply I.
      * apply I.
      * intros c n v (i & Hi & Hn). apply lookup_insert_Some in Hi as [[<- <-]|[Hne Hi]]; simpl in Hn.
        -- apply H6 in Hn as [Hn|[_ Hn]]; [|done]. apply elem_of_list_lookup in Hn as [j Hn].
           apply lookup_zip_with_Some in Hn as (n1 & v1 & [= <- <-] & Hn & Hv).
           destruct (Forall2_lookup_l _ _ _ _ _ A3 Hv) as (n2 & Hn2 & HL2). unfold param_names in Hn2. congruence.
        -- eapply lookup_weaken; [|exact A1]. apply (fi_defs _ _ _ _ _ _ _ I c). by exists i.
      * intros n i Hi. apply lookup_insert_Some in Hi as [[<- <-]|[Hne Hi]]; simpl; [by rewrite lookup_insert|].
        apply (fi_bbs _ _ _ _ _ _ _ I) in Hi. rewrite lookup_insert_ne; [done|]. intros Eh. congruence.
      * intros v n [Hv|(j & Hv & Hn)]%A4.
        -- apply (fi_L _ _ _ _ _ _ _ I) in Hv as (? & t & k & Hk & ?). split; [done|]. exists t, k. split; [|done].
           by eapply lookup_weaken.
        -- destruct (HL _ _ _ Hv Hn) as (t & i & Hm & _). split; [apply (V3 v); by eapply elem_of_list_lookup_2|].
           by exists t, (KBlockArg i).
      * intros c n Hc. apply lookup_insert_Some in Hc as [[<- <-]|[Hne Hc]]; [exists vs; by rewrite lookup_insert|].
        rewrite lookup_insert_ne by done. by apply (fi_B _ _ _ _ _ _ _ I).
      * intros v y Hy HLv. destruct (w_vals x !! v) as [y'|] eqn:Ev.
        -- assert (y' = y) as -> by (apply (lookup_weaken _ _ _ _ Ev) in Hsub; congruence).
           apply (fi_unnamed _ _ _ _ _ _ _ I v); [done|]. by eapply lookup_weaken_None.
        -- exfalso. destruct (decide (v ∈ vs)) as [Hv|Hv].
           ++ apply elem_of_list_lookup in Hv as [j Hv]. destruct (Forall2_lookup_l _ _ _ _ _ A3 Hv) as (n2 & _ & HL2). congruence.
           ++ rewrite V4 in Hy by done. congruence.
    + by apply insert_subseteq.
    + unfold w_sk. simpl. by apply sks_mono.
    + simpl. by apply insert_subseteq.
    + by rewrite E.
    + by rewrite E.
    + by rewrite E.
  - done.
  - by apply distinct_add.
  - done.
  - done.
  - split; [by rewrite lookup_insert|]. exists (opt_name (b_name b)), vs. split; [simpl; by rewrite lookup_insert|].
    apply Forall2_same_length_lookup. split; [rewrite Hlen; unfold param_names; by rewrite map_length|].
    intros j v [n a] Hv Hp. assert (param_names b !! j = Some n) as Hn by (unfold param_names; by rewrite list_lookup_fmap, Hp).
    destruct (HL _ _ _ Hv Hn) as (t & i & Hm & a' & Ha & Hden). rewrite Hp in Ha. injection Ha as <-.
    split; [|exists t, i; split; [|done]].
    + destruct (Forall2_lookup_l _ _ _ _ _ A3 Hv) as (n2 & Hn2 & HL2). simpl. congruence.
    + unfold w_sk. simpl. by rewrite lookup_fmap, Hm.
  - simpl. by rewrite lookup_insert.
  - intros n Hn. rewrite E. simpl. by rewrite lookup_insert_ne.
Qed.
Lemma placed_up x L B x' L' B' y b : L ⊆ L' → B ⊆ B' → w_sk x ⊆ w_sk x' → w_bbs x ⊆ w_bbs x' →
  placed x L B y b → placed x' L' B' y b.
Proof.
  intros HL HB HD HP (? & o & ps & ? & ?). split; [by eapply lookup_weaken|]. exists o, ps.
  split; [by eapply lookup_weaken|]. eapply Forall2_impl; [done|]. intros. by eapply up_param.
Qed.
Lemma faith_init_bbs f G Fn l : ∀ x L B s u s' ns bs, fi f G Fn x L B s → distinct ns L → distinct bs B →
  NoDup (map b_name l) → NoDup (map fst (w_lay x)) → (∀ h, h ∈ map fst (w_lay x) → is_Some (w_bbs x !! h)) →
  clean (b_each (init_bb f) l) s u s' →
  ∃ x' L' B' l2, ienv f G Fn x L B s x' L' B' s' ∧ distinct (ns ++ concat (map param_names l)) L' ∧
    distinct (bs ++ map b_name l) B' ∧ NoDup (map fst (w_lay x')) ∧ (∀ h, h ∈ map fst (w_lay x') → is_Some (w_bbs x' !! h)) ∧
    w_lay x' = w_lay x ++ l2 ∧ map snd l2 = replicate (length l2) [] ∧
    Forall2 (placed x' L' B') l2 l ∧ Forall2 (λ y b, bi_bb <$> b_bbs s' !! b_name b = Some y.1) l2 l ∧
    (∀ n, n ∉ map b_name l → b_bbs s' !! n = b_bbs s !! n).
Proof.
  induction l as [|b l IH]; intros x L B s u s' ns bs I Hd Hdb Hn Hk Hin H; cbn [b_each] in H.
  { apply clean_mok in H as [_ ->]. exists x, L, B, []. simpl. rewrite !app_nil_r. split; [by apply ie_refl|]. split_and!; try done. }
  simpl in Hn. apply list.NoDup_cons in Hn as [N1 N2]. cb H as u1 s1 H1.
  apply (faith_init_bb f G Fn x L B _ _ _ _ ns bs) in H1 as (y & L1 & B1 & h & E1 & D1 & D2 & Hh & Hl & Hp & Hb & Hs); try done.
  apply (IH y L1 B1 _ _ _ _ _ (ie_fi _ _ _ _ _ _ _ _ _ _ _ E1) D1 D2) in H as (z & L2 & B2 & l2 & E2 & D3 & D4 & K1 & K2 & Hz & Hnil & P1 & P2 & P3); try done.
  - exists z, L2, B2, ((h, []) :: l2). split; [by eapply ie_trans|]. split; [simpl; by rewrite app_assoc|].
    split; [by rewrite <- app_assoc in D4|]. split; [done|]. split; [done|].
    split; [by rewrite Hz, Hl, <- app_assoc|]. split; [simpl; by rewrite Hnil|]. split.
    + constructor; [|done]. destruct E2. by eapply placed_up.
    + split; [constructor; [|done]; rewrite P3 by done; done|].
      intros n Hn. simpl in Hn. apply not_elem_of_cons in Hn as [? ?]. rewrite P3 by done. by apply Hs.
  - rewrite Hl, map_app. simpl. apply list.NoDup_app. split_and!; [done| |apply NoDup_singleton].
    intros k Hk1 ->%elem_of_list_singleton. apply Hin in Hk1. rewrite Hh in Hk1. by apply is_Some_None in Hk1.
  - intros k. rewrite Hl, map_app. simpl. intros [Hk1|Hk1]%elem_of_app.
    + apply Hin in Hk1 as [d Hd1]. exists d. eapply lookup_weaken; [done|apply E1].
    + apply elem_of_list_singleton in Hk1 as ->. destruct Hp as (_ & o & ps & ? & _). eauto.
Qed.
Lemma fi_any_bbs f G Fn x L B s bbs q : fi f G Fn x L B s →
  (∀ b n v, defines bbs b n v → L !! v = Some n) → (∀ n i, bbs !! n = Some i → B !! bi_bb i = Some n) →
  fi f G Fn x L B (set_bbs bbs (set_syms q s)).
Proof. intros [] ? ?. by constructor. Qed.
Lemma faith_init_local f G Fn x L s args l u s' ns : fi f G Fn x L ∅ (set_bbs ∅ s) → distinct ns L → NoDup (map b_name l) →
  w_lay x = [] → (∀ n v, args !! n = Some v → L !! v = Some n) →
  clean (init_local_bbs f args l) s u s' →
  ∃ x' L' B, ienv f G Fn x L ∅ s x' L' B s' ∧ distinct (ns ++ concat (map param_names l)) L' ∧
    distinct (map b_name l) B ∧ NoDup (map fst (w_lay x')) ∧
    map snd (w_lay x') = replicate (length (w_lay x')) [] ∧
    Forall2 (placed x' L' B) (w_lay x') l ∧ Forall2 (λ y b, bi_bb <$> b_bbs s' !! b_name b = Some y.1) (w_lay x') l.
Proof.
  rewrite init_local_eq. intros I0 Hd Hn Hl Ha H.
  cb H as u1 s1 H1. apply clean_upd in H1 as ->. cb H as u2 s2 H2.
  apply (faith_init_bbs f G Fn l x L ∅ _ _ _ ns [] I0) in H2 as (y & L' & B & l2 & E & D1 & D2 & K1 & K2 & Hy & Hnil & P1 & P2 & P3); try done.
  2: { rewrite Hl. constructor. }
  2: { rewrite Hl. intros h ?%elem_of_nil. done. }
  rewrite Hl in Hy. simpl in Hy. subst l2.
  cb H as u3 s3 H3. apply clean_upd in H3 as ->.
  cb H as e s4 H4. apply clean_some in H4 as [He ->]. cb H as u5 s5 H5. apply linked_steps in H as (L1 & L2 & _ & _).
  apply clean_entry_step in H5 as (info & Hi & ->). simpl in *.
  set (B0 := <[b_name e := BbInfo (bi_bb info) (bi_preds info) args]> (b_bbs s2)) in *.
  destruct E as [E1 E2 E3 E4 E5 E6 E7 E8 E9].
  assert (Hh : ∀ n, bi_bb <$> b_bbs s' !! n = bi_bb <$> b_bbs s2 !! n).
  { intros n. specialize (L2 n). transitivity (bi_bb <$> B0 !! n).
    - destruct (B0 !! n) as [i1|], (b_bbs s' !! n) as [i2|]; simpl in *; try done. by injection L2 as -> _.
    - unfold B0. destruct (decide (n = b_name e)) as [-> |Hne]; [by rewrite lookup_insert, Hi|by rewrite lookup_insert_ne]. }
  exists y, L', B. split_and!; try done.
  - constructor; try done.
    + rewrite L1. simpl. apply fi_any_bbs.
      * done.
      * intros b n v (i & Hb & Hv). specialize (L2 b).
        assert (∃ j, B0 !! b = Some j ∧ bi_defs j = bi_defs i) as (j & Hj & Ej).
        { rewrite Hb in L2. destruct (B0 !! b) as [j|]; [|done]. simpl in L2. exists j. split; [done|]. congruence. }
        rewrite <- Ej in Hv. unfold B0 in Hj. apply lookup_insert_Some in Hj as [[<- <-]|[_ Hj]].
        -- simpl in Hv. eapply lookup_weaken; [by apply Ha|done].
        -- apply (fi_defs _ _ _ _ _ _ _ E1 b). by exists j.
      * intros n i Hni. specialize (Hh n). rewrite Hni in Hh. destruct (b_bbs s2 !! n) as [j|] eqn:Hj; [|done].
        simpl in Hh. injection Hh as ->. by apply (fi_bbs _ _ _ _ _ _ _ E1).
    + by rewrite L1.
    + by rewrite L1.
    + by rewrite L1.
  - eapply Forall2_impl; [exact P2|]. intros [? ?] b Hb. simpl in *. by rewrite Hh.
Qed.

(** ** The order of the blocks *)
Lemma targets_ends (b : ablock) ts : FrontModel.targets b = Some ts → ends_to b = ts.
Proof. unfold FrontModel.targets, ends_to. destruct (list.last (b_stmts b)) as [[]|]; simpl; try done; by intros [= <-]. Qed.
#[local] Instance up_add_targets e m l : Up (add_targets e m l).
Proof.
  induction l as [|t l IH]; simpl; [apply _|]. case_match; [apply _|]. case_decide; apply _.
Qed.
#[local] Instance up_bfs n e m q V : Up (bfs n e m q V).
Proof.
  revert q V. induction n as [|n IH]; intros q V; [by intros s|]. cbn [bfs]. destruct q as [|a q]; [apply _|].
  case_decide; [apply IH|]. apply up_bind; [apply _|]. intros b. apply up_bind; [apply _|]. intros ts.
  apply up_bind; [apply _|]. intros r. apply up_bind; [apply IH|]. intros [? ?]. apply _.
Qed.
Lemma clean_add_targets e m ts : ∀ s q s', clean (add_targets e m ts) s q s' → q = ts.
Proof.
  induction ts as [|t ts IH]; intros s q s' H; simpl in H; [by apply clean_mok in H as [-> _]|].
  destruct (String.eqb t e).
  { cb H as u s1 H1. by apply clean_log in H1. }
  case_decide as Hdec.
  - cb H as q' s1 H1. apply IH in H1 as ->. by apply clean_mok in H as [-> _].
  - cb H as u s1 H1. by apply clean_log in H1.
Qed.
#[local] Hint Extern 9 (Up _) => (cbn beta; case_match) : typeclass_instances.
Lemma clean_bfs e m n : (∀ k b, m !! k = Some b → b_name b = k) → ∀ q V s bs V' s' seen, clean (bfs n e m q V) s (bs, V') s' →
  (∀ k, k ∈ seen ↔ k ∈ V) → map b_name bs = firsts seen (q ++ concat (map ends_to bs)).
Proof.
  intros Hm. induction n as [|n IH]; intros q V s bs V' s' seen H Hs; [by destruct H|]. cbn [bfs] in H.
  destruct q as [|a q].
  { apply clean_mok in H as [E _]. injection E as -> _. done. }
  cbn [app firsts]. case_decide as HV.
  { rewrite decide_True by (by apply Hs). by eapply IH. }
  rewrite decide_False by (by rewrite Hs).
  cb H as b s1 H1. apply clean_some in H1 as [Hb ->]. cb H as ts s1 H1. apply clean_some in H1 as [Ht ->].
  cb H as r s1 H1. apply clean_add_targets in H1 as ->.
  destruct (clean_bind _ _ _ _ _ H) as ([bs1 V1] & s2 & H1 & H2). apply clean_mok in H2 as [E _]. injection E as -> ->.
  simpl. rewrite (Hm _ _ Hb). f_equal. rewrite (targets_ends _ _ Ht), app_assoc.
  eapply IH; [exact H1|]. intros k. rewrite elem_of_cons, elem_of_union, elem_of_singleton, Hs. done.
Qed.
#[local] Instance up_block_map l : ∀ m, Up (block_map l m).
Proof.
  induction l as [|b l IH]; intros m; simpl; [apply _|]. apply up_bind; [|intros _; apply IH]. case_decide; apply _.
Qed.
#[local] Instance up_warn n : Up (b_warn n).
Proof. by intros s. Qed.
Lemma clean_in_order bbs s l s' : clean (get_block_list bbs) s l s' → in_order bbs l.
Proof.
  intros H. pose proof (clean_block_list _ _ _ _ H) as (first & rest & n & -> & _ & Hnd & Hhd & _ & _ & Hr & _).
  exists first. split; [done|]. split.
  { intros b. rewrite Hr. split; [intros Hb; split; [|done]|by intros [_ ?]]. destruct Hb as [k Hk].
    eapply bpath_in; [|exact Hk]. by left. }
  unfold get_block_list in H. cb H as f0 s1 H1. apply clean_some in H1 as [E ->]. injection E as <-.
  cb H as m s1 H1. destruct H1 as [Em _].
  destruct (clean_bind _ _ _ _ _ H) as ([bs V] & s2 & H1 & H2).
  cb H2 as u s3 H3. apply clean_mok in H2 as [-> _].
  eapply (clean_bfs _ _ _ _ _ _ _ _ _ _ []) in H1; [exact H1|intros k; split; intros Hk; [by apply elem_of_nil in Hk|by apply elem_of_empty in Hk]].
  Unshelve. destruct (block_map_spec _ _ _ _ _ Em) as (_ & _ & _ & _ & M). intros k b Hk. apply M in Hk as [[_ ?]|Hk]; [done|].
  apply lookup_insert_Some in Hk as [[<- <-]|[_ Hk]]; done.
Qed.

(** ** Functions *)
(** [fun_is] for the view of a function that is defined *)
Record wfun (G Fn : gmap N string) (x : fview) (n : string) (ps : list (string * aty)) (r : option aty) (bbs : list ablock) : Prop := {
  wf_name : w_fname x = n;
  wf_some : w_bbs x ≠ ∅;
  wf_ty : ∃ ts t, w_fty x = TFun ts t ∧ Forall2 denotes (map snd ps) ts ∧ denotes_ret r t;
  wf_body : ∃ L B l, (∀ v y, w_vals x !! v = Some y → L !! v = None → y.1 = None) ∧
    (∀ v n, L !! v = Some n → is_global_id v = false ∧
      ∃ t k, w_vals x !! v = Some (opt_name n, (t, k)) ∧ is_const k = false ∧ is_global_alloc k = false) ∧
    (∀ b n, B !! b = Some n → ∃ ps, w_bbs x !! b = Some (opt_name n, ps)) ∧
    in_order bbs l ∧ NoDup (map b_name l) ∧ distinct (fun_names ps l) L ∧ distinct (map b_name l) B ∧
    Forall2 (is_param L (w_sk x) KFuncArg) (w_pars x) ps ∧
    Forall2 (is_block G Fn L B (w_sk x) (snd <$> w_bbs x)) (w_lay x) l;
}.
Lemma datas_vim m : datas m = sks (vim m).
Proof. unfold datas. rewrite <- map_fmap_compose. by apply map_fmap_ext. Qed.
Lemma params_bvm m : bb_params <$> (m : gmap N bbdata) = snd <$> bvm m.
Proof. rewrite <- map_fmap_compose. by apply map_fmap_ext. Qed.
Lemma wfun_fun_is G Fn fd n ps r bbs : wfun G Fn (fv fd) n ps r bbs → fun_is G Fn fd (TFunDef n ps r bbs).
Proof.
  intros [H1 H2 H3 (L & B & l & A0 & A1 & A2 & A3 & A4 & A5 & A6 & A7 & A8)]. simpl in *. split; [done|].
  split; [intros E; apply H2; rewrite E; apply fmap_empty|]. split; [done|]. exists L, B, l.
  split_and!; try done.
  - constructor.
    + intros v m Hv. apply A1 in Hv as (? & t & k & Hk & ? & ?). split; [done|]. rewrite lookup_fmap in Hk.
      apply fmap_Some in Hk as (d & Hd & E). injection E as E -> ->. exists d. split_and!; try done.
      rewrite <- E. apply kept_opt_name.
    + intros v d Hd HLv. apply (A0 v (v_name d, (v_ty d, v_kind d))); [|done]. by rewrite lookup_fmap, Hd.
    + intros b m Hb. apply A2 in Hb as (q & Hq). rewrite lookup_fmap in Hq.
      apply fmap_Some in Hq as (d & Hd & E). injection E as E ->. exists d. split; [done|]. rewrite <- E. apply kept_opt_name.
  - by rewrite datas_vim.
  - rewrite datas_vim, params_bvm. done.
Qed.
Lemma up_wfun G G' Fn Fn' x n ps r bbs : G ⊆ G' → Fn ⊆ Fn' → wfun G Fn x n ps r bbs → wfun G' Fn' x n ps r bbs.
Proof.
  intros HG HF [H1 H2 H3 (L & B & l & A0 & A1 & A2 & A3 & A4 & A5 & A6 & A7 & A8)]. constructor; try done.
  exists L, B, l. split_and!; try done. eapply Forall2_impl; [done|]. intros. by eapply up_block.
Qed.
Lemma faith_fun_def G Fn n ps r bbs s u s' : room 0 (b_world s) →
  (∀ n v, b_gvars s !! n = Some v → G !! v = Some n ∧ is_global_id v = true) →
  (∀ n c, b_gfuncs s !! n = Some c → Fn !! c = Some n) → (∀ c n, Fn !! c = Some n → is_Some (fvs (b_world s) !! c)) →
  (∀ b, b ∈ bbs → SErr ∉ b_stmts b) →
  clean (build_fun_def n ps r bbs) s u s' →
  ∃ f x, fvs (b_world s) !! f = None ∧ fvs (b_world s') = <[f := x]> (fvs (b_world s)) ∧
    gvs (b_world s') = gvs (b_world s) ∧
    p_inst_layout (w_prog (b_world s')) = p_inst_layout (w_prog (b_world s)) ∧
    p_func_layout (w_prog (b_world s')) = p_func_layout (w_prog (b_world s)) ++ [f] ∧
    b_gvars s' = b_gvars s ∧ b_gfuncs s' = <[n := f]> (b_gfuncs s) ∧ b_gfuncs s !! n = None ∧
    wfun G (<[f := n]> Fn) x n ps r bbs.
Proof.
  intros R HG HF HFn Herr H. pose proof (room_clean 0 _ _ _ _ _ H R) as R'.
  apply clean_fun_def in H as (ret & ps' & f & w1 & fd & args & l & k & s1 & H1 & H2 & H3 & H4 & H5 & H6 & H7 & H8 & H9 & H10).
  apply gen_ret_denotes in H1. apply gen_params_denote in H2.
  assert (R1 : room 0 w1).
  { apply (room_clean 0 (b_prog (w_new_func_def n ps' ret)) s f (set_world w1 s)); [apply _| |done].
    split; [|done]. unfold b_prog. by rewrite H3. }
  apply (view_new_def 0) in H3 as (m & vs & Hf & F1 & F2 & F3 & F4 & V1 & V2 & V3 & V4 & V5); [|done].
  assert (f_params fd = vs) as Ev.
  { apply (f_equal (lookup f)) in F1. rewrite lookup_insert, lookup_fmap, H4 in F1. apply (inj Some) in F1.
    by apply (f_equal w_pars) in F1. }
  rewrite Ev in H5. clear H4 Ev fd. apply clean_arg_map in H5 as (_ & _ & _ & H5).
  pose proof (clean_in_order _ _ _ _ H8) as Ho.
  destruct (clean_block_list _ _ _ _ H8) as (first & rest & k' & -> & _ & _ & Hhd & _ & Hnd & Hr & _).
  assert (Hlen : length vs = length (map fst ps)).
  { apply Forall2_length in H2. rewrite map_length. lia. }
  destruct (distinct_adds vs (map fst ps) [] ∅) as (L & A1 & A2 & A3 & A4); try done.
  set (x0 := FView n (TFun (map snd ps') ret) vs m ∅ []) in *.
  assert (HL : ∀ (j : nat) v n, vs !! j = Some v → map fst ps !! j = Some n →
    ∃ t i, m !! v = Some (opt_name n, (t, KFuncArg i)) ∧ ∃ a, ps !! j = Some (n, a) ∧ denotes a t).
  { intros j v n' Hv Hn. rewrite list_lookup_fmap in Hn. apply fmap_Some in Hn as ([n1 a] & Hp & ->).
    destruct (Forall2_lookup_l _ _ _ _ _ H2 Hp) as ([o t] & Hq & Eo & Ht). simpl in *. subst o.
    pose proof (V5 _ _ _ _ Hv Hq) as Hi. eexists t, _. split; [done|]. by exists a. }
  assert (HFf : Fn !! f = None).
  { destruct (Fn !! f) eqn:E; [|done]. apply HFn in E. rewrite Hf in E. by apply is_Some_None in E. }
  assert (I : fi f G (<[f := n]> Fn) x0 L ∅ (set_bbs ∅ (set_warns k (set_syms ∅ (set_gfuncs (<[n:=f]> (b_gfuncs s)) (set_world w1 s)))))).
  { constructor; simpl; try done.
    - by rewrite F1, lookup_insert.
    - intros n' c Hc. apply lookup_insert_Some in Hc as [[<- <-]|[_ Hc]]; [by rewrite lookup_insert|].
      apply HF in Hc. rewrite lookup_insert_ne; [done|]. intros <-. congruence.
    - by intros b n' v (i & Hi & _).
    - intros v n' Hv. apply A4 in Hv as [Hv|(j & Hv & Hn)]; [done|].
      destruct (HL _ _ _ Hv Hn) as (t & i & Hm & _). split; [apply (V3 v); by eapply elem_of_list_lookup_2|].
      by exists t, (KFuncArg i).
    - intros v y Hy HLv. exfalso. destruct (decide (v ∈ vs)) as [Hv|Hv].
      + apply elem_of_list_lookup in Hv as [j Hv]. destruct (Forall2_lookup_l _ _ _ _ _ A3 Hv) as (n2 & _ & HL2). congruence.
      + rewrite V4 in Hy by done. done. }
  eapply (faith_init_local _ _ _ _ _ _ _ _ _ _ (map fst ps) I) in H9 as (x1 & L1 & B & E & D1 & D2 & K1 & K2 & P1 & P2); try done.
  2: { intros n' v Hv. apply H5 in Hv as [Hv|Hv]; [|done]. apply elem_of_list_lookup in Hv as [j Hn].
       apply lookup_zip_with_Some in Hn as (n1 & v1 & [= <- <-] & Hn & Hv).
       destruct (Forall2_lookup_l _ _ _ _ _ A3 Hv) as (n2 & Hn2 & HL2). congruence. }
  eapply (faith_blocks _ _ _ _ ret l [] _ x1 L1) in H10 as (x2 & L2 & l2 & S & Hl2 & D3 & Hk & Hst); try done.
  2: apply E.
  2: { intros b Hb. apply Herr. apply Hr in Hb as [q Hq]. eapply bpath_in; [|exact Hq]. by left. }
  simpl in Hl2. exists f, x2. destruct E as [E1 E2 E3 E4 E5 E6 E7 E8 E9]. destruct S as [S1 S2 S3 S4 S5 S6 S7 S8].
  pose proof (only_trans _ _ _ _ _ _ _ E6 S4) as (_ & O1 & O2 & O3 & O4). simpl in *.
  split; [done|]. split; [rewrite O1, F1; apply insert_insert|]. split; [congruence|]. split; [congruence|].
  split; [congruence|]. split; [congruence|]. split; [by rewrite S8, E9|]. split; [done|].
  destruct E7 as (Q1 & Q2 & Q3), S5 as (T1 & T2 & T3 & T4).
  constructor; try (by rewrite T1, Q1).
  - intros E0. destruct l as [|b l]; [done|]. inversion P1 as [|y ? ? ? (_ & o & qs & Hq & _) _ Ey]; subst.
    rewrite <- T4, E0 in Hq. done.
  - rewrite T2, Q2. simpl. do 2 eexists. split; [done|]. split; [|done]. clear -H2.
    induction H2 as [|p q ps qs [_ H] _ IH]; simpl; [constructor|by constructor].
  - exists L2, B, l. split_and!; try done.
    + apply S1.
    + apply S1.
    + apply S1.
    + unfold fun_names. by rewrite app_assoc.
    + rewrite T3, Q3. simpl. eapply (Forall2_impl (is_param L (w_sk x0) KFuncArg)); [|intros ? ? Hp; exact (up_param _ _ _ _ (transitivity E2 S2) (transitivity E4 S3) _ _ _ Hp)].
      apply Forall2_same_length_lookup. split; [rewrite Hlen; by rewrite map_length|].
      intros j v [n1 a] Hv Hp. assert (map fst ps !! j = Some n1) as Hn by (by rewrite list_lookup_fmap, Hp).
      destruct (HL _ _ _ Hv Hn) as (t & i & Hm & a' & Ha & Hden). rewrite Hp in Ha. injection Ha as <-.
      split; [|exists t, i; split; [|done]].
      * destruct (Forall2_lookup_l _ _ _ _ _ A3 Hv) as (n2 & Hn2 & HL2). simpl. congruence.
      * unfold w_sk. simpl. by rewrite lookup_fmap, Hm.
    + rewrite Hl2. apply Forall2_same_length_lookup. split; [by eapply Forall2_length|]. intros j [h hs] b Hj Hb.
      destruct (Forall2_lookup_r _ _ _ _ _ P1 Hb) as ([h' hs'] & Hj' & Hp & o & qs & Hq & Hps).
      assert (h' = h) as ->.
      { change (map fst l2 = map fst (w_lay x1)) in Hk. apply (f_equal (lookup j)) in Hk. rewrite !list_lookup_fmap, Hj, Hj' in Hk. by injection Hk. }
      simpl in *. split; [done|]. split.
      * exists qs. split; [change ((snd <$> w_bbs x2) !! h = Some qs); rewrite T4, lookup_fmap; by rewrite (Hq : w_bbs x1 !! h = _)|]. eapply Forall2_impl; [exact Hps|].
        intros. eapply up_param; [exact S2|exact S3|done].
      * destruct (Forall2_lookup_l _ _ _ _ _ Hst Hj) as (b' & Hb' & Hs'). rewrite Hb in Hb'. injection Hb' as <-. done.
Qed.
