(** The front end accepts well-formed texts (C49): statements, blocks and functions. *)
From Coq Require Import Lia ZifyBool ZifyNat ZifyN.
From Verif Require Import Base IdModel TypeModel IrModel LayoutModel BuilderModel WorldModel
  LexerModel ParserModel ParserSpec FrontModel FrontProofs FlowSpec FlowProofs BlockListProofs
  CleanProofs BuildCleanProofs FunCleanProofs FlowBuildProofs DriverModel DriverSpec DriverProofs UsesSpec UsesProofs
  DfgSpec DfgProofs WorldSpec WorldProofs TypingSpec TypingProofs TypingHistory EqHistory SkelProofs ParamProofs HistoryProofs
  FaithSpec RoundProofs ViewProofs FaithProofs FaithFunProofs CanonProofs CanonReadProofs RetreeFunProofs AcceptSpec AcceptProofs.

Lemma well_named_valid n : well_named n → valid_name n = true.
Proof. by intros (c & d & rest & -> & [-> | ->]). Qed.
Lemma well_named_opt n : well_named n → valid_opt_name (opt_name n) = true.
Proof. intros H. unfold opt_name. destruct (is_temp n); [done|]. by apply well_named_valid. Qed.

Lemma more_closed a b : more_defs a b → preds_closed a → preds_closed b.
Proof. intros (H1 & H2 & _) Hc n p Hp. apply H1. apply (Hc n). by apply H2. Qed.

(** Every instruction of a block is a value of the function. *)
Definition laid (x : fview) : Prop := ∀ b is v, (b, is) ∈ w_lay x → v ∈ is → is_Some (w_vals x !! v).

Section in_fun.
Context (f : func) (Gs : views) (Fs : gmap N ty) (gt : string → ty → Prop) (ft : string → list ty → ty → Prop)
  (Ty : string → ty) (bt : string → list ty → Prop).
Notation pi := (pi f Gs Fs gt ft Ty bt).
Notation sees := (sees gt Ty).

Lemma pi_world x s x' w' : pi x s → only f x x' (b_world s) w' → room 0 w' → w_fty x' = w_fty x →
  (∀ v y, w_vals x !! v = Some y → ∃ y', w_vals x' !! v = Some y' ∧ y'.2.1 = y.2.1) → w_bbs x ⊆ w_bbs x' →
  pi x' (set_world w' s).
Proof.
  intros [H1 H2 H3 H4 H5 H6 H6' H7 H8 H9 H10 H11] O R Ht Hv Hb. pose proof (only_after _ _ _ _ _ O) as Ha.
  destruct O as (B1 & B2 & B3 & _). constructor; try done; simpl.
  - congruence.
  - rewrite B2, fmap_insert, Ht, <- H4. apply insert_id. by rewrite lookup_fmap, B1.
  - intros b n v Hd. destruct (H8 _ _ _ Hd) as (? & y & Hy & Et). split; [done|].
    destruct (Hv _ _ Hy) as (y' & ? & Et'). exists y'. split; [done|congruence].
  - intros n ts Hn. destruct (H9 _ _ Hn) as (i & o & ps & B4 & B5 & B6). exists i, o, ps. split_and!; [done|by eapply lookup_weaken|].
    eapply list.Forall2_impl; [exact B6|]. intros p t (y & Hy & Et). destruct (Hv _ _ Hy) as (y' & ? & Et'). exists y'. split; [done|congruence].
Qed.
Lemma pi_bbs x s m q : pi x s → (∀ n, bi_bb <$> m !! n = bi_bb <$> b_bbs s !! n) →
  (∀ b n v, defines m b n v → is_global_id v = false ∧ ∃ y, w_vals x !! v = Some y ∧ y.2.1 = Ty n) →
  preds_closed m → pi x (set_bbs m (set_syms q s)).
Proof.
  intros [H1 H2 H3 H4 H5 H6 H6' H7 H8 H9 H10 H11] Hm Hd Hc. constructor; try done; simpl.
  - intros n ts Hn. destruct (H9 _ _ Hn) as (i & o & ps & B4 & B5 & B6). specialize (Hm n). rewrite B4 in Hm.
    apply fmap_Some in Hm as (i' & Hi' & Ei). rewrite Ei in B5. by exists i', o, ps.
  - intros n n' i i' Hi Hi' Eb. pose proof (Hm n) as M1. pose proof (Hm n') as M2. rewrite Hi in M1. rewrite Hi' in M2.
    symmetry in M1, M2. apply fmap_Some in M1 as (j & Hj & Ej). apply fmap_Some in M2 as (j' & Hj' & Ej').
    eapply H10; [exact Hj|exact Hj'|congruence].
Qed.
Lemma pi_syms x s q : pi x s → pi x (set_syms q s).
Proof. intros I. pose proof (pi_bbs x s (b_bbs s) q I) as H. destruct s. apply H; [done|apply I|apply I]. Qed.

(** What a step inside the function does *)
Record bstep (x : fview) (s : bstate) (x' : fview) (s' : bstate) : Prop := {
  bt_pi : pi x' s';
  bt_laid : laid x';
  bt_only : only f x x' (b_world s) (b_world s');
  bt_bbs : ∀ n, bi_bb <$> b_bbs s' !! n = bi_bb <$> b_bbs s !! n;
  bt_more : more_defs (b_bbs s) (b_bbs s');
  bt_gvars : b_gvars s' = b_gvars s;
  bt_gfuncs : b_gfuncs s' = b_gfuncs s;
}.
Lemma bt_refl x s : pi x s → laid x → bstep x s x s.
Proof. intros I L. constructor; try done; [apply only_refl, I|apply more_refl]. Qed.
Lemma bt_trans x s y s1 z s2 : bstep x s y s1 → bstep y s1 z s2 → bstep x s z s2.
Proof.
  intros [] []. constructor; try done; try (by etrans).
  - by eapply only_trans.
  - intros n. etrans; [apply bt_bbs1|apply bt_bbs0].
  - by eapply more_trans.
Qed.
Lemma bt_mv x s M s' : pi x s → laid x → mv f x s M s' → bstep x s (set_wvals x M) s'.
Proof.
  intros I L Hm. pose proof (pi_mv _ _ _ _ _ _ _ _ _ _ _ I Hm) as I'. destruct Hm as [[w ->] A2 A5 A3 A4].
  constructor; try done; [|apply more_refl]. intros b is v Hb Hv. simpl in *. destruct (L _ _ _ Hb Hv) as [y Hy].
  exists y. by eapply lookup_weaken.
Qed.

(** *** Statements *)
Lemma goes_stmt V bb r st x s k : pi x s → laid x → sees V bb s → stmt_of V ft bt Ty r st →
  (∀ n, n ∈ stmt_defs st → well_named n ∧ n ∉ b_syms s ∧ b_gvars s !! n = None) →
  left_in (stmt_size st + k) (w_ids (b_world s)) →
  ∃ v s' M, clean (gen_stmt f bb r st) s v s' ∧ bstep x s (set_wvals x M) s' ∧ left_in k (w_ids (b_world s')) ∧
    w_vals x !! v = None ∧ is_Some (M !! v) ∧ w_vals x ⊆ M ∧ b_syms s' = list_to_set (stmt_defs st) ∪ b_syms s ∧
    ∀ n, n ∈ stmt_defs st → ∃ u, defines (b_bbs s') bb n u.
Proof.
  intros I L HV Hst Hn Hk. destruct (match st with SDef _ _ => true | _ => false end) eqn:Est.
  2: { assert (Hne : ∀ n e, st ≠ SDef n e) by (by intros n e ->).
    destruct (goes_plain _ _ _ _ _ _ _ V bb x s st r I HV Hst Hne k Hk) as (v & s' & M & A1 & A2 & A3 & (t & (kd & A4) & A5 & A6)).
    exists v, s', M. split; [done|]. split; [by apply bt_mv|]. split; [done|]. split; [done|]. split; [by eauto|].
    split; [apply A2|]. assert (stmt_defs st = []) as -> by (by destruct st). split; [|by intros n ?%elem_of_nil].
    destruct (mv_wo _ _ _ _ _ A2) as [w ->]. simpl. set_solver. }
  destruct st as [n e| | | | | |]; try done. clear Est. cbn [stmt_of stmt_size stmt_defs gen_stmt] in *. destruct Hst as [Hu He].
  destruct (Hn n) as (Hwn & Hs & Hg); [by left|]. clear Hn.
  set (s0 := set_syms ({[n]} ∪ b_syms s) s).
  assert (D0 : clean (def_symbol n) s tt s0).
  { split; [|done]. unfold def_symbol. rewrite decide_False by (rewrite Hg; by intros [? ?]). rewrite decide_False by done. done. }
  assert (I0 : pi x s0) by (by apply pi_syms). assert (HV0 : sees V bb s0) by done.
  destruct (goes_inst _ _ _ _ _ _ _ V bb x s0 e (Ty n) I0 HV0 He k Hk) as (v & s1 & M & A1 & A2 & A3 & (kd & A4) & A5 & A6).
  pose proof (bt_mv x s0 M s1 I0 L A2) as B1. pose proof (bt_pi _ _ _ _ B1) as I1.
  assert (Hs1 : b_syms s1 = {[n]} ∪ b_syms s ∧ b_bbs s1 = b_bbs s) by (by destruct (mv_wo _ _ _ _ _ A2) as [w ->]).
  destruct Hs1 as [Es1 Eb1].
  assert (Hty : clean (value_ty f v) s1 (Ty n) s1).
  { split; [|done]. unfold value_ty. rewrite A5. pose proof (pi_view _ _ _ _ _ _ _ _ _ I1) as Hx. rewrite lookup_fmap in Hx.
    apply fmap_Some in Hx as (fd & -> & Ef). apply (f_equal w_vals) in Ef. simpl in Ef. rewrite Ef, lookup_fmap in A4. simpl.
    apply fmap_Some in A4 as (d & -> & Ed). unfold vi in Ed. simpl. by injection Ed as _ -> _. }
  assert (Hname : ∃ w M', clean (if is_temp n then mok tt else b_prog_ (w_name_local f v (Some n))) s1 tt (set_world w s1) ∧
     only f (set_wvals x M) (set_wvals x M') (b_world s1) w ∧ w_ids w = w_ids (b_world s1) ∧
     (∃ o, M' = <[v := (o, (Ty n, kd))]> M) ∧ room 0 w).
  { destruct (is_temp n) eqn:Et.
    - exists (b_world s1), M. split; [by destruct s1|]. split; [apply only_refl, I1|]. split; [done|].
      split; [exists None; by rewrite insert_id|apply I1].
    - pose proof (pi_view _ _ _ _ _ _ _ _ _ I1) as Hx. rewrite lookup_fmap in Hx. apply fmap_Some in Hx as (fd & Hf & Ef).
      pose proof (f_equal w_vals Ef) as Ev. simpl in Ev. rewrite Ev, lookup_fmap in A4. apply fmap_Some in A4 as (d & Hd & Ed).
      assert (Hw : ∃ w, w_name_local f v (Some n) (b_world s1) = Some w ∧ w_ids w = w_ids (b_world s1)).
      { unfold w_name_local, on_dfg. rewrite Hf. simpl. unfold dfg_set_value_name. rewrite Hd. simpl. unfold set_name. simpl.
        rewrite well_named_valid by done. simpl. by eexists. }
      destruct Hw as (w & Hw & Ei). exists w. pose proof (goes_prog_ _ s1 _ Hw) as Hc.
      pose proof (room_clean 0 _ _ _ _ _ Hc (pi_room _ _ _ _ _ _ _ _ _ I1)) as R.
      apply view_name_local in Hw as (y & z & O & Hz). pose proof (proj1 O) as Hy. rewrite (pi_view _ _ _ _ _ _ _ _ _ I1) in Hy.
      injection Hy as <-. simpl in Hz. assert (z.2 = (Ty n, kd)) as Ez.
      { rewrite Ev, lookup_fmap, Hd in Hz. injection Hz as <-. by rewrite <- Ed. }
      eexists. split; [exact Hc|]. split; [exact O|]. split; [done|]. split; [|done]. exists (Some n). by rewrite Ez. }
  destruct Hname as (w & M' & N1 & N2 & N3 & (o & EM) & N4).
  assert (I2 : pi (set_wvals x M') (set_world w s1)).
  { eapply (pi_world (set_wvals x M)); [exact I1|exact N2|done|done| |done]. simpl. intros u y Hy. rewrite EM.
    destruct (decide (u = v)) as [-> |Hne]; [rewrite lookup_insert; rewrite A4 in Hy; injection Hy as <-; by eexists|].
    rewrite lookup_insert_ne by done. eauto. }
  destruct HV as [[info Hi] _].
  set (m := <[bb := BbInfo (bi_bb info) (bi_preds info) (<[n := v]> (bi_defs info))]> (b_bbs s)).
  destruct (more_insert (b_bbs s) bb info n v Hi) as [M1 M2]. fold m in M1, M2.
  assert (M3 : ∀ c, bi_bb <$> m !! c = bi_bb <$> b_bbs s !! c).
  { intros c. unfold m. destruct (decide (c = bb)) as [-> |Hne]; [by rewrite lookup_insert, Hi|by rewrite lookup_insert_ne]. }
  set (s2 := set_bbs m (set_world w s1)).
  assert (N5 : clean (add_def bb n v) (set_world w s1) tt s2).
  { split; [|done]. unfold add_def. simpl. rewrite Eb1, Hi. done. }
  assert (I3 : pi (set_wvals x M') s2).
  { pose proof (pi_bbs _ _ m (b_syms s1) I2) as Hp. unfold s2. destruct s1. simpl in *. apply Hp; clear Hp.
    - intros c. rewrite Eb1. apply M3.
    - intros b n' v' (i & Hb & Hd). unfold m in Hb. apply lookup_insert_Some in Hb as [[<- <-]|[Hne Hb]]; simpl in Hd.
      + apply lookup_insert_Some in Hd as [[<- <-]|[Hne Hd]].
        * split; [done|]. rewrite EM, lookup_insert. by eexists.
        * apply (pi_defs _ _ _ _ _ _ _ _ _ I2 bb). exists info. by rewrite <- Eb1 in Hi.
      + apply (pi_defs _ _ _ _ _ _ _ _ _ I2 b). exists i. by rewrite <- Eb1 in Hb.
    - eapply more_closed; [exact M1|]. apply I. }
  exists v, s2, M'. split_and!.
  - eapply goes_mthen; [exact D0|]. eapply goes_mthen; [exact A1|]. eapply goes_mthen; [exact Hty|].
    destruct (is_unit (Ty n)) eqn:Eu; [by apply is_unit_eq in Eu|]. eapply goes_mthen; [exact N1|].
    eapply goes_mthen; [exact N5|]. apply goes_mok.
  - constructor; try done.
    + intros b is u Hb Hu'. simpl in *. destruct (bt_laid _ _ _ _ B1 _ _ _ Hb Hu') as [y Hy]. simpl in Hy. rewrite EM.
      destruct (decide (u = v)) as [-> |Hne]; [rewrite lookup_insert|rewrite lookup_insert_ne by done]; eauto.
    + eapply only_trans; [apply B1|exact N2].
    + destruct (mv_wo _ _ _ _ _ A2) as [w' E]. unfold s2. by rewrite E.
    + destruct (mv_wo _ _ _ _ _ A2) as [w' E]. unfold s2. by rewrite E.
  - unfold s2. simpl. by rewrite N3.
  - done.
  - rewrite EM, lookup_insert. eauto.
  - rewrite EM. apply insert_subseteq_r; [done|]. apply A2.
  - unfold s2. simpl. rewrite Es1. set_solver.
  - intros n' ->%elem_of_list_singleton. unfold s2. simpl. eauto.
Qed.

Lemma goes_stmts bb r h l1 l2 sts : h ∉ map fst l1 → ∀ x s vs0 k, pi x s → laid x → w_lay x = l1 ++ (h, vs0) :: l2 →
  bi_bb <$> b_bbs s !! bb = Some h →
  (∀ pre st post, sts = pre ++ st :: post → ∃ V, stmt_of V ft bt Ty r st ∧ ∀ s', more_defs (b_bbs s) (b_bbs s') →
     (∀ n, n ∈ concat (map stmt_defs pre) → ∃ u, defines (b_bbs s') bb n u) → sees V bb s') →
  (∀ n, n ∈ concat (map stmt_defs sts) → well_named n ∧ n ∉ b_syms s ∧ b_gvars s !! n = None) →
  NoDup (concat (map stmt_defs sts)) →
  left_in (sum_of stmt_size sts + k) (w_ids (b_world s)) →
  ∃ x' s', clean (b_each (λ st, b_ok (gen_stmt f bb r st) (push_step f bb)) sts) s tt s' ∧ bstep x s x' s' ∧
    left_in k (w_ids (b_world s')) ∧ (∃ vs, w_lay x' = l1 ++ (h, vs) :: l2) ∧
    b_syms s' = list_to_set (concat (map stmt_defs sts)) ∪ b_syms s.
Proof.
  intros Hh. induction sts as [|st sts IH]; intros x s vs0 k I L Hl Hb Hst Hn Hnd Hk; cbn [b_each].
  { exists x, s. split; [apply goes_mok|]. split; [by apply bt_refl|]. split; [done|]. split; [by exists vs0|]. simpl. set_solver. }
  destruct (Hst [] st sts eq_refl) as (V & Ho & HV). simpl in Hnd, Hk. apply list.NoDup_app in Hnd as (Nd1 & Nd2 & Nd3).
  destruct (goes_stmt V bb r st x s (sum_of stmt_size sts + k)) as (v & s1 & M & A1 & A2 & A3 & A4 & A5 & A6 & A7 & A8); try done.
  { apply HV; [apply more_refl|]. by intros n ?%elem_of_nil. }
  { intros n Hin. apply Hn. simpl. apply elem_of_app. by left. }
  { by rewrite N.add_assoc. }
  pose proof (bt_pi _ _ _ _ A2) as I1. pose proof (bt_bbs _ _ _ _ A2 bb) as Hb1. rewrite Hb in Hb1.
  apply fmap_Some in Hb1 as (info & Hi & ->).
  assert (Hw : ∃ w, w_push_inst f (bi_bb info) v (b_world s1) = Some w ∧ w_ids w = w_ids (b_world s1)).
  { pose proof (pi_view _ _ _ _ _ _ _ _ _ I1) as Hx. rewrite lookup_fmap in Hx. apply fmap_Some in Hx as (fd & Hf & Ef).
    apply (f_equal w_lay) in Ef. simpl in Ef. unfold w_push_inst. rewrite Hf. simpl. unfold inst_insert. rewrite <- Ef, Hl.
    rewrite find_bb_mid by done. simpl. replace (has_key id v vs0) with false; [simpl; by eexists|]. symmetry.
    unfold has_key. apply not_true_is_false. intros (u & Hu & E)%existsb_exists. apply N.eqb_eq in E. unfold id in E. subst u.
    apply elem_of_list_In in Hu. destruct (L (bi_bb info) vs0 v) as [y Hy]; [rewrite Hl; apply elem_of_app; right; by left|done|].
    congruence. }
  destruct Hw as (w & Hw & Ei). pose proof (goes_prog_ _ s1 _ Hw) as Hc.
  pose proof (room_clean 0 _ _ _ _ _ Hc (pi_room _ _ _ _ _ _ _ _ _ I1)) as R. simpl in R.
  apply view_push_inst in Hw as (y' & is & O & His). pose proof (proj1 O) as Ey. rewrite (pi_view _ _ _ _ _ _ _ _ _ I1) in Ey.
  injection Ey as <-. simpl in O, His. rewrite Hl in O, His. rewrite find_bb_mid in His by done. injection His as <-.
  rewrite set_bb_mid in O by done.
  set (z := set_wlay (set_wvals x M) (l1 ++ (bi_bb info, vs0 ++ [v]) :: l2)).
  assert (B2 : bstep (set_wvals x M) s1 z (set_world w s1)).
  { constructor; try done; [| |apply more_refl].
    - eapply pi_world; [exact I1|exact O|done|done| |done]. simpl. eauto.
    - intros c cs u Hc1 Hu. simpl in *. apply elem_of_app in Hc1 as [Hc1|Hc1].
      + destruct (L c cs u) as [y Hy]; [rewrite Hl; apply elem_of_app; by left|done|]. exists y. by eapply lookup_weaken.
      + apply elem_of_cons in Hc1 as [[= -> ->]|Hc1].
        * apply elem_of_app in Hu as [Hu| ->%elem_of_list_singleton]; [|done].
          destruct (L (bi_bb info) vs0 u) as [y Hy]; [rewrite Hl; apply elem_of_app; right; by left|done|]. exists y. by eapply lookup_weaken.
        * destruct (L c cs u) as [y Hy]; [rewrite Hl; apply elem_of_app; right; by right|done|]. exists y. by eapply lookup_weaken. }
  pose proof (bt_trans _ _ _ _ _ _ A2 B2) as B3.
  destruct (IH z (set_world w s1) (vs0 ++ [v]) k) as (x' & s' & C1 & C2 & C3 & C4 & C5); try done.
  { apply B2. }
  { apply B2. }
  { simpl. by rewrite Hi. }
  { intros pre st' post E. destruct (Hst (st :: pre) st' post) as (V' & Ho' & HV'); [simpl; by rewrite E|]. exists V'. split; [done|].
    intros s'' Hm Hd. apply HV'; [eapply more_trans; [apply B3|exact Hm]|]. simpl. intros n [Hin|Hin]%elem_of_app; [|by apply Hd].
    destruct (A8 n Hin) as [u Hu]. by eapply Hm. }
  { intros n Hin. simpl. rewrite A7. destruct (Hn n) as (H1 & H2 & H3); [simpl; apply elem_of_app; by right|].
    split_and!; [done| |by rewrite (bt_gvars _ _ _ _ A2)]. intros [Hs|Hs]%elem_of_union; [|done].
    apply elem_of_list_to_set in Hs. by apply (Nd2 n). }
  { simpl. by rewrite Ei. }
  exists x', s'. split.
  { eapply goes_mthen; [|exact C1]. destruct A1 as [A1 A1']. destruct Hc as [Hc Hc']. split; [|congruence].
    unfold b_ok. rewrite A1. unfold push_step. rewrite Hi. exact Hc. }
  split; [by eapply bt_trans|]. split; [done|]. split; [done|]. rewrite C5. simpl. rewrite A7, list_to_set_app_L. set_solver.
Qed.
Lemma goes_blocks r m0 l : (∀ front b rest sts st after, l = front ++ b :: rest → b_stmts b = sts ++ st :: after →
     ∃ V, stmt_of V ft bt Ty r st ∧ ∀ s', more_defs m0 (b_bbs s') →
       (∀ d n, d ∈ front → n ∈ body_names d → ∃ u, defines (b_bbs s') (b_name d) n u) →
       (∀ n, n ∈ concat (map stmt_defs sts) → ∃ u, defines (b_bbs s') (b_name b) n u) → sees V (b_name b) s') →
  ∀ rest front l1 l2 x s k, l = front ++ rest → pi x s → laid x → w_lay x = l1 ++ l2 → NoDup (map fst (l1 ++ l2)) →
  Forall2 (λ y b, bi_bb <$> b_bbs s !! b_name b = Some y.1) l2 rest →
  more_defs m0 (b_bbs s) → (∀ d n, d ∈ front → n ∈ body_names d → ∃ u, defines (b_bbs s) (b_name d) n u) →
  (∀ n, n ∈ concat (map body_names rest) → well_named n ∧ n ∉ b_syms s ∧ b_gvars s !! n = None) →
  NoDup (concat (map body_names rest)) →
  left_in (sum_of (λ b, sum_of stmt_size (b_stmts b)) rest + k) (w_ids (b_world s)) →
  ∃ x' s', clean (b_each (build_block f r) rest) s tt s' ∧ bstep x s x' s' ∧ left_in k (w_ids (b_world s')).
Proof.
  intros Hst rest. induction rest as [|b rest IH]; intros front l1 l2 x s k El I L Hl Hk Hbs Hm Hd Hn Hnd Hle; cbn [b_each].
  { exists x, s. split; [apply goes_mok|]. split; [by apply bt_refl|]. done. }
  inversion Hbs as [|[h hs] ? l3 ? Hh Hbs' E1 E2]; subst. simpl in Hh, Hnd, Hle. apply list.NoDup_app in Hnd as (Nd1 & Nd2 & Nd3).
  pose proof Hk as Hk'. rewrite map_app in Hk'. apply list.NoDup_app in Hk' as (K1 & K2 & K3).
  destruct (goes_stmts (b_name b) r h l1 l3 (b_stmts b)) with (x := x) (s := s) (vs0 := hs) (k := (sum_of (λ b, sum_of stmt_size (b_stmts b)) rest + k)%N)
    as (y & s1 & A1 & A2 & A3 & (vs & A4) & A5); try done.
  { intros Hin. apply (K2 _ Hin). by left. }
  { intros pre st post E. destruct (Hst front b rest pre st post eq_refl E) as (V & Ho & HV). exists V. split; [done|].
    intros s' Hm' Hd'. apply HV; [by eapply more_trans| |done]. intros d n H1 H2. destruct (Hd d n H1 H2) as [u Hu]. by eapply Hm'. }
  { intros n Hin. apply Hn. simpl. apply elem_of_app. by left. }
  { by rewrite N.add_assoc. }
  assert (D1 : ∀ n, n ∈ body_names b → ∃ u, defines (b_bbs s1) (b_name b) n u).
  { intros n Hin. apply clean_stmts_more in A1 as [_ A1]. by apply A1. }
  destruct (IH (front ++ [b]) (l1 ++ [(h, vs)]) l3 y s1 k) as (z & s2 & C1 & C2 & C3); try done.
  { by rewrite <- app_assoc. }
  { apply A2. }
  { apply A2. }
  { by rewrite A4, <- app_assoc. }
  { rewrite <- app_assoc, map_app. rewrite map_app in Hk. exact Hk. }
  { eapply list.Forall2_impl; [exact Hbs'|]. intros [? ?] c Hc. simpl in *. rewrite <- Hc. apply A2. }
  { eapply more_trans; [done|apply A2]. }
  { intros d n [Hin| ->%elem_of_list_singleton]%elem_of_app Hx; [|by apply D1].
    destruct (Hd d n Hin Hx) as [u Hu]. by eapply (bt_more _ _ _ _ A2). }
  { intros n Hin. rewrite A5. destruct (Hn n) as (H1 & H2 & H3); [simpl; apply elem_of_app; by right|].
    split_and!; [done| |by rewrite (bt_gvars _ _ _ _ A2)]. intros [Hs|Hs]%elem_of_union; [|done].
    apply elem_of_list_to_set in Hs. by apply (Nd2 n). }
  exists z, s2. split; [|split; [by eapply bt_trans|done]]. eapply goes_mthen; [|exact C1]. by rewrite build_block_eq.
Qed.
End in_fun.

(** ** New blocks *)
Lemma new_args_go k ps : ∀ i gs idx g, Forall (λ p : option string * ty, valid_opt_name p.1 = true) ps →
  left_in (N.of_nat (length ps) + k) i →
  ∃ vs i' gs' g', new_block_args i gs idx ps g = Some (vs, i', gs', g') ∧ left_in k i'.
Proof.
  induction ps as [|[n t] ps IH]; intros i gs idx g Hn Hl; cbn [new_block_args].
  { eexists _, _, _, _. split; [done|]. by eapply left_mono; [|exact Hl]. }
  apply list.Forall_cons in Hn as [Hn1 Hn2]. simpl in Hn1. unfold set_name. rewrite Hn1. simpl.
  destruct (left_lv (N.of_nat (length ps) + k) i) as (v & i' & Hi & Hl' & _).
  { eapply left_mono; [|exact Hl]. simpl. lia. }
  unfold dfg_new_value_data. rewrite Hi. simpl.
  edestruct (IH i') as (vs & i2 & gs2 & g2 & E & Hl2); [done|exact Hl'|]. rewrite E. simpl. eauto 10.
Qed.
Lemma new_bb_go f n ps x s k : fvs (b_world s) !! f = Some x → valid_opt_name n = true →
  Forall (λ p : option string * ty, valid_opt_name p.1 = true ∧ p.2 ≠ TUnit) ps →
  left_in (N.of_nat (length ps) + (1 + k)) (w_ids (b_world s)) →
  ∃ b w, w_new_bb f n ps (b_world s) = Some (b, w) ∧ left_in k (w_ids w).
Proof.
  intros Hx Hn Hps Hl. rewrite lookup_fmap in Hx. apply fmap_Some in Hx as (fd & Hf & _).
  unfold w_new_bb, on_dfg. rewrite Hf. simpl. unfold basic_block_with_param_names. rewrite Hn. simpl.
  replace (forallb _ ps) with true.
  2: { symmetry. apply forallb_forall. intros p Hp%elem_of_list_In. rewrite list.Forall_forall in Hps. destruct (Hps p Hp) as [_ Hu].
       destruct (is_unit p.2) eqn:E; [by apply is_unit_eq in E|done]. }
  simpl. destruct (new_args_go (1 + k) ps (w_ids (b_world s)) (p_values (w_prog (b_world s))) 0 (f_dfg fd)) as (vs & i' & gs' & g' & E & Hl'); [|done|].
  { eapply list.Forall_impl; [exact Hps|]. by intros p []. }
  rewrite E. simpl. unfold dfg_new_bb_data. destruct (left_bb k i' Hl') as (b & i2 & Eb & Hl2 & _). rewrite Eb. simpl. eauto.
Qed.
Lemma param_defs_go ps : ∀ d s, NoDup (map fst ps) → (∀ n, n ∈ map fst ps → n ∉ b_syms s ∧ b_gvars s !! n = None) →
  ∃ d', clean (param_defs ps d) s d' (set_syms (list_to_set (map fst ps) ∪ b_syms s) s).
Proof.
  induction ps as [|[n v] ps IH]; intros d s Hnd Hn; cbn [param_defs].
  { exists d. simpl. replace (∅ ∪ b_syms s) with (b_syms s) by set_solver. by destruct s. }
  simpl in Hnd, Hn. apply list.NoDup_cons in Hnd as [N1 N2]. destruct (Hn n) as [H1 H2]; [by left|].
  destruct (IH (<[n := v]> d) (set_syms ({[n]} ∪ b_syms s) s)) as (d' & Hd'); [done| |].
  { intros m Hm. destruct (Hn m) as [H3 H4]; [by right|]. simpl. split; [|done]. intros [->%elem_of_singleton|?]%elem_of_union; done. }
  exists d'. eapply goes_mthen with (a := tt) (s1 := set_syms ({[n]} ∪ b_syms s) s).
  - split; [|done]. unfold def_symbol. rewrite decide_False by (rewrite H2; by intros [? ?]). by rewrite decide_False.
  - match type of Hd' with clean _ _ _ ?z => match goal with |- clean _ _ _ ?y => assert (z = y) as <-; [|exact Hd'] end end.
    destruct s. unfold set_syms. simpl. f_equal. set_solver.
Qed.

(** The definition of [b] can be added to the blocks of a function. *)
Record fresh_block (Ty : string → ty) (b : ablock) (s : bstate) : Prop := {
  fb_named : well_named (b_name b);
  fb_params : ∀ n a, (n, a) ∈ b_params b → type_of a (Ty n);
  fb_pnamed : ∀ n, n ∈ param_names b → well_named n ∧ n ∉ b_syms s ∧ b_gvars s !! n = None;
  fb_nodup : NoDup (param_names b);
}.
Section init.
Context (f : func) (Gs : views) (Fs : gmap N ty) (gt : string → ty → Prop) (ft : string → list ty → ty → Prop) (Ty : string → ty).
Notation pi := (pi f Gs Fs gt ft Ty).
(** The blocks [bs] are there. *)
Record blocks_in (bs : list ablock) (x : fview) (s : bstate) : Prop := {
  bi_pi : pi (blk_in bs) x s;
  bi_laid : map snd (w_lay x) = replicate (length bs) [];
  bi_keys : NoDup (map fst (w_lay x));
  bi_lay : ∀ h, h ∈ map fst (w_lay x) → is_Some (w_bbs x !! h);
  bi_at : Forall2 (λ y b, bi_bb <$> b_bbs s !! b_name b = Some y.1) (w_lay x) bs;
  bi_dom : ∀ n, is_Some (b_bbs s !! n) → n ∈ map b_name bs;
  bi_preds0 : ∀ n p, ¬ pred_of (b_bbs s) n p;
  bi_par : ∀ d n, d ∈ bs → n ∈ param_names d → ∃ v, defines (b_bbs s) (b_name d) n v;
  bi_syms : b_syms s = list_to_set (concat (map param_names bs));
}.
Lemma goes_init_bb bs x s b k : blocks_in bs x s → fresh_block Ty b s → b_name b ∉ map b_name bs →
  left_in (N.of_nat (length (b_params b)) + (1 + k)) (w_ids (b_world s)) →
  ∃ x' s', clean (init_bb f b) s tt s' ∧ blocks_in (bs ++ [b]) x' s' ∧ only f x x' (b_world s) (b_world s') ∧ left_in k (w_ids (b_world s')) ∧
    w_vals x ⊆ w_vals x' ∧ b_gvars s' = b_gvars s ∧ b_gfuncs s' = b_gfuncs s.
Proof.
  intros [I BL BK BW BA BD BP BPar BS] [F1 F2 F3 F4] Hnew Hk. set (qs := map (λ p, (opt_name p.1, Ty p.1)) (b_params b)).
  destruct (params_gen (b_params b) Ty F2) as [Hps Hts]. fold qs in Hps.
  destruct (new_bb_go f (opt_name (b_name b)) qs x s k) as (h & w1 & Hw1 & Hl1).
  { apply I. }
  { by apply well_named_opt. }
  { unfold qs. apply list.Forall_forall. intros p Hp. apply elem_of_list_fmap in Hp as ([n a] & -> & Hp). simpl. split.
    - apply well_named_opt. apply F3. unfold param_names. apply elem_of_list_fmap. by exists (n, a).
    - eapply type_not_unit. by apply F2. }
  { unfold qs. by rewrite map_length. }
  pose proof (goes_prog _ s _ _ Hw1) as C1. pose proof (room_clean 0 _ _ _ _ _ C1 (pi_room _ _ _ _ _ _ _ _ _ I)) as R1. simpl in R1.
  apply (view_new_bb 0) in Hw1 as (y & m & vs & O1 & Hh & Hadd); [|apply I].
  pose proof (proj1 O1) as Hy. rewrite (pi_view _ _ _ _ _ _ _ _ _ I) in Hy. injection Hy as <-.
  set (x1 := set_wbbs (set_wvals x m) (<[h:=(opt_name (b_name b), vs)]> (w_bbs x))) in *.
  assert (Hlay : h ∉ map fst (w_lay x)).
  { intros Hin. apply BW in Hin as [? Hin]. congruence. }
  assert (Hw2 : ∃ w, w_push_bb f h w1 = Some w ∧ w_ids w = w_ids w1).
  { pose proof (only_after _ _ _ _ _ O1) as Hx. rewrite lookup_fmap in Hx. apply fmap_Some in Hx as (fd & Hf & Ef).
    apply (f_equal w_lay) in Ef. simpl in Ef. unfold w_push_bb. rewrite Hf. simpl. unfold bb_insert. rewrite <- Ef.
    replace (has_key fst h (w_lay x)) with false; [simpl; by eexists|]. symmetry. apply not_true_is_false.
    intros (u & Hu & E)%existsb_exists. apply N.eqb_eq in E. apply Hlay. apply elem_of_list_fmap. exists u. split; [done|]. by apply elem_of_list_In. }
  destruct Hw2 as (w2 & Hw2 & Ei). pose proof (goes_prog_ _ (set_world w1 s) _ Hw2) as C2.
  pose proof (room_clean 0 _ _ _ _ _ C2 R1) as R2. simpl in R2. change (set_world w2 (set_world w1 s)) with (set_world w2 s) in C2.
  apply view_push_bb in Hw2 as (y & O2). pose proof (proj1 O2) as Hy. rewrite (only_after _ _ _ _ _ O1) in Hy. injection Hy as <-.
  pose proof (only_trans _ _ _ _ _ _ _ O1 O2) as O. clear O1 O2. set (x2 := set_wlay x1 (w_lay x1 ++ [(h, [])])) in *.
  pose proof (adds_views_sub _ _ _ _ _ Hadd) as Hsub. destruct Hadd as (V1 & V2 & V3 & V4 & V5).
  assert (Hlen : length vs = length (b_params b)) by (rewrite V2; unfold qs; by rewrite map_length).
  assert (Hzip : map fst (zip (map fst (b_params b)) vs) = param_names b).
  { unfold param_names. apply fst_zip. rewrite map_length. lia. }
  destruct (param_defs_go (zip (map fst (b_params b)) vs) ∅ (set_world w2 s)) as (d & C4).
  { by rewrite Hzip. }
  { rewrite Hzip. intros n Hn. by destruct (F3 n Hn). }
  rewrite Hzip in C4. simpl in C4.
  set (s3 := set_syms (list_to_set (param_names b) ∪ b_syms s) (set_world w2 s)) in *.
  pose proof (clean_param_defs _ _ _ _ _ C4) as (_ & _ & Hd).
  assert (C3 : clean (b_some (fd ← p_funcs (w_prog (b_world (set_world w2 s))) !! f; bb_params <$> d_bbs (f_dfg fd) !! h)) (set_world w2 s) vs (set_world w2 s)).
  { apply goes_some. pose proof (only_after _ _ _ _ _ O) as Hx. rewrite lookup_fmap in Hx. apply fmap_Some in Hx as (fd & Hf & Ef).
    simpl. rewrite Hf. simpl. apply (f_equal (λ x, w_bbs x !! h)) in Ef. simpl in Ef. rewrite lookup_insert, lookup_fmap in Ef.
    symmetry in Ef. apply fmap_Some in Ef as (bd & -> & Ed). by injection Ed as _ ->. }
  set (m' := <[b_name b := BbInfo h [] d]> (b_bbs s)). set (s4 := set_bbs m' s3).
  assert (Hb0 : b_bbs s !! b_name b = None) by (apply eq_None_not_Some; intros Hc; by apply Hnew, BD).
  (* the parameters of the new block *)
  assert (Hpar : ∀ (j : nat) p a v, b_params b !! j = Some (p, a) → vs !! j = Some v → is_global_id v = false ∧ ∃ y, m !! v = Some y ∧ y.2.1 = Ty p).
  { intros j p a v Hp Hv. split; [by apply V3; eapply elem_of_list_lookup_2|]. eexists. split; [apply (V5 j); [done|]|done].
    unfold qs. apply (map_at (λ p, (opt_name p.1, Ty p.1)) _ _ _ Hp). }
  assert (Hdefs : ∀ n v, d !! n = Some v → ∃ (j : nat) a, b_params b !! j = Some (n, a) ∧ vs !! j = Some v).
  { intros n v Hn. apply Hd in Hn as [Hn|[_ Hn]]; [|done]. apply elem_of_list_lookup in Hn as [j Hn].
    apply lookup_zip_with_Some in Hn as (n1 & v1 & [= <- <-] & Hn & Hv). rewrite list_lookup_fmap in Hn. apply fmap_Some in Hn as ([n' a] & Hp & ->).
    by exists j, a. }
  exists x2, s4. split_and!.
  - unfold init_bb. eapply goes_mthen; [by apply goes_some|]. eapply goes_mthen; [exact C1|]. eapply goes_mthen; [exact C2|].
    eapply goes_mthen; [by split|]. eapply goes_mthen; [exact C3|]. eapply goes_mthen; [exact C4|]. apply goes_upd. done.
  - assert (Inj : ∀ n i, b_bbs s !! n = Some i → is_Some (w_bbs x !! bi_bb i)).
    { intros n i Hi. assert (n ∈ map b_name bs) as Hn by eauto. apply elem_of_list_fmap in Hn as (c & -> & Hc).
      apply elem_of_list_lookup in Hc as [j Hc]. destruct (Forall2_lookup_r _ _ _ _ _ BA Hc) as (y & Hy & Ey). rewrite Hi in Ey.
      injection Ey as ->. apply BW. apply elem_of_list_fmap. exists y. split; [done|]. by eapply elem_of_list_lookup_2. }
    assert (HP0 : ∀ n p, ¬ pred_of m' n p).
    { intros n p (i & Hi & Hp). unfold m' in Hi. apply lookup_insert_Some in Hi as [[<- <-]|[Hne Hi]]; [by apply elem_of_nil in Hp|].
      apply (BP n p). by exists i. }
    constructor.
    + destruct I as [H1 H2 H3 H4 H5 H6 H6' H7 H8 H9 H10 H11]. pose proof (only_after _ _ _ _ _ O) as Ha. destruct O as (B1 & B2 & B3 & _).
      constructor; try done; simpl.
      * congruence.
      * rewrite B2, fmap_insert. simpl. rewrite <- H4. apply insert_id. by rewrite lookup_fmap, B1.
      * intros c n v (i & Hi & Hn). unfold m' in Hi. apply lookup_insert_Some in Hi as [[<- <-]|[Hne Hi]]; simpl in Hn.
        -- destruct (Hdefs _ _ Hn) as (j & a & Hp & Hv). by eapply Hpar.
        -- destruct (H8 c n v) as (E & z & Hz & Et); [by exists i|]. split; [done|]. exists z. split; [by eapply lookup_weaken|done].
      * intros n ts (c & Hc & <- & HF). apply elem_of_app in Hc as [Hc| ->%elem_of_list_singleton].
        -- destruct (H9 (b_name c) ts) as (i & o & ps & B4 & B5 & B6); [by exists c|].
           assert (b_name c ≠ b_name b) as Hne. { intros E. apply Hnew. rewrite <- E. apply elem_of_list_fmap. by exists c. }
           exists i, o, ps. split; [unfold m'; by rewrite lookup_insert_ne|]. split; [rewrite lookup_insert_ne by (intros E; congruence); done|].
           eapply list.Forall2_impl; [exact B6|]. intros p t (z & Hz & Et). exists z. split; [by eapply lookup_weaken|done].
        -- exists (BbInfo h [] d), (opt_name (b_name b)), vs. split; [unfold m'; by rewrite lookup_insert|].
           split; [simpl; by rewrite lookup_insert|]. rewrite (types_fun _ _ _ HF Hts). apply Forall2_same_length_lookup.
           split; [by rewrite map_length|]. intros j v t Hv Ht. rewrite list_lookup_fmap in Ht. apply fmap_Some in Ht as ([n a] & Hp & ->).
           by eapply Hpar.
      * intros n n' i i' Hi Hi' E. unfold m' in Hi, Hi'. apply lookup_insert_Some in Hi as [[<- <-]|[Hne Hi]]; apply lookup_insert_Some in Hi' as [[<- <-]|[Hne' Hi']]; simpl in E.
        -- done.
        -- apply Inj in Hi' as [? Hi']. congruence.
        -- apply Inj in Hi as [? Hi]. congruence.
        -- by eapply H10.
      * intros n p Hp. by destruct (HP0 n p).
    + simpl. rewrite map_app, BL, app_length. simpl. by rewrite replicate_add.
    + simpl. rewrite map_app. simpl. apply list.NoDup_app. split_and!; [done| |apply NoDup_singleton]. intros c Hc ->%elem_of_list_singleton. done.
    + simpl. intros c. rewrite map_app. intros [Hc| ->%elem_of_list_singleton]%elem_of_app; [|rewrite lookup_insert; eauto].
      destruct (BW c Hc) as [z Hz]. exists z. rewrite lookup_insert_ne by (intros E; congruence). done.
    + simpl. apply Forall2_app.
      * apply Forall2_same_length_lookup. apply Forall2_same_length_lookup in BA as [BA1 BA2]. split; [done|]. intros j y c Hy Hc.
        unfold m'. rewrite lookup_insert_ne; [by eapply BA2|]. intros E. apply Hnew. rewrite E. apply elem_of_list_fmap. exists c.
        split; [done|]. by eapply elem_of_list_lookup_2.
      * constructor; [|constructor]. unfold m'. by rewrite lookup_insert.
    + simpl. intros n Hn. unfold m' in Hn. rewrite map_app. apply elem_of_app. destruct (decide (n = b_name b)) as [-> |Hne].
      * right. by left.
      * left. rewrite lookup_insert_ne in Hn by done. by apply BD.
    + exact HP0.
    + simpl. intros c n [Hc| ->%elem_of_list_singleton]%elem_of_app Hn.
      * destruct (BPar c n Hc Hn) as (v & i & Hi & Hv). exists v, i. split; [|done]. unfold m'. rewrite lookup_insert_ne; [done|].
        intros E. congruence.
      * unfold param_names in Hn. apply elem_of_list_lookup in Hn as [j Hn]. rewrite list_lookup_fmap in Hn.
        apply fmap_Some in Hn as ([n' a] & Hp & ->). destruct (lookup_lt_is_Some_2 vs j) as [v Hv]; [rewrite Hlen; by eapply lookup_lt_Some|].
        exists v, (BbInfo h [] d). split; [unfold m'; by rewrite lookup_insert|]. simpl. apply Hd. left. apply elem_of_list_lookup. exists j.
        apply lookup_zip_with_Some. exists n', v. split; [done|]. split; [|done]. by rewrite list_lookup_fmap, Hp.
    + simpl. rewrite BS, map_app, concat_app. simpl. rewrite app_nil_r, list_to_set_app_L. set_solver.
  - done.
  - unfold s4, s3. simpl. by rewrite Ei.
  - done.
  - done.
  - done.
Qed.
End init.

(** ** The order of blocks *)
Lemma firsts_nodup seen x : NoDup (firsts seen x) ∧ ∀ n, n ∈ firsts seen x → n ∉ seen.
Proof.
  revert seen. induction x as [|n x IH]; intros seen; simpl.
  { split; [constructor|by intros n ?%elem_of_nil]. }
  case_decide as Hd; [apply IH|]. destruct (IH (n :: seen)) as [H1 H2]. split.
  - constructor; [|done]. intros Hx. apply H2 in Hx. apply Hx. by left.
  - intros y [-> |Hy]%elem_of_cons; [done|]. intros Hs. apply (H2 y); [done|]. by right.
Qed.
Lemma in_order_nodup bbs l : in_order bbs l → NoDup (map b_name l).
Proof. intros (e & _ & _ & ->). apply firsts_nodup. Qed.
Lemma order_same bbs l l2 : NoDup (map b_name bbs) → in_order bbs l → in_order bbs l2 → l = l2.
Proof.
  intros Hbbs O1 O2. pose proof (in_order_nodup _ _ O1) as Hnd. pose proof (in_order_nodup _ _ O2) as Hnd1.
  destruct O2 as (e & He & Hall & Hn1). destruct O1 as (e' & He' & Hin & Hn2). rewrite He in He'. injection He' as <-.
  assert (Hsame : ∀ b, b ∈ l ↔ b ∈ l2) by (intros b; rewrite Hin, (Hall b); naive_solver).
  assert (Huniq : ∀ b c, b ∈ bbs → c ∈ bbs → b_name b = b_name c → b = c).
  { intros b c Hb Hc E. apply elem_of_list_lookup in Hb as [i Hi], Hc as [j Hj].
    assert (i = j) as ->.
    { eapply NoDup_lookup; [exact Hbbs| |]; [by rewrite list_lookup_fmap, Hi|]. rewrite list_lookup_fmap, Hj. simpl. by rewrite E. }
    congruence. }
  assert (Hl : ∀ b, b ∈ l → b ∈ bbs) by (intros b Hb; by apply Hin in Hb as [? _]).
  assert (Hpre : ∀ k, k ≤ length l → take k l = take k l2).
  { induction k as [|k IH]; intros Hk; [by rewrite !take_0|]. specialize (IH ltac:(lia)).
    destruct (lookup_lt_is_Some_2 l k ltac:(lia)) as [b Hb].
    assert (El : l = take k l ++ b :: drop (S k) l) by (symmetry; by apply take_drop_middle).
    set (q := take k l) in *.
    assert (Eb : l2 = q ++ drop k l2) by (rewrite IH; symmetry; apply take_drop).
    set (F := firsts [] (b_name e :: concat (map ends_to q))).
    assert (P1 : ∃ r, map b_name l = F ++ r).
    { eexists. rewrite Hn2. rewrite El at 1. rewrite map_app, concat_app, app_comm_cons, firsts_app. reflexivity. }
    assert (P2 : ∃ r, map b_name l2 = F ++ r).
    { eexists. rewrite Hn1. rewrite Eb at 1. rewrite map_app, concat_app, app_comm_cons, firsts_app. reflexivity. }
    destruct P1 as [r1 P1], P2 as [r2 P2].
    assert (Hlen : length q = k) by (unfold q; rewrite take_length; lia).
    destruct (decide (k < length F)) as [Hlt|Hge].
    - destruct (lookup_lt_is_Some_2 F k Hlt) as [x Hx].
      assert (E1 : map b_name l !! k = Some x) by (rewrite P1; by apply lookup_app_l_Some).
      assert (E2 : map b_name l2 !! k = Some x) by (rewrite P2; by apply lookup_app_l_Some).
      change (map b_name l) with (b_name <$> l) in E1. rewrite list_lookup_fmap, Hb in E1. simpl in E1.
      change (map b_name l2) with (b_name <$> l2) in E2. rewrite list_lookup_fmap in E2. apply fmap_Some in E2 as (c & Hc & Ec).
      injection E1 as E1. assert (b = c) as <-.
      { apply Huniq; [apply Hl; by eapply elem_of_list_lookup_2|apply Hl, Hsame; by eapply elem_of_list_lookup_2|congruence]. }
      rewrite (take_S_r _ _ _ Hb), (take_S_r _ _ _ Hc). fold q. by rewrite <- IH.
    - exfalso. assert (HF : ∀ n, n ∈ F → n ∈ map b_name q).
      { intros n Hn. apply elem_of_list_lookup in Hn as [i Hi].
        assert (Hi' : map b_name l !! i = Some n) by (rewrite P1; by apply lookup_app_l_Some).
        apply lookup_lt_Some in Hi. rewrite El, map_app in Hi'. rewrite lookup_app_l in Hi' by (rewrite map_length; lia).
        by eapply elem_of_list_lookup_2. }
      assert (Hq : ∀ y, y ∈ q → y ∈ bbs). { intros y Hy. apply Hl. rewrite El. apply elem_of_app. by left. }
      assert (Hclosed : ∀ n a c, bpath bbs n a c → a ∈ q → c ∈ q).
      { clear -HF Hq Huniq. intros n a c H. induction H as [a|n a b0 c Hs Hb0 _ IH]; [done|]. intros Ha. apply IH.
        assert (Hx : b_name b0 ∈ map b_name q).
        { apply HF. unfold F. destruct (firsts_in [] (b_name e :: concat (map ends_to q)) (b_name b0)) as [?%elem_of_nil|?]; [|done..].
          right. apply elem_of_list_In, in_concat. exists (ends_to a).
          split; [apply in_map; by apply elem_of_list_In|apply elem_of_list_In; by apply ends_succ]. }
        apply elem_of_list_fmap in Hx as (y & Hy & Hyq). assert (b0 = y) as ->; [|done].
        apply Huniq; [done|by apply Hq|done]. }
      assert (Hbq : b ∈ q).
      { apply elem_of_list_lookup_2 in Hb as Hbl. apply Hin in Hbl as [_ [n Hp]]. eapply Hclosed; [exact Hp|].
        assert (Hx : b_name e ∈ map b_name q).
        { apply HF. unfold F. simpl. left. }
        apply elem_of_list_fmap in Hx as (y & Hy & Hyq). assert (e = y) as ->; [|done].
        apply Huniq; [|by apply Hq|done]. destruct bbs; [done|]. injection He as <-. by left. }
      rewrite El, map_app in Hnd. apply list.NoDup_app in Hnd as (_ & Hnd & _). apply (Hnd (b_name b)); [|simpl; left].
      apply elem_of_list_fmap. by exists b. }
  specialize (Hpre (length l) ltac:(lia)). rewrite take_ge in Hpre by lia.
  assert (length l2 ≤ length l).
  { apply submseteq_length. apply NoDup_submseteq; [|intros b; apply Hsame].
    by apply NoDup_fmap_1 in Hnd1. }
  rewrite take_ge in Hpre; done.
Qed.

(** ** The list of blocks *)
Lemma block_map_go l : ∀ m s, NoDup (map b_name l) → (∀ b, b ∈ l → m !! b_name b = None) →
  ∃ m', clean (block_map l m) s m' s.
Proof.
  induction l as [|b l IH]; intros m s Hnd Hm; cbn [block_map]; [by exists m|].
  simpl in Hnd. apply list.NoDup_cons in Hnd as [N1 N2]. destruct (IH (<[b_name b := b]> m) s N2) as (m' & Hm').
  { intros c Hc. rewrite lookup_insert_ne; [apply Hm; by right|]. intros E. apply N1. rewrite E. apply elem_of_list_fmap. by exists c. }
  exists m'. eapply goes_mthen; [|exact Hm']. rewrite decide_False; [apply goes_mok|]. rewrite Hm by (by left). by intros [? ?].
Qed.
Lemma ends_targets b body fin : b_stmts b = body ++ [fin] → ends_block fin → ∃ ts, FrontModel.targets b = Some ts ∧ length ts ≤ 2.
Proof. intros E Hf. unfold FrontModel.targets. rewrite E, last_snoc. destruct fin; simpl in *; try done; eexists; (split; [done|]); simpl; lia. Qed.
Lemma add_targets_go e m ts s : (∀ t, t ∈ ts → t ≠ e ∧ is_Some (m !! t)) → clean (add_targets e m ts) s ts s.
Proof.
  induction ts as [|t ts IH]; intros H; cbn [add_targets]; [done|]. destruct (H t) as [H1 H2]; [by left|].
  destruct (String.eqb_spec t e) as [|]; [done|]. rewrite decide_True by done.
  eapply goes_mthen; [apply IH; intros u Hu; apply H; by right|]. apply goes_mok.
Qed.
Lemma bfs_go e m (l : list ablock) fuel : (∀ b, b ∈ l → ∃ ts, FrontModel.targets b = Some ts ∧ length ts ≤ 2 ∧ ∀ t, t ∈ ts → t ≠ e ∧ ∃ c, m !! t = Some c ∧ c ∈ l) →
  ∀ queue visited s, (∀ n, n ∈ queue → ∃ b, m !! n = Some b ∧ b ∈ l) →
  length queue + 2 * base.size (dom m ∖ visited) < fuel →
  ∃ r, clean (bfs fuel e m queue visited) s r s.
Proof.
  intros Hl. induction fuel as [|fuel IH]; intros queue visited s Hq Hf; [lia|]. cbn [bfs].
  destruct queue as [|n queue]; [by eexists; apply goes_mok|]. simpl in Hf. case_decide as Hd.
  { apply IH; [|lia]. intros x Hx. apply Hq. by right. }
  destruct (Hq n) as (b & Hb & Hbl); [by left|]. destruct (Hl b Hbl) as (ts & Ht & Hlen & Hts).
  destruct (IH (queue ++ ts) ({[n]} ∪ visited) s) as ([bs V] & Hr).
  { intros x [Hx|Hx]%elem_of_app; [apply Hq; by right|by apply Hts]. }
  { rewrite app_length. assert (base.size (dom m ∖ ({[n]} ∪ visited)) < base.size (dom m ∖ visited)); [|lia].
    apply subset_size. assert (n ∈ dom m) by (apply elem_of_dom; eauto). set_solver. }
  eexists. eapply goes_mthen; [by apply goes_some|]. eapply goes_mthen; [by apply goes_some|].
  eapply goes_mthen; [apply add_targets_go; intros t Ht'; destruct (Hts t Ht') as (? & c & ? & _); by eauto|].
  eapply goes_mthen; [exact Hr|]. apply goes_mok.
Qed.
Lemma block_list_go bbs l s : NoDup (map b_name bbs) → in_order bbs l →
  (∀ b, b ∈ l → ∃ body fin, b_stmts b = body ++ [fin] ∧ ends_block fin) →
  (∀ b n, b ∈ l → succ b n → n ∈ map b_name bbs ∧ head (map b_name bbs) ≠ Some n) →
  ∃ k, clean (get_block_list bbs) s l (set_warns k s).
Proof.
  intros Hnd Ho He Ht. assert (∃ l' s', clean (get_block_list bbs) s l' s') as (l' & s' & H).
  { destruct Ho as (entry & Hh & Hin & _). destruct (block_map_go bbs ∅ s Hnd) as (m & Hm); [done|].
    destruct (block_map_spec _ _ _ _ _ (proj1 Hm)) as (M1 & M2 & M3 & M4 & M5).
    assert (Hm' : ∀ n b, m !! n = Some b ↔ b ∈ bbs ∧ b_name b = n).
    { intros n b. rewrite (M4 Hnd), lookup_empty. split; [|auto]. intros [?|[? ?]]; done. }
    assert (Hentry : entry ∈ l) by (apply Hin; split; [destruct bbs; [done|]; injection Hh as <-; by left|exists 0; constructor]).
    destruct (bfs_go (b_name entry) m l (S (S (2 * base.size m)))) with (queue := [b_name entry]) (visited := (∅ : gset string)) (s := s) as ([bs V] & Hr).
    - intros b Hb. destruct (He b Hb) as (body & fin & E & Hf). destruct (ends_targets b body fin E Hf) as (ts & Hts & Hlen).
      exists ts. split; [done|]. split; [done|]. intros t Htt. apply (targets_succ b ts Hts) in Htt. destruct (Ht b t Hb Htt) as [T1 T2].
      split; [intros ->; apply T2; destruct bbs; [done|]; by injection Hh as ->|].
      apply elem_of_list_fmap in T1 as (c & -> & Hc). exists c. split; [by apply Hm'|]. apply Hin. split; [done|].
      apply Hin in Hb as [Hb [k Hk]]. exists (S k). by eapply bpath_snoc.
    - intros n ->%elem_of_list_singleton. exists entry. split; [|done]. apply Hm'. split; [by apply Hin in Hentry as [? _]|done].
    - simpl. rewrite size_dom, difference_empty_L || rewrite difference_empty_L, size_dom. lia.
    - eexists _, _. unfold get_block_list. eapply goes_mthen; [apply goes_some; exact Hh|]. eapply goes_mthen; [exact Hm|].
      eapply goes_mthen; [exact Hr|]. cbn iota. eapply goes_mthen with (a := tt); [|apply goes_mok].
      unfold b_warn. split; [reflexivity|done]. }
  pose proof (clean_in_order _ _ _ _ H) as Ho'. rewrite (order_same _ _ _ Hnd Ho Ho').
  destruct (clean_block_list _ _ _ _ H) as (_ & _ & k & _ & -> & _). by exists k.
Qed.
