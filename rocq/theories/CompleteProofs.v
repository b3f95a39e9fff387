(** Programs of the front end have nothing but what is listed (C58). *)
From Coq Require Import Lia ZifyBool ZifyNat ZifyN.
From Verif Require Import Base IdModel TypeModel IrModel LayoutModel BuilderModel WorldModel
  LexerModel ParserModel ParserSpec FrontModel FrontProofs FlowSpec FlowProofs BlockListProofs
  CleanProofs BuildCleanProofs FunCleanProofs FlowBuildProofs DriverModel DriverSpec DriverProofs UsesSpec UsesProofs
  DfgSpec DfgProofs WorldSpec WorldProofs TypingSpec TypingProofs TypingHistory EqHistory SkelProofs ParamProofs HistoryProofs
  FaithSpec RoundProofs ViewProofs FaithProofs FaithFunProofs FaithTopProofs CompleteSpec.

Notation vmap := (gmap N (option string * (ty * vkind))).
Notation dmap := (gmap N (ty * vkind)).

(** ** Parts of constants *)
Lemma part_mono (D D' : dmap) v u : D ⊆ D' → part_of D v u → part_of D' v u.
Proof.
  intros HD. induction 1 as [v|v t vs e u Hv He _ IH]; [constructor|].
  eapply po_elem; [by eapply lookup_weaken|done|done].
Qed.
(** The new values of [D'] are parts of [R]. *)
Definition from (D D' : dmap) (R : list value) : Prop :=
  ∀ u, is_Some (D' !! u) → is_Some (D !! u) ∨ ∃ r, r ∈ R ∧ part_of D' r u.
Lemma from_refl D R : from D D R.
Proof. intros u Hu. by left. Qed.
Lemma from_trans D D1 D2 R1 R2 : D1 ⊆ D2 → from D D1 R1 → from D1 D2 R2 → from D D2 (R1 ++ R2).
Proof.
  intros HD H1 H2 u Hu. destruct (H2 u Hu) as [H|(r & Hr & Hp)].
  - destruct (H1 u H) as [?|(r & Hr & Hp)]; [by left|right]. exists r. split; [apply elem_of_app; by left|].
    by eapply part_mono.
  - right. exists r. split; [apply elem_of_app; by right|done].
Qed.
(** An aggregate of what was made *)
Lemma from_aggr D D1 (v : N) t vs : D1 !! v = None → from D D1 vs →
  from D (<[v := (t, KAggregate vs)]> D1) [v].
Proof.
  intros Hn H u Hu. destruct (decide (u = v)) as [-> |Hne]; [right; exists v; split; [by left|constructor]|].
  rewrite lookup_insert_ne in Hu by done. destruct (H u Hu) as [?|(r & Hr & Hp)]; [by left|right].
  exists v. split; [by left|]. eapply po_elem; [by rewrite lookup_insert|done|].
  eapply part_mono; [|done]. by apply insert_subseteq.
Qed.
Lemma from_one D (v : N) y : from D (<[v := y]> D) [v].
Proof.
  intros u Hu. destruct (decide (u = v)) as [-> |Hne]; [right; exists v; split; [by left|constructor]|].
  rewrite lookup_insert_ne in Hu by done. by left.
Qed.

Section init.
Context (new : breq → F value) {Un : ∀ r, Up (new r)} (D : bstate → dmap) (Inv : N → bstate → Prop).
Context (Hnew : ∀ k r s v s', cst_req r → Inv (1 + k)%N s → clean (new r) s v s' →
  Inv k s' ∧ D s !! v = None ∧ ∃ t, D s' = <[v := (t, requested r)]> (D s)).
Lemma gen_init_from i : ∀ k t s v s', clean (gen_init new t i) s v s' → Inv (init_nodes i + k)%N s →
  Inv k s' ∧ D s ⊆ D s' ∧ from (D s) (D s') [v].
Proof using All.
  assert (Hone : ∀ k r s v s', cst_req r → Inv (1 + k)%N s → clean (new r) s v s' →
    Inv k s' ∧ D s ⊆ D s' ∧ from (D s) (D s') [v]).
  { intros k r s v s' Hr HI H. apply (Hnew k) in H as (I1 & Hn & t' & Et); [|done|done].
    rewrite Et. split; [done|]. split; [by apply insert_subseteq|apply from_one]. }
  induction i as [z| | |l IH] using ainit_ind'; intros k t s v s' H HI; cbn [gen_init init_nodes] in *.
  - destruct (is_i32 t) eqn:Et; [|by apply clean_error in H]. by apply (Hone k) in H.
  - by apply (Hone k) in H.
  - by apply (Hone k) in H.
  - assert (Hl : ∀ b k s vs s', clean (b_map (gen_init new b) l) s vs s' →
      Inv (foldr (λ i n, init_nodes i + n) 0 l + k)%N s → Inv k s' ∧ D s ⊆ D s' ∧ from (D s) (D s') vs).
    { clear H HI k t s v s'. intros b. induction IH as [|i l Hi _ IHl]; intros k s vs s' H HI; cbn [b_map foldr] in *.
      - apply clean_mok in H as [-> ->]. split_and!; [done|done|apply from_refl].
      - cb H as y s1 H1. cb H as ys s2 H2. apply clean_mok in H as [-> ->].
        apply (Hi (foldr (λ i n, init_nodes i + n) 0 l + k)%N) in H1 as (A1 & A2 & A3); [|by replace (init_nodes i + (foldr (λ i n, init_nodes i + n) 0 l + k))%N with (init_nodes i + foldr (λ i n, init_nodes i + n) 0 l + k)%N by lia].
        apply (IHl k) in H2 as (B1 & B2 & B3); [|done].
        split_and!; [done|by etrans|]. apply (from_trans _ _ _ [y] ys B2 A3 B3). }
    assert (Hend : ∀ b s1 vs s2, Inv (foldr (λ i n, init_nodes i + n) 0 l + (1 + k))%N s1 →
       clean (b_map (gen_init new b) l) s1 vs s2 → clean (new (BAggregate vs)) s2 v s' →
       Inv k s' ∧ D s1 ⊆ D s' ∧ from (D s1) (D s') [v]).
    { intros b s1 vs s2 I1 H1 H2. apply Hl with (k := (1 + k)%N) in H1 as (A1 & A2 & A3); [|done].
      apply (Hnew k) in H2 as (B1 & Hn & t' & Et); [|done|done]. rewrite Et.
      split_and!; [done| |by apply from_aggr]. etrans; [exact A2|]. by apply insert_subseteq. }
    clear Hl IH. replace (foldr (λ i n, init_nodes i + n) 0 l + 1 + k)%N with (foldr (λ i n, init_nodes i + n) 0 l + (1 + k))%N in HI by lia.
    destruct t as [| |b n|b|]; try by apply clean_error in H.
    + cb H as u s1 H1. assert (s1 = s) as ->.
      { destruct (N.eqb_spec n (N.of_nat (length l))); [by apply clean_mok in H1 as [_ ->]|by apply clean_log in H1]. }
      cb H as vs s2 H2. by apply (Hend b s vs s2 HI H2 H).
    + cb H as vs s2 H2. by apply (Hend b s vs s2 HI H2 H).
Qed.
End init.

(** ** Inside a function *)
#[local] Hint Extern 9 (Up _) => (cbn beta; case_match) : typeclass_instances.
Section inside.
Context (f : func).
Implicit Types (x : fview) (s : bstate).
Definition at_view x s : Prop := fvs (b_world s) !! f = Some x ∧ room 0 (b_world s).
Lemma at_mv x s m s' : mv f x s m s' → at_view (set_wvals x m) s'.
Proof. intros M. split; [by eapply mv_after|apply M]. Qed.
Definition adding x s s' (R : list value) : Prop := ∃ m, mv f x s m s' ∧ from (w_sk x) (sks m) R.
Lemma adding_refl x s R : at_view x s → adding x s s R.
Proof. intros [H1 H2]. exists (w_vals x). split; [by apply mv_refl|apply from_refl]. Qed.
Lemma adding_trans x s m s1 s2 R1 R2 : mv f x s m s1 → from (w_sk x) (sks m) R1 → adding (set_wvals x m) s1 s2 R2 →
  adding x s s2 (R1 ++ R2).
Proof.
  intros M F1 (m' & M' & F2). exists m'. split; [by eapply mv_trans|].
  eapply from_trans; [|exact F1|exact F2]. unfold w_sk. simpl. apply sks_mono, M'.
Qed.
Lemma add_local_init x t i s v s' : at_view x s → clean (gen_local_init f t i) s v s' → adding x s s' [v].
Proof.
  intros [Hx R] H. destruct (faith_local_init _ _ _ _ _ _ _ Hx R H) as (m & M & _). exists m. split; [done|].
  unfold gen_local_init in H.
  apply (gen_init_from (new_local f)
    (λ s, match fvs (b_world s) !! f with Some x => sks (w_vals x) | None => ∅ end)
    (λ _ s, is_Some (fvs (b_world s) !! f) ∧ room 0 (b_world s))) with (k := 0%N) in H.
  - destruct H as (_ & _ & H). rewrite Hx in H. by rewrite (mv_after _ _ _ _ _ M) in H.
  - intros k r s0 v0 s1 Hr [[x0 Hx0] R0] H0.
    assert (LReq r) as Hl by (by destruct r).
    apply (faith_new _ _ _ _ _ _ Hx0 R0 Hl) in H0 as (t' & Hm & Hn & _). pose proof (mv_after _ _ _ _ _ Hm) as Ha.
    rewrite Hx0, Ha. split; [split; [by eauto|apply Hm]|]. split; [by rewrite lookup_fmap, Hn|].
    exists t'. simpl. by rewrite fmap_insert.
  - split; [by eauto|done].
Qed.
Lemma add_sym_value x bb t n s v s' : clean (gen_sym_value f bb t n) s v s' → s' = s.
Proof.
  intros H. unfold gen_sym_value in H. cb H as v1 s1 H1. apply clean_symbol in H1 as [-> _].
  cb H as t1 s2 H2. apply clean_value_ty in H2 as [-> _]. destruct (ty_eqb t1 t); [|by apply clean_error in H].
  by apply clean_mok in H as [_ ->].
Qed.
Lemma add_value x bb t a s v s' : at_view x s → clean (gen_value f bb t a) s v s' → adding x s s' [v].
Proof.
  intros I H. destruct a as [n|z|]; cbn [gen_value] in H.
  - apply (add_sym_value x) in H as ->. by apply adding_refl.
  - by eapply add_local_init.
  - by eapply add_local_init.
Qed.
Lemma add_store_value x bb t a s v s' : at_view x s → clean (gen_store_value f bb t a) s v s' → adding x s s' [v].
Proof.
  intros I H. destruct a as [n|i]; cbn [gen_store_value] in H.
  - apply (add_sym_value x) in H as ->. by apply adding_refl.
  - by eapply add_local_init.
Qed.
Lemma add_args x bb args tys s vs s' : at_view x s → clean (gen_args f bb args tys) s vs s' → adding x s s' vs.
Proof.
  revert x tys s vs. induction args as [|a args IH]; intros x tys s vs I H.
  { unfold gen_args in H. simpl in H. apply clean_mok in H as [-> ->]. by apply adding_refl. }
  destruct tys as [|t tys]; unfold gen_args in H.
  { simpl in H. apply clean_mok in H as [-> ->]. by apply adding_refl. }
  cbn [zip zip_with b_map fst snd] in H. cb H as y s1 H1. cb H as ys s2 H2. apply clean_mok in H as [-> ->].
  apply (add_value x) in H1 as (m & M & F1); [|done].
  apply (IH (set_wvals x m) tys _ _ (at_mv _ _ _ _ M)) in H2. apply (adding_trans x s m s1 s2 [y] ys M F1 H2).
Qed.
(** A new instruction: the other new values are parts of its operands. *)
Definition making x s v s' : Prop := ∃ m t k o, mv f x s m s' ∧ m !! v = Some (o, (t, k)) ∧
  ∀ u, is_Some (sks m !! u) → is_Some (w_sk x !! u) ∨ u = v ∨ ∃ r, r ∈ operands k ∧ part_of (sks m) r u.
Lemma making_new x r s0 s v s' R : adding x s0 s R → clean (new_local f r) s v s' → LReq r →
  (∀ u, u ∈ R → u ∈ operands (requested r)) → making x s0 v s'.
Proof.
  intros (m & M & F1) H Hr HR. destruct (at_mv _ _ _ _ M) as [Hx R0].
  apply (faith_new _ _ _ _ _ _ Hx R0 Hr) in H as (t & M' & Hn & _). simpl in *.
  assert (Hs : sks (<[v:=(None, (t, requested r))]> m) = <[v := (t, requested r)]> (sks m)) by (by rewrite fmap_insert).
  eexists _, t, (requested r), None. split; [eapply mv_trans; [exact M|exact M']|]. split; [by rewrite lookup_insert|].
  rewrite Hs. intros u Hu. destruct (decide (u = v)) as [-> |Hne]; [by right; left|]. rewrite lookup_insert_ne in Hu by done.
  destruct (F1 u Hu) as [?|(q & Hq & Hp)]; [by left|]. do 2 right. exists q. split; [by apply HR|].
  eapply part_mono; [|done]. apply insert_subseteq. by rewrite lookup_fmap, Hn.
Qed.
Lemma make_call x bb c args s v s' : at_view x s → clean (gen_call f bb c args) s v s' → making x s v s'.
Proof.
  intros I H. unfold clean, gen_call in H. destruct (b_gfuncs s !! c) as [g|] eqn:Hg; [|by apply clean_error in H].
  change (clean (tys <- b_some (fd ← p_funcs (w_prog (b_world s)) !! g;
                      match f_ty fd with TFun ps _ => Some ps | _ => None end);;
       vs <- gen_args f bb args tys;;
       new_local f (BCall g vs)) s v s') in H.
  cb H as tys s1 H1. apply clean_some in H1 as [_ ->]. cb H as vs s2 H2.
  apply (add_args x) in H2; [|done]. eapply making_new; [exact H2|exact H|apply _|done].
Qed.
Lemma elem_l {A} (a : A) l : a ∈ [a] ++ l.
Proof. by left. Qed.
Lemma make_inst x bb e s v s' : at_view x s → clean (gen_inst f bb e) s v s' → making x s v s'.
Proof.
  intros I H. pose proof (adding_refl x s [] I) as M0. destruct e as [a|y|y i|y i|op l r|c args]; cbn [gen_inst] in *.
  - cb H as t s1 H1. apply clean_some in H1 as [Ht ->]. eapply making_new; [exact M0|exact H|apply _|by intros u ?%elem_of_nil].
  - unfold gen_load in H. cb H as u s1 H1. apply clean_symbol in H1 as [-> _].
    cb H as t s2 H2. apply clean_value_ty in H2 as [-> _]. destruct t; try by apply clean_error in H.
    eapply making_new; [exact M0|exact H|apply _|by intros w ?%elem_of_nil].
  - unfold gen_get_ptr in H. cb H as u s1 H1. apply clean_symbol in H1 as [-> _].
    cb H as t s2 H2. apply clean_value_ty in H2 as [-> _]. destruct t; try by apply clean_error in H.
    cb H as w s3 H3. apply (add_value x) in H3; [|done].
    eapply making_new; [exact H3|exact H|apply _|]. intros z ->%elem_of_list_singleton. simpl. set_solver.
  - unfold gen_get_elem_ptr in H. cb H as u s1 H1. apply clean_symbol in H1 as [-> _].
    cb H as t s2 H2. apply clean_value_ty in H2 as [-> _]. destruct t as [| | |[]|]; try by apply clean_error in H.
    cb H as w s3 H3. apply (add_value x) in H3; [|done].
    eapply making_new; [exact H3|exact H|apply _|]. intros z ->%elem_of_list_singleton. simpl. set_solver.
  - unfold gen_binary in H. cb H as u s1 H1. apply (add_value x) in H1 as (m & M & F1); [|done].
    cb H as w s3 H3. apply (add_value _ _ _ _ _ _ _ (at_mv _ _ _ _ M)) in H3.
    pose proof (adding_trans _ _ _ _ _ _ _ M F1 H3) as A.
    eapply making_new; [exact A|exact H|apply _|]. intros z Hz. simpl in *. set_solver.
  - by apply (make_call x) in H.
Qed.
Lemma making_named x s v s1 n w s' bbs : making x s v s1 →
  (if is_temp n then w = b_world s1 else w_name_local f v (Some n) (b_world s1) = Some w) →
  s' = set_bbs bbs (set_world w s1) → room 0 (b_world s') →
  ∃ x', only f x x' (b_world s) (b_world s') ∧ w_fname x' = w_fname x ∧ w_fty x' = w_fty x ∧ w_pars x' = w_pars x ∧
    w_bbs x' = w_bbs x ∧ w_lay x' = w_lay x ∧ w_sk x ⊆ w_sk x' ∧ ∃ t k, w_sk x' !! v = Some (t, k) ∧
    ∀ u, is_Some (w_sk x' !! u) → is_Some (w_sk x !! u) ∨ u = v ∨ ∃ r, r ∈ operands k ∧ part_of (w_sk x') r u.
Proof.
  intros (m & t & k & o & M & Hv & HN) Hw -> R. pose proof (mv_after _ _ _ _ _ M) as Ha. pose proof (mv_only _ _ _ _ _ M) as O1.
  assert (∃ m', only f (set_wvals x m) (set_wvals x m') (b_world s1) w ∧ sks m' = sks m) as (m' & O2 & Es).
  { destruct (is_temp n).
    - subst w. exists m. split; [by apply only_refl|done].
    - apply view_name_local in Hw as (y & z & O & Hz). pose proof (proj1 O) as Hy. rewrite Ha in Hy. injection Hy as <-.
      simpl in *. rewrite Hv in Hz. injection Hz as <-. eexists. split; [exact O|]. rewrite fmap_insert. simpl. apply insert_id.
      by rewrite lookup_fmap, Hv. }
  exists (set_wvals x m'). split; [by eapply only_trans|]. split_and!; try done.
  - unfold w_sk. simpl. rewrite Es. apply sks_mono, M.
  - exists t, k. unfold w_sk. simpl. rewrite Es. split; [by rewrite lookup_fmap, Hv|done].
Qed.
(** Statements: what is listed next *)
Definition stated x s v s' : Prop := ∃ x', at_view x' s' ∧ only f x x' (b_world s) (b_world s') ∧
  w_fname x' = w_fname x ∧ w_fty x' = w_fty x ∧ w_pars x' = w_pars x ∧
  w_bbs x' = w_bbs x ∧ w_lay x' = w_lay x ∧ w_sk x ⊆ w_sk x' ∧ ∃ t k, w_sk x' !! v = Some (t, k) ∧
  ∀ u, is_Some (w_sk x' !! u) → is_Some (w_sk x !! u) ∨ u = v ∨ ∃ r, r ∈ operands k ∧ part_of (w_sk x') r u.
Lemma making_stated x s v s' : making x s v s' → stated x s v s'.
Proof.
  intros (m & t & k & o & M & Hv & HN). exists (set_wvals x m). split; [by eapply at_mv|]. split; [apply M|]. split_and!; try done.
  - unfold w_sk. simpl. apply sks_mono, M.
  - exists t, k. split; [|done]. unfold w_sk. simpl. by rewrite lookup_fmap, Hv.
Qed.
Lemma stated_stmt x bb r st s v s' : at_view x s → clean (gen_stmt f bb r st) s v s' → stated x s v s'.
Proof.
  intros I H. pose proof (adding_refl x s [] I) as M0.
  destruct st as [n e|a d|c args|c t ta e ea|t args|[a|]|]; cbn [gen_stmt] in *.
  1: { pose proof H as R. apply (room_clean 0) in R; [|apply _|apply I].
    apply (clean_stmt_def _ _ r) in H as (s1 & s2 & t & w & info & _ & _ & -> & H1 & _ & _ & Hw & _ & ->).
    assert (I1 : at_view x (set_syms ({[n]} ∪ b_syms s) s)) by done.
    apply (make_inst x) in H1; [|done].
    destruct (making_named _ _ _ _ _ _ _ _ H1 Hw eq_refl R) as (x' & O & E). exists x'. split; [|split; [exact O|exact E]].
    split; [by eapply only_after|done]. }
  all: apply making_stated.
  - unfold gen_store in H. cb H as u s1 H1. apply clean_symbol in H1 as [-> _].
    cb H as t s2 H2. apply clean_value_ty in H2 as [-> _]. destruct t; try by apply clean_error in H.
    cb H as w s3 H3. apply (add_store_value x) in H3; [|done].
    eapply making_new; [exact H3|exact H|apply _|]. intros z ->%elem_of_list_singleton. simpl. set_solver.
  - by apply (make_call x) in H.
  - unfold gen_branch in H. cb H as u s1 H1. apply (add_value x) in H1 as (m & M & F1); [|done].
    cb H as b1 s2 H2. apply clean_gen_bb in H2 as [-> _].
    cb H as tt s3 H3. apply clean_bb_params_ty in H3 as [-> _].
    cb H as vs1 s4 H4. apply (add_args _ _ _ _ _ _ _ (at_mv _ _ _ _ M)) in H4.
    pose proof (adding_trans _ _ _ _ _ _ _ M F1 H4) as (m2 & M2 & F2).
    cb H as b2 s5 H5. apply clean_gen_bb in H5 as [-> _].
    cb H as tt2 s6 H6. apply clean_bb_params_ty in H6 as [-> _].
    cb H as vs2 s7 H7. apply (add_args _ _ _ _ _ _ _ (at_mv _ _ _ _ M2)) in H7.
    pose proof (adding_trans _ _ _ _ _ _ _ M2 F2 H7) as A.
    destruct (_ && _); [by apply clean_error in H|].
    eapply making_new; [exact A|exact H|apply _|]. intros z Hz. simpl in *. set_solver.
  - unfold gen_jump in H. cb H as b s1 H1. apply clean_gen_bb in H1 as [-> _].
    cb H as tt s3 H3. apply clean_bb_params_ty in H3 as [-> _].
    cb H as vs1 s4 H4. apply (add_args x) in H4; [|done].
    eapply making_new; [exact H4|exact H|apply _|done].
  - unfold gen_return in H. destruct (is_unit r); [by apply clean_error in H|].
    cb H as w s3 H3. apply (add_value x) in H3; [|done].
    eapply making_new; [exact H3|exact H|apply _|]. intros z ->%elem_of_list_singleton. simpl. set_solver.
  - unfold gen_return in H. destruct (is_unit r); [|by apply clean_error in H].
    by eapply making_new; [exact M0|exact H|apply _|intros w ?%elem_of_nil].
  - by destruct H.
Qed.
End inside.

(** ** Blocks *)
Record wbelongs (x : fview) (u : value) : Prop := Wb { wb :
  u ∈ w_pars x ∨ (∃ b o ps, w_bbs x !! b = Some (o, ps) ∧ u ∈ ps) ∨ (∃ b is, (b, is) ∈ w_lay x ∧ u ∈ is) ∨
  ∃ b is v t k r, (b, is) ∈ w_lay x ∧ v ∈ is ∧ w_sk x !! v = Some (t, k) ∧ r ∈ operands k ∧ part_of (w_sk x) r u }.
Record wcomp (x : fview) : Prop := {
  wc_blocks : ∀ b, is_Some (w_bbs x !! b) ↔ b ∈ (w_lay x).*1;
  wc_values : ∀ u, is_Some (w_sk x !! u) → wbelongs x u;
  wc_args : ∃ ts r, w_fty x = TFun ts r ∧ numbered (w_sk x) KFuncArg (w_pars x) ts;
  wc_params : ∀ b o ps, w_bbs x !! b = Some (o, ps) → ∃ ts, numbered (w_sk x) KBlockArg ps ts;
}.
Definition covers (l l' : list (bblock * list value)) : Prop :=
  ∀ b is, (b, is) ∈ l → ∃ is', (b, is') ∈ l' ∧ is ⊆ is'.
Lemma wbelongs_mono x x' u : w_pars x' = w_pars x → w_bbs x ⊆ w_bbs x' → covers (w_lay x) (w_lay x') → w_sk x ⊆ w_sk x' →
  wbelongs x u → wbelongs x' u.
Proof.
  intros E1 E2 E3 E4 [H]. constructor. destruct H as [H|[(b & o & ps & H1 & H2)|[(b & is & H1 & H2)|(b & is & v & t & k & r & H1 & H2 & H3 & H4 & H5)]]].
  - left. by rewrite E1.
  - right; left. exists b, o, ps. split; [by eapply lookup_weaken|done].
  - right; right; left. destruct (E3 _ _ H1) as (is' & ? & ?). exists b, is'. split; [done|by set_solver].
  - right; right; right. destruct (E3 _ _ H1) as (is' & ? & ?). exists b, is', v, t, k, r. split_and!; [done|by set_solver|by eapply lookup_weaken|done|by eapply part_mono].
Qed.
Lemma numbered_mono (D D' : dmap) arg ps ts : D ⊆ D' → numbered D arg ps ts → numbered D' arg ps ts.
Proof. intros HD (H1 & H2 & H3). split_and!; [done..|]. intros. eapply lookup_weaken; [by eapply H3|done]. Qed.
Lemma set_bb_keys b is l : (set_bb b is l).*1 = l.*1.
Proof. induction l as [|[c js] l IH]; [done|]. simpl. destruct (N.eqb_spec c b); simpl; [done|by f_equal]. Qed.
Lemma set_bb_in b is is0 l : find_bb b l = Some is0 → (b, is) ∈ set_bb b is l.
Proof.
  induction l as [|[c js] l IH]; [done|]. simpl. destruct (N.eqb_spec c b) as [-> |]; [by left|]. intros H. right. by apply IH.
Qed.
Lemma set_bb_covers b v is0 l : find_bb b l = Some is0 → covers l (set_bb b (is0 ++ [v]) l).
Proof.
  induction l as [|[c js] l IH]; [done|]. simpl. destruct (N.eqb_spec c b) as [-> |].
  - intros [= ->] d is [[= -> ->]|H]%elem_of_cons.
    + eexists. split; [by left|]. set_solver.
    + exists is. split; [by right|done].
  - intros Hf d is [[= -> ->]|H]%elem_of_cons.
    + exists js. split; [by left|done].
    + destruct (IH Hf _ _ H) as (is' & ? & ?). exists is'. split; [by right|done].
Qed.
Lemma covers_refl l : covers l l.
Proof. intros b is H. by exists is. Qed.
(** A new block is in no function. *)
Lemma fresh_bb k f n ps w b w' : w_new_bb f n ps w = Some (b, w') → room k w →
  ∀ g y, fvs w !! g = Some y → w_bbs y !! b = None.
Proof.
  intros H R. apply on_dfg_inv in H as (fd & i' & gs' & g' & Hf & H & ->).
  unfold basic_block_with_param_names in H.
  apply bind_Some in H as ([] & _ & H). apply bind_Some in H as ([] & _ & H).
  apply bind_Some in H as ([[[vs i1] gs1] g1] & Ha & H).
  apply bind_Some in H as ([[b1 i2] g2] & Hb & H). injection H as <- <- <- <-.
  destruct (room_lv _ _ R) as (R1 & R2 & R3). destruct (room_bb _ _ R) as (R4 & R5).
  apply new_block_args_exact in Ha as (-> & E1 & E2 & E3 & E4 & E5); [|done].
  unfold dfg_new_bb_data in Hb. apply bind_Some in Hb as ([b2 i3] & Hid & Hb).
  injection Hb as <- <- <-. apply next_bb_spec in Hid as (-> & Hne & ->). simpl.
  intros g y Hy. apply eq_None_not_Some. intros Hs. eapply R5 in Hs; [|done]. rewrite E2 in Hs, Hne. unfold ub in Hs.
  destruct (N.eqb_spec (next_bb (w_ids w)) 0); lia.
Qed.
Section blocks.
Context (f : func).
Implicit Types (x : fview) (s : bstate).
(** A complete function is made of a complete one. *)
Definition goes_on x s x' s' : Prop := only f x x' (b_world s) (b_world s') ∧ room 0 (b_world s') ∧ (wcomp x → wcomp x') ∧
  ∀ b, is_Some (w_bbs x' !! b) → is_Some (w_bbs x !! b) ∨ ∀ g y, g ≠ f → fvs (b_world s) !! g = Some y → w_bbs y !! b = None.
Lemma goes_refl x s : at_view f x s → goes_on x s x s.
Proof. intros [H1 H2]. split_and!; [by apply only_refl|done|done|by left]. Qed.
Lemma goes_trans x s y s1 z s2 : goes_on x s y s1 → goes_on y s1 z s2 → goes_on x s z s2.
Proof.
  intros (A1 & A2 & A3 & A4) (B1 & B2 & B3 & B4). split_and!; [by eapply only_trans|done|auto|].
  intros b [Hb|Hb]%B4; [by apply A4|right]. intros g q Hg Hq. apply (Hb g q Hg).
  destruct A1 as (_ & -> & _). by rewrite lookup_insert_ne.
Qed.
Lemma goes_at x s y s1 : goes_on x s y s1 → at_view f y s1.
Proof. intros (A1 & A2 & _). split; [by eapply only_after|done]. Qed.
Lemma comp_stmts nm r sts : ∀ x s u s', at_view f x s →
  clean (b_each (λ st, b_ok (gen_stmt f nm r st) (push_step f nm)) sts) s u s' → ∃ x', goes_on x s x' s'.
Proof.
  induction sts as [|st sts IH]; intros x s u s' I H; cbn [b_each] in H.
  { apply clean_mok in H as [_ ->]. exists x. by apply goes_refl. }
  cb H as u1 s1 H1. pose proof (room_clean 0 _ _ _ _ _ H1 (proj2 I)) as R.
  apply clean_block_step in H1 as [[_ ->]|(v & s2 & info & w & H1 & Hi & Hw & ->)]; [by eapply IH|].
  apply (stated_stmt f x) in H1 as (y & Iy & O1 & _ & E1 & E2 & E3 & E4 & E5 & t & k & Hv & HN); [|done].
  apply view_push_inst in Hw as (y' & is & O & His).
  pose proof (proj1 O) as Ey. rewrite (proj1 Iy) in Ey. injection Ey as <-.
  set (z := set_wlay y (set_bb (bi_bb info) (is ++ [v]) (w_lay y))) in *.
  assert (Gz : goes_on x s z (set_world w s2)).
  { split_and!; [by eapply only_trans|done| |intros b Hb; simpl in Hb; rewrite E3 in Hb; by left]. intros [C1 C2 C3 C4]. constructor.
    - intros b. simpl in *. rewrite E3, set_bb_keys, E4. by apply C1.
    - intros q Hq. destruct (HN q Hq) as [Hq'|[-> |(r0 & Hr & Hp)]].
      + eapply wbelongs_mono; [..|by apply C2]; simpl; [done|by rewrite E3| |done]. rewrite <- E4. by apply set_bb_covers.
      + constructor. right; right; left. exists (bi_bb info), (is ++ [v]). split; [simpl; by eapply set_bb_in|set_solver].
      + constructor. right; right; right. exists (bi_bb info), (is ++ [v]), v, t, k, r0.
        split_and!; [simpl; by eapply set_bb_in|set_solver|done..].
    - destruct C3 as (ts & r0 & ? & ?). exists ts, r0. split; [simpl; congruence|]. simpl. rewrite E2. by eapply numbered_mono.
    - intros b o ps Hb. simpl in Hb. rewrite E3 in Hb. destruct (C4 _ _ _ Hb) as (ts & ?). exists ts. by eapply numbered_mono. }
  destruct (IH _ _ _ _ (goes_at _ _ _ _ Gz) H) as (x' & G'). exists x'. by eapply goes_trans.
Qed.
Lemma comp_blocks r bl : ∀ x s u s', at_view f x s → clean (b_each (build_block f r) bl) s u s' → ∃ x', goes_on x s x' s'.
Proof.
  induction bl as [|b bl IH]; intros x s u s' I H; cbn [b_each] in H.
  { apply clean_mok in H as [_ ->]. exists x. by apply goes_refl. }
  cb H as u1 s1 H1. rewrite build_block_eq in H1. apply (comp_stmts _ _ _ x) in H1 as (y & Gy); [|done].
  destruct (IH _ _ _ _ (goes_at _ _ _ _ Gy) H) as (x' & G'). exists x'. by eapply goes_trans.
Qed.
Lemma adds_numbered m m' arg ps vs : adds_views m m' arg ps vs → numbered (sks m') arg vs (map snd ps).
Proof.
  intros (V1 & V2 & V3 & V4 & V5). split_and!; [done|by rewrite map_length|].
  intros j v t Hv Ht. rewrite list_lookup_fmap in Ht. apply fmap_Some in Ht as ([n t'] & Hp & ->).
  by rewrite lookup_fmap, (V5 _ _ _ _ Hv Hp).
Qed.
Lemma comp_init_bb x s b u s' : at_view f x s → clean (init_bb f b) s u s' → ∃ x', goes_on x s x' s'.
Proof.
  intros I H. pose proof (room_clean 0 _ _ _ _ _ H (proj2 I)) as R.
  apply clean_init_bb in H as (ps & h & w1 & w2 & fd & bd & d & s1 & H1 & H2 & H3 & H4 & H5 & H6 & E & ->).
  pose proof (fresh_bb 0 _ _ _ _ _ _ H2 (proj2 I)) as Hfresh.
  apply (view_new_bb 0) in H2 as (y & m & vs & O1 & Hh & Hadd); [|apply I].
  pose proof (proj1 O1) as Hy. rewrite (proj1 I) in Hy. injection Hy as <-.
  apply view_push_bb in H3 as (y & O2). pose proof (proj1 O2) as Hy. rewrite (only_after _ _ _ _ _ O1) in Hy. injection Hy as <-.
  pose proof (only_trans _ _ _ _ _ _ _ O1 O2) as O. clear O1 O2.
  pose proof (adds_views_sub _ _ _ _ _ Hadd) as Hsub. pose proof (adds_numbered _ _ _ _ _ Hadd) as Hnum.
  destruct Hadd as (V1 & V2 & V3 & V4 & V5).
  eexists. rewrite E in *. split_and!; [exact O|done| |].
  2: { simpl. intros c Hc. destruct (decide (c = h)) as [-> |Hne]; [right; intros g q _; apply Hfresh|left].
       by rewrite lookup_insert_ne in Hc. }
  intros [C1 C2 C3 C4].
  assert (Hc : covers (w_lay x) (w_lay x ++ [(h, [])])).
  { intros c is Hc. exists is. split; [apply elem_of_app; by left|done]. }
  constructor; unfold w_sk in *; simpl in *.
  - intros c. rewrite fmap_app, elem_of_app, <- C1. simpl. rewrite elem_of_list_singleton.
    destruct (decide (c = h)) as [-> |Hne]; [rewrite lookup_insert; naive_solver|].
    rewrite lookup_insert_ne by done. naive_solver.
  - intros q Hq. destruct (decide (q ∈ vs)) as [Hv|Hv].
    + constructor. right; left. exists h, (opt_name (b_name b)), vs. split; [simpl; by rewrite lookup_insert|done].
    + assert (is_Some (sks (w_vals x) !! q)) as Hq' by (rewrite lookup_fmap in Hq |- *; by rewrite V4 in Hq).
      eapply wbelongs_mono; [..|by apply C2]; simpl; [done|by apply insert_subseteq|done|]. unfold w_sk. simpl. by apply sks_mono.
  - destruct C3 as (ts & r0 & ? & ?). exists ts, r0. split; [done|]. eapply numbered_mono; [|done]. by apply sks_mono.
  - intros c o qs [[<- [= <- <-]]|[_ Hc']]%lookup_insert_Some; [by eexists|].
    destruct (C4 _ _ _ Hc') as (ts & ?). exists ts. eapply numbered_mono; [|done]. by apply sks_mono.
Qed.
Lemma comp_init_bbs l : ∀ x s u s', at_view f x s → clean (b_each (init_bb f) l) s u s' → ∃ x', goes_on x s x' s'.
Proof.
  induction l as [|b bl IH]; intros x s u s' I H; cbn [b_each] in H.
  { apply clean_mok in H as [_ ->]. exists x. by apply goes_refl. }
  cb H as u1 s1 H1. apply (comp_init_bb x) in H1 as (y & Gy); [|done].
  destruct (IH _ _ _ _ (goes_at _ _ _ _ Gy) H) as (x' & G'). exists x'. by eapply goes_trans.
Qed.
Lemma comp_init_local x s args l u s' : at_view f x s → clean (init_local_bbs f args l) s u s' → ∃ x', goes_on x s x' s'.
Proof.
  rewrite init_local_eq. intros I H. cb H as u1 s1 H1. apply clean_upd in H1 as ->. cb H as u2 s2 H2.
  apply (comp_init_bbs l x) in H2 as (y & G1 & G2 & G3 & G4); [|done].
  cb H as u3 s3 H3. apply clean_upd in H3 as ->.
  cb H as e s4 H4. apply clean_some in H4 as [He ->]. cb H as u5 s5 H5. apply linked_steps in H as (L1 & L2 & _ & _).
  apply clean_entry_step in H5 as (info & Hi & ->). exists y. rewrite L1. split_and!; done.
Qed.
End blocks.
Lemma comp_fun_def n ps r bbs s u s' : room 0 (b_world s) → clean (build_fun_def n ps r bbs) s u s' →
  ∃ f x, fvs (b_world s) !! f = None ∧ fvs (b_world s') = <[f := x]> (fvs (b_world s)) ∧
    gvs (b_world s') = gvs (b_world s) ∧ p_inst_layout (w_prog (b_world s')) = p_inst_layout (w_prog (b_world s)) ∧
    p_func_layout (w_prog (b_world s')) = p_func_layout (w_prog (b_world s)) ++ [f] ∧ wcomp x ∧
    ∀ b g y, is_Some (w_bbs x !! b) → fvs (b_world s) !! g = Some y → w_bbs y !! b = None.
Proof.
  intros R H. pose proof (room_clean 0 _ _ _ _ _ H R) as R'.
  apply clean_fun_def in H as (ret & ps' & f & w1 & fd & args & l & k & s1 & H1 & H2 & H3 & H4 & H5 & H6 & H7 & H8 & H9 & H10).
  assert (R1 : room 0 w1).
  { apply (room_clean 0 (b_prog (w_new_func_def n ps' ret)) s f (set_world w1 s)); [apply _| |done].
    split; [|done]. unfold b_prog. by rewrite H3. }
  apply (view_new_def 0) in H3 as (m & vs & Hf & F1 & F2 & F3 & F4 & Hadd); [|done].
  pose proof (adds_numbered _ _ _ _ _ Hadd) as Hnum. destruct Hadd as (V1 & V2 & V3 & V4 & V5).
  set (x0 := FView n (TFun (map snd ps') ret) vs m ∅ []) in *.
  eapply (comp_init_local f x0) in H9 as (x1 & G1).
  2: { split; [simpl; by rewrite F1, lookup_insert|done]. }
  apply (comp_blocks f _ _ _ _ _ _ (goes_at _ _ _ _ _ G1)) in H10 as (x2 & G2).
  destruct (goes_trans _ _ _ _ _ _ _ G1 G2) as ((_ & O1 & O2 & O3 & O4) & _ & C & Hown). simpl in *.
  exists f, x2. split; [done|]. split; [rewrite O1, F1; apply insert_insert|]. split; [congruence|]. split; [congruence|].
  split; [congruence|]. split.
  2: { intros b g y [[? Hb]|Hb]%Hown Hy; [done|]. apply (Hb g y); [intros ->; congruence|]. rewrite F1, lookup_insert_ne; [done|]. intros ->. congruence. }
  apply C. constructor; unfold w_sk; simpl.
  - intros b. split; [intros [? Hb]; done|intros Hb; by apply elem_of_nil in Hb].
  - intros q Hq. constructor. left. simpl. destruct (decide (q ∈ vs)) as [Hv|Hv]; [done|].
    rewrite lookup_fmap, V4 in Hq by done. by apply is_Some_None in Hq.
  - by exists (map snd ps'), ret.
  - done.
Qed.

(** ** Programs *)
Definition wdecl (x : fview) : Prop := w_pars x = [] ∧ w_vals x = ∅ ∧ w_bbs x = ∅ ∧ w_lay x = [] ∧ ∃ ts r, w_fty x = TFun ts r.
Definition all_global (w : world) : Prop := ∀ u y, gvs w !! u = Some y → is_global_id u = true ∧ (u ∉ p_inst_layout (w_prog w) → y.1 = None).
Record gcomp (w : world) : Prop := {
  gc_funcs : ∀ f x, fvs w !! f = Some x → f ∈ p_func_layout (w_prog w) ∧ (wcomp x ∨ wdecl x);
  gc_gid : all_global w;
  gc_own : ∀ f g x y b, fvs w !! f = Some x → fvs w !! g = Some y → is_Some (w_bbs x !! b) → is_Some (w_bbs y !! b) → f = g;
  gc_values : ∀ u, is_Some (sks (gvs w) !! u) → u ∈ p_inst_layout (w_prog w) ∨
    ∃ v t i, v ∈ p_inst_layout (w_prog w) ∧ sks (gvs w) !! v = Some (t, KGlobalAlloc i) ∧ part_of (sks (gvs w)) i u;
}.
Lemma gcomp_fun w w' f x : gcomp w → fvs w !! f = None → fvs w' = <[f := x]> (fvs w) → gvs w' = gvs w →
  p_inst_layout (w_prog w') = p_inst_layout (w_prog w) → p_func_layout (w_prog w') = p_func_layout (w_prog w) ++ [f] →
  wcomp x ∨ wdecl x → (∀ b g y, is_Some (w_bbs x !! b) → fvs w !! g = Some y → w_bbs y !! b = None) → gcomp w'.
Proof.
  intros [A1 A4 A3 A2] Hf E1 E2 E3 E4 Hx Ho. constructor.
  - intros g y. rewrite E1, E4. intros [[<- <-]|[_ Hy]]%lookup_insert_Some; [split; [set_solver|done]|].
    apply A1 in Hy as [? ?]. split; [set_solver|done].
  - intros u y. rewrite E2, E3. apply A4.
  - rewrite E1. intros g h y z b [[<- <-]|[Hg Hy]]%lookup_insert_Some [[<- <-]|[Hh Hz]]%lookup_insert_Some Hb Hb'.
    + done.
    + rewrite (Ho _ _ _ Hb Hz) in Hb'. by apply is_Some_None in Hb'.
    + rewrite (Ho _ _ _ Hb' Hy) in Hb. by apply is_Some_None in Hb.
    + by eapply A3.
  - by rewrite E2, E3.
Qed.
Lemma add_global_init t i k s v s' : room (init_nodes i + k) (b_world s) → clean (gen_global_init t i) s v s' → all_global (b_world s) →
  from (sks (gvs (b_world s))) (sks (gvs (b_world s'))) [v] ∧ all_global (b_world s').
Proof.
  intros R H HG. unfold gen_global_init in H.
  apply (gen_init_from new_global (λ s, sks (gvs (b_world s))) (λ k s, room k (b_world s) ∧ all_global (b_world s))) with (k := k) in H; [destruct H as ((_ & H1) & _ & H2); done| |done].
  intros k' r s0 v0 s1 Hr [R0 HG0] H0. apply clean_prog in H0 as (w & H0 & ->).
  assert (global_req r = true) as Hg by (by destruct r).
  apply (view_new_global k') in H0 as (d & Hd & Hn & Hi & V1 & V2 & V3 & V4 & V5); [|done|done].
  split_and!; [done| |by rewrite lookup_fmap, Hn|].
  - intros u y. simpl. rewrite V1. assert (p_inst_layout (w_prog w) = p_inst_layout (w_prog (b_world s0))) as -> by (rewrite V4; destruct r; try done; simpl; by rewrite app_nil_r).
    intros [[<- <-]|[_ Hu]]%lookup_insert_Some; [done|]. by apply HG0.
  - exists (v_ty d). simpl. by rewrite V1, fmap_insert.
Qed.
Lemma gcomp_step t k s s' : gcomp (b_world s) → room (globals_in t + k) (b_world s) → no_err_top t →
  clean (build_on t) s tt s' → gcomp (b_world s') ∧ room k (b_world s').
Proof.
  intros C R Herr H. destruct t as [n t i|n ps r bbs|n ps r| |]; cbn [build_on] in H.
  - cbn [globals_in] in R. replace (init_nodes i + 1 + k)%N with (init_nodes i + (1 + k))%N in R by lia.
    apply clean_global in H as (t' & s0 & init & v & w1 & w2 & H1 & H2 & _ & H3 & H4 & H5 & H6 & ->).
    destruct (add_global_init _ _ _ _ _ _ R H2 (gc_gid _ C)) as [F1 HG].
    apply (faith_global_init _ _ (1 + k)) in H2 as (R0 & A & _ & _); [|done].
    apply (view_new_global k) in H3 as (d & Hd & Hn & Hi & V1 & V2 & V3 & V4 & V5); [|done|done].
    simpl in V4. destruct A as [[w0 ->] A2 A3 A4 A5]. simpl in *.
    assert (gvs w2 = <[v := (opt_name n, (v_ty d, KGlobalAlloc init))]> (gvs w0) ∧ fvs w2 = fvs w1 ∧
      p_func_layout (w_prog w2) = p_func_layout (w_prog w1) ∧ p_inst_layout (w_prog w2) = p_inst_layout (w_prog w1) ∧ room k w2)
      as (W1 & W2 & W3 & W4 & W5).
    { rewrite opt_name_if. destruct (is_temp n); [by subst w2|]. pose proof (room_name_global _ _ _ _ _ H4 V5).
      apply view_name_global in H4 as (y & Hy & B1 & B2 & B3 & B4). rewrite V1 in Hy, B1.
      rewrite lookup_insert in Hy. injection Hy as <-. rewrite insert_insert in B1. done. }
    split; [|done]. destruct C as [C1 C4 C3 C2].
    assert (Hsub : sks (gvs w0) ⊆ sks (gvs w2)).
    { rewrite W1. apply sks_mono. by apply insert_subseteq. }
    constructor.
    + rewrite W2, V2, A3, W3, V3, A4. done.
    + intros u y. rewrite W1, W4, V4. intros [[<- <-]|[_ Hu]]%lookup_insert_Some; [split; [done|set_solver]|].
      destruct (HG u y Hu) as [H7 H8]. split; [done|]. intros H9. apply H8. simpl. set_solver.
    + rewrite W2, V2, A3. done.
    + rewrite W4, V4, A5. intros u Hu. destruct (decide (u = v)) as [-> |Hne]; [left; set_solver|].
      rewrite W1, fmap_insert, lookup_insert_ne in Hu by done. destruct (F1 u Hu) as [Hu'|(q & ->%elem_of_list_singleton & Hp)].
      * destruct (C2 u Hu') as [?|(v1 & t1 & i1 & H7 & H8 & H9)]; [left; set_solver|right]. exists v1, t1, i1.
        assert (sks (gvs (b_world s)) ⊆ sks (gvs w2)) as Hsub' by (etrans; [by apply sks_mono, A2|done]).
        split_and!; [set_solver|by eapply lookup_weaken|by eapply part_mono].
      * right. exists v, (v_ty d), init. split_and!; [set_solver|by rewrite W1, lookup_fmap, lookup_insert|by eapply part_mono].
  - simpl in R. pose proof (room_clean k _ _ _ _ _ H R) as R'. split; [|done].
    apply comp_fun_def in H as (f & x & B1 & B2 & B3 & B4 & B5 & B6 & B7); [|eapply room_mono; [|done]; lia].
    eapply gcomp_fun; try done. by left.
  - simpl in R. pose proof (room_clean k _ _ _ _ _ H R) as R'. split; [|done].
    apply clean_fun_decl in H as (ret & ps' & f & w1 & H1 & H2 & H3 & H4 & H5 & ->).
    apply (view_new_decl k) in H3 as (V1 & V2 & V3 & V4 & V5); [|done].
    eapply gcomp_fun; try done.
    + right. split_and!; [done..|]. by exists ps', ret.
    + simpl. intros b g y [? Hb]. done.
  - apply clean_mok in H as [_ ->]. done.
  - done.
Qed.
Lemma builds_gcomp ts : ∀ s b, gcomp (b_world s) → room (foldr (λ t n, globals_in t + n) 0 ts)%N (b_world s) →
  Forall no_err_top ts → builds s ts b → gcomp (b_world b).
Proof.
  induction ts as [|t ts IH]; intros s b T R Herr H; inversion H as [|? ? s1 ? ? H1 H2 H3]; subst; [done|].
  apply list.Forall_cons in Herr as [E1 E2]. simpl in R.
  destruct (gcomp_step _ _ _ _ T R E1 (conj H1 H2)) as (T' & R'). by apply (IH _ _ T' R' E2).
Qed.
Lemma wcomp_fun fd : (blks fd = ∅ → vals fd = ∅) → wcomp (fv fd) ∨ wdecl (fv fd) → complete_fun fd.
Proof.
  intros He0 [[C1 C2 C3 C4]|(C1 & C2 & C3 & C4 & ts & r & C5)].
  - unfold w_sk in *. simpl in *. rewrite <- datas_vim in *. constructor.
    + intros b. rewrite <- C1, lookup_fmap, fmap_is_Some. done.
    + intros u [d Hu]. destruct (C2 u) as [H]; [unfold datas; by rewrite lookup_fmap, Hu|].
      unfold w_sk in H. simpl in H. rewrite <- datas_vim in H.
      destruct H as [H|[(b & o & ps & H1 & H2)|[(b & is & H1 & H2)|(b & is & v & t & k & q & H1 & H2 & H3 & H4 & H5)]]].
      * by apply be_arg.
      * rewrite lookup_fmap in H1. apply fmap_Some in H1 as (e & He & E). injection E as -> ->. by eapply be_param.
      * by eapply be_inst.
      * unfold datas in H3. rewrite lookup_fmap in H3. apply fmap_Some in H3 as (e & He & E). injection E as -> ->. by eapply be_const.
    + destruct C3 as (ts & r & E & Hn). exists ts, r. split_and!; [done|done|]. intros Hb.
      destruct (f_params fd) as [|v ps] eqn:Ep; [done|].
      destruct Hn as (_ & Hl & Hn). destruct ts as [|t ts]; [done|]. specialize (Hn 0 v t eq_refl eq_refl).
      unfold datas in Hn. by rewrite (He0 Hb), fmap_empty in Hn.
    + intros b d Hb. apply (C4 b (bb_name d)). by rewrite lookup_fmap, Hb.
  - simpl in *. apply fmap_empty_inv in C2, C3. constructor.
    + intros b. rewrite C4, C3. split; [intros [? Hb]; done|intros Hb; by apply elem_of_nil in Hb].
    + intros b [d Hb]. by rewrite C2 in Hb.
    + exists ts, r. split_and!; [done|by rewrite C3|done].
    + intros b d Hb. by rewrite C3 in Hb.
Qed.
Definition own_blocks (p : program) : Prop := ∀ f f' fd fd' b, p_funcs p !! f = Some fd → p_funcs p !! f' = Some fd' →
  is_Some (blks fd !! b) → is_Some (blks fd' !! b) → f = f'.
Lemma built_complete ts b : builds (bstate0 ids0 0 0) ts b → Forall no_err_top ts →
  (foldr (λ t n, globals_in t + n) 0 ts < local_value_id_starts_from)%N → complete (w_prog (b_world b)) ∧ own_blocks (w_prog (b_world b)) ∧
  ∀ v d, p_values (w_prog (b_world b)) !! v = Some d → is_global_id v = true ∧ (v ∉ p_inst_layout (w_prog (b_world b)) → v_name d = None).
Proof.
  intros Hb Herr Hg. destruct (built_faithful _ _ Hb Herr Hg) as (G & Fn & _ & Hf & _).
  destruct (builds_gcomp ts (bstate0 ids0 0 0) b) as [C1 C4 C3 C2]; try done.
  - constructor; simpl.
    + intros f x Hx. by rewrite fmap_empty in Hx.
    + by intros u y Hu.
    + intros f g x y b' Hx. by rewrite fmap_empty in Hx.
    + intros u [y Hu]. by rewrite !fmap_empty in Hu.
  - by apply room0.
  - split_and!.
    3: { intros v d Hv. apply (C4 v (v_name d, (v_ty d, v_kind d))). by rewrite lookup_fmap, Hv. }
    2: { intros f g fd gd c Hf' Hg' Hc Hc'. apply (C3 f g (fv fd) (fv gd) c); simpl; rewrite lookup_fmap; [by rewrite Hf'|by rewrite Hg'|by rewrite fmap_is_Some..]. }
    constructor.
    + intros f fd Hfd. destruct (C1 f (fv fd)) as [Hl Hc]; [by rewrite lookup_fmap, Hfd|]. split; [done|]. apply wcomp_fun; [|done].
      intros He. apply elem_of_list_lookup in Hl as [j Hj]. destruct (Forall2_lookup_l _ _ _ _ _ Hf Hj) as (t & _ & fd' & Hfd' & _ & Ht).
      rewrite Hfd in Hfd'. injection Hfd' as <-. destruct t; try done; simpl in Ht.
      * by destruct Ht as (_ & ? & _).
      * by destruct Ht as (_ & _ & ? & _).
    + rewrite <- datas_vim in C2. intros u [d Hu]. destruct (C2 u) as [?|(v & t & i & H1 & H2 & H3)]; [unfold datas; by rewrite lookup_fmap, Hu|by left|right].
      unfold datas in H2. rewrite lookup_fmap in H2. apply fmap_Some in H2 as (e & He & E). injection E as -> E. by exists v, e, i.
Qed.
Lemma read_complete r p n b s ts s' :
  read_program r = (Rok p, n, b) → driver_new r = (Rok s, 0%N) → parses s ts s' →
  (foldr (λ t n, globals_in t + n) 0 ts < local_value_id_starts_from)%N → complete p ∧ own_blocks p ∧
  ∀ v d, p_values p !! v = Some d → is_global_id v = true ∧ (v ∉ p_inst_layout p → v_name d = None).
Proof.
  intros Hr Hd Hp Hg. unfold read_program in Hr. rewrite Hd in Hr.
  destruct (generate_ok _ _ _ _ _ _ _ _ _ Hd Hr) as (_ & _ & s1 & ts' & s2 & E & Hp' & _ & _ & Herr & Hb & _ & ->).
  injection E as <-. assert (ts' = ts) as -> by (by eapply parses_det).
  by eapply built_complete.
Qed.
