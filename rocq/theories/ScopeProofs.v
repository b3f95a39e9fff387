(** The operands of the instructions that the front end builds are available (C50). *)
From Coq Require Import Lia ZifyBool ZifyNat ZifyN.
From Verif Require Import TypeProofs.
From Verif Require Import Base IdModel TypeModel IrModel LayoutModel BuilderModel WorldModel
  LexerModel ParserModel ParserSpec FrontModel FrontProofs FlowSpec FlowProofs BlockListProofs
  CleanProofs BuildCleanProofs FunCleanProofs FlowBuildProofs DriverModel DriverSpec DriverProofs UsesSpec UsesProofs
  DfgSpec DfgProofs WorldSpec WorldProofs TypingSpec TypingProofs TypingHistory EqHistory SkelProofs ParamProofs HistoryProofs
  FaithSpec RoundProofs ViewProofs FaithProofs FaithFunProofs FaithTopProofs ScopeSpec.

(** ** Operands *)
Lemma local_symbol_path bbs sym fuel : ∀ V bb v V', local_symbol fuel bbs V bb sym = Rok (Some v, V') →
  ∃ b, rtc (pred_of bbs) bb b ∧ defines bbs b sym v.
Proof.
  induction fuel as [|fuel IH]; intros V bb v V' H; [done|]. cbn [local_symbol] in H. case_decide; [done|].
  destruct (bbs !! bb) as [info|] eqn:Hb; [|done]. destruct (bi_defs info !! sym) as [v'|] eqn:Hd.
  { injection H as <- _. exists bb. split; [done|]. by exists info. }
  assert (Hp : ∀ p, p ∈ bi_preds info → pred_of bbs bb p) by (intros p Hp; by exists info).
  revert Hp H. generalize ({[bb]} ∪ V). induction (bi_preds info) as [|p ps IHp]; intros W Hp H; [done|].
  destruct (local_symbol fuel bbs W p sym) as [[[u|] W']|e| |] eqn:E; try done.
  - injection H as <- _. destruct (IH _ _ _ _ E) as (b & Hb1 & Hb2). exists b. split; [|done].
    eapply rtc_l; [apply Hp; by left|done].
  - eapply IHp; [|exact H]. intros q Hq. apply Hp. by right.
Qed.
#[local] Hint Extern 9 (Up _) => (cbn beta; case_match) : typeclass_instances.
Section operands.
Context (f : func) (G Fn L B : gmap N string) (bbs : gmap string bbinfo) (gv : gmap string value) (bb : string).
Implicit Types (x : fview) (s : bstate).
Definition found (D : gmap N (ty * vkind)) (u : value) : Prop :=
  (∃ n, gv !! n = Some u) ∨ (∃ i, const_is D u i) ∨ ∃ n c, rtc (pred_of bbs) bb c ∧ defines bbs c n u.
Definition here s : Prop := b_bbs s = bbs ∧ b_gvars s = gv.
Lemma found_mono (D D' : gmap N (ty * vkind)) u : D ⊆ D' → found D u → found D' u.
Proof. intros HD [?|[[i Hi]|?]]; [by left| |by right; right]. right. left. exists i. by eapply const_mono. Qed.
Lemma here_wo s s' : here s → wo s s' → here s'.
Proof. by intros H [w ->]. Qed.
Lemma oper_symbol n s v s' D : here s → clean (gen_symbol bb n) s v s' → s' = s ∧ found D v.
Proof.
  intros [E1 E2] H. apply clean_symbol in H as [-> H]. split; [done|]. rewrite E1, E2 in H. destruct H as [H|(_ & V & H)].
  - left. by exists n.
  - right. right. apply local_symbol_path in H as (c & Hc & Hd). by exists n, c.
Qed.
Lemma oper_sym_value t n s v s' D : here s → clean (gen_sym_value f bb t n) s v s' → s' = s ∧ found D v.
Proof.
  intros I H. unfold gen_sym_value in H. cb H as v1 s1 H1. apply (oper_symbol _ _ _ _ D) in H1 as [-> H1]; [|done].
  cb H as t1 s2 H2. apply clean_value_ty in H2 as [-> _]. destruct (ty_eqb t1 t); [|by apply clean_error in H].
  by apply clean_mok in H as [-> ->].
Qed.
Lemma oper_value x t a s v s' : fi f G Fn x L B s → here s → clean (gen_value f bb t a) s v s' →
  ∃ m, mv f x s m s' ∧ found (sks m) v.
Proof.
  intros I E H. destruct a as [n|z|]; cbn [gen_value] in *.
  - apply (oper_sym_value _ _ _ _ _ (sks (w_vals x))) in H as [-> H]; [|done]. exists (w_vals x). split; [by eapply fi_refl|done].
  - eapply faith_local_init in H as (m & M & Hc); [|apply I|apply I]. exists m. split; [done|]. right. left. by eexists.
  - eapply faith_local_init in H as (m & M & Hc); [|apply I|apply I]. exists m. split; [done|]. right. left. by eexists.
Qed.
Lemma oper_store_value x t a s v s' : fi f G Fn x L B s → here s → clean (gen_store_value f bb t a) s v s' →
  ∃ m, mv f x s m s' ∧ found (sks m) v.
Proof.
  intros I E H. destruct a as [n|i]; cbn [gen_store_value] in *.
  - apply (oper_sym_value _ _ _ _ _ (sks (w_vals x))) in H as [-> H]; [|done]. exists (w_vals x). split; [by eapply fi_refl|done].
  - eapply faith_local_init in H as (m & M & Hc); [|apply I|apply I]. exists m. split; [done|]. right. left. by eexists.
Qed.
Definition founds (D : gmap N (ty * vkind)) (us : list value) : Prop := ∀ u, u ∈ us → found D u.
Lemma founds_mono (D D' : gmap N (ty * vkind)) us : D ⊆ D' → founds D us → founds D' us.
Proof. intros HD H u Hu. by eapply found_mono, H. Qed.
Lemma founds_nil D : founds D [].
Proof. by intros u ?%elem_of_nil. Qed.
Lemma founds_cons D u us : found D u → founds D us → founds D (u :: us).
Proof. intros H1 H2 w [-> |Hw]%elem_of_cons; [done|by apply H2]. Qed.
Lemma founds_app D us ws : founds D us → founds D ws → founds D (us ++ ws).
Proof. intros H1 H2 w [Hw|Hw]%elem_of_app; [by apply H1|by apply H2]. Qed.
Lemma oper_args x args tys s vs s' : fi f G Fn x L B s → here s → clean (gen_args f bb args tys) s vs s' →
  ∃ m, mv f x s m s' ∧ founds (sks m) vs.
Proof.
  revert x tys s vs. induction args as [|a args IH]; intros x tys s vs I E H.
  { unfold gen_args in H. simpl in H. apply clean_mok in H as [-> ->]. exists (w_vals x).
    split; [by eapply fi_refl|]. apply founds_nil. }
  destruct tys as [|t tys]; unfold gen_args in H.
  { simpl in H. apply clean_mok in H as [-> ->]. exists (w_vals x).
    split; [by eapply fi_refl|]. apply founds_nil. }
  cbn [zip zip_with b_map fst snd] in H. cb H as y s1 H1. cb H as ys s2 H2. apply clean_mok in H as [-> ->].
  apply (oper_value x) in H1 as (m & M & Hv); [|done..]. pose proof (fi_mv _ _ _ _ _ _ _ _ _ I M) as I1.
  assert (here s1) as E1 by (eapply here_wo; [exact E|apply M]).
  apply (IH _ tys _ _ I1 E1) in H2 as (m' & M' & Hl).
  exists m'. split; [by eapply mv_trans|]. apply founds_cons; [|done]. eapply found_mono; [|done]. apply sks_mono, M'.
Qed.
Context (r : ty) (M0 : gmap N (option string * (ty * vkind))).
(** A returned value has the type [r]. *)
Definition typed_as (D : gmap N (ty * vkind)) (u : value) (t : ty) : Prop :=
  (if is_global_id u then ∃ o k, M0 !! u = Some (o, (t, k)) else ∃ k, D !! u = Some (t, k)) ∨
  t = TInt32 ∧ ∃ t' z, D !! u = Some (t', KInteger z).
Definition rfits (D : gmap N (ty * vkind)) (k : vkind) : Prop :=
  match k with
  | KReturn None => r = TUnit
  | KReturn (Some u) => r ≠ TUnit ∧ typed_as D u r
  | _ => True
  end.
Lemma typed_as_mono (D D' : gmap N (ty * vkind)) u t : D ⊆ D' → typed_as D u t → typed_as D' u t.
Proof.
  intros HD [H|(-> & t' & z & H)]; [left|right; split; [done|]; exists t', z; by eapply lookup_weaken].
  destruct (is_global_id u); [done|]. destruct H as [k H]. exists k. by eapply lookup_weaken.
Qed.
Lemma rfits_mono (D D' : gmap N (ty * vkind)) k : D ⊆ D' → rfits D k → rfits D' k.
Proof. intros HD. destruct k as [| | | | | | | | | | | | | | | |[u|]]; try done. intros [H1 H2]. split; [done|]. by eapply typed_as_mono. Qed.
Lemma value_typed x t a s v s' : fi f G Fn x L B s → gvs (b_world s) = M0 → clean (gen_value f bb t a) s v s' →
  ∃ m, mv f x s m s' ∧ typed_as (sks m) v t.
Proof.
  intros I E H. destruct a as [n|z|]; cbn [gen_value] in *.
  - unfold gen_sym_value in H. cb H as v1 s1 H1. apply clean_symbol in H1 as [-> _].
    cb H as t1 s2 H2. apply clean_value_ty in H2 as [-> Ht]. destruct (ty_eqb t1 t) eqn:Et; [|by apply clean_error in H].
    apply ty_eqb_eq in Et as ->. apply clean_mok in H as [-> ->]. exists (w_vals x). split; [by eapply fi_refl|]. left.
    pose proof (fi_view _ _ _ _ _ _ _ I) as Hx. rewrite lookup_fmap in Hx. apply fmap_Some in Hx as (fd & Hfd & ->).
    destruct (is_global_id v1).
    + apply fmap_Some in Ht as (d & Hd & ->). exists (v_name d), (v_kind d). subst M0. by rewrite lookup_fmap, Hd.
    + rewrite Hfd in Ht. simpl in Ht. apply fmap_Some in Ht as (d & Hd & ->). exists (v_kind d). simpl. by rewrite !lookup_fmap, Hd.
  - unfold gen_local_init in H. cbn [gen_init] in H. destruct (is_i32 t) eqn:Et; [|by apply clean_error in H]. assert (t = TInt32) as -> by (by destruct t).
    eapply faith_new in H as (t' & M & _ & _ & _); [|apply I|apply I|apply _]. eexists. split; [exact M|]. right. split; [done|].
    exists t', z. by rewrite lookup_fmap, lookup_insert.
  - unfold gen_local_init in H. cbn [gen_init] in H.
    eapply faith_new in H as (t' & M & _ & Hg & Ht); [|apply I|apply I|apply _]. simpl in Ht. subst t'. eexists. split; [exact M|]. left. rewrite Hg.
    exists KUndef. by rewrite lookup_fmap, lookup_insert.
Qed.
Notation made_ops x s v s' := (made f L x s v s' (λ D t k, founds D (operands k) ∧ rfits D k)).
Lemma oper_call x c args s v s' : fi f G Fn x L B s → here s → clean (gen_call f bb c args) s v s' → made_ops x s v s'.
Proof.
  intros I E H. unfold clean, gen_call in H. destruct (b_gfuncs s !! c) as [g|] eqn:Hg; [|by apply clean_error in H].
  change (clean (tys <- b_some (fd ← p_funcs (w_prog (b_world s)) !! g;
                      match f_ty fd with TFun ps _ => Some ps | _ => None end);;
       vs <- gen_args f bb args tys;;
       new_local f (BCall g vs)) s v s') in H.
  cb H as tys s1 H1. apply clean_some in H1 as [_ ->]. cb H as vs s2 H2.
  apply (oper_args x) in H2 as (m & M & Ha); [|done..].
  eapply made_new; [done|exact M|exact H|apply _|done|done|]. intros D t HD _. split; [by eapply founds_mono|done].
Qed.
Lemma oper_inst x e s v s' : fi f G Fn x L B s → here s → clean (gen_inst f bb e) s v s' → made_ops x s v s'.
Proof.
  intros I E H. pose proof (fi_refl f G Fn L B x s I) as Mr. destruct e as [a|y|y i|y i|op l r0|c args]; cbn [gen_inst] in *.
  - cb H as t s1 H1. apply clean_some in H1 as [Ht ->].
    eapply made_new; [done|exact Mr|exact H|apply _|done|done|]. intros. split; [apply founds_nil|done].
  - unfold gen_load in H. cb H as u s1 H1. apply (oper_symbol _ _ _ _ (sks (w_vals x))) in H1 as [-> H1]; [|done].
    cb H as t s2 H2. apply clean_value_ty in H2 as [-> _]. destruct t; try by apply clean_error in H.
    eapply made_new; [done|exact Mr|exact H|apply _|done|done|]. intros. split; [|done]. apply founds_cons; [by eapply found_mono|apply founds_nil].
  - unfold gen_get_ptr in H. cb H as u s1 H1. apply (oper_symbol _ _ _ _ (sks (w_vals x))) in H1 as [-> H1]; [|done].
    cb H as t s2 H2. apply clean_value_ty in H2 as [-> _]. destruct t; try by apply clean_error in H.
    cb H as w s3 H3. apply (oper_value x) in H3 as (m & M & Hv); [|done..].
    assert (sks (w_vals x) ⊆ sks m) by apply sks_mono, M.
    eapply made_new; [done|exact M|exact H|apply _|done|done|]. intros. split; [|done].
    apply founds_cons; [eapply found_mono; [|exact H1]; by etrans|]. apply founds_cons; [by eapply found_mono|apply founds_nil].
  - unfold gen_get_elem_ptr in H. cb H as u s1 H1. apply (oper_symbol _ _ _ _ (sks (w_vals x))) in H1 as [-> H1]; [|done].
    cb H as t s2 H2. apply clean_value_ty in H2 as [-> _]. destruct t as [| | |[]|]; try by apply clean_error in H.
    cb H as w s3 H3. apply (oper_value x) in H3 as (m & M & Hv); [|done..].
    assert (sks (w_vals x) ⊆ sks m) by apply sks_mono, M.
    eapply made_new; [done|exact M|exact H|apply _|done|done|]. intros. split; [|done].
    apply founds_cons; [eapply found_mono; [|exact H1]; by etrans|]. apply founds_cons; [by eapply found_mono|apply founds_nil].
  - unfold gen_binary in H. cb H as u s1 H1. apply (oper_value x) in H1 as (m & M & Hu); [|done..].
    cb H as w s3 H3. pose proof (fi_mv _ _ _ _ _ _ _ _ _ I M) as I1.
    assert (here s1) as E1 by (eapply here_wo; [exact E|apply M]).
    apply (oper_value _ _ _ _ _ _ I1 E1) in H3 as (m' & M' & Hw).
    assert (sks m ⊆ sks m') by apply sks_mono, M'.
    eapply made_new; [done|eapply mv_trans; [exact M|exact M']|exact H|apply _|done|done|]. intros D t HD _. split; [|done].
    apply founds_cons; [eapply found_mono; [|exact Hu]; by etrans|]. apply founds_cons; [by eapply found_mono|apply founds_nil].
  - by apply (oper_call x) in H.
Qed.
Lemma oper_stmt x st s v s' : fi f G Fn x L B s → here s → gvs (b_world s) = M0 → (∀ n e, st ≠ SDef n e) → clean (gen_stmt f bb r st) s v s' →
  made_ops x s v s'.
Proof.
  intros I E EM Hn H. pose proof (fi_refl f G Fn L B x s I) as Mr.
  destruct st as [n e|a d|c args|c t ta e ea|t args|[a|]|]; cbn [gen_stmt] in *.
  - by destruct (Hn n e).
  - unfold gen_store in H. cb H as u s1 H1. apply (oper_symbol _ _ _ _ (sks (w_vals x))) in H1 as [-> H1]; [|done].
    cb H as t s2 H2. apply clean_value_ty in H2 as [-> _]. destruct t; try by apply clean_error in H.
    cb H as w s3 H3. apply (oper_store_value x) in H3 as (m & M & Hv); [|done..].
    assert (sks (w_vals x) ⊆ sks m) by apply sks_mono, M.
    eapply made_new; [done|exact M|exact H|apply _|done|done|]. intros. split; [|done].
    apply founds_cons; [by eapply found_mono|]. apply founds_cons; [eapply found_mono; [|exact H1]; by etrans|apply founds_nil].
  - by apply (oper_call x) in H.
  - unfold gen_branch in H. cb H as u s1 H1. apply (oper_value x) in H1 as (m & M & Hu); [|done..].
    pose proof (fi_mv _ _ _ _ _ _ _ _ _ I M) as I1. assert (here s1) as E1 by (eapply here_wo; [exact E|apply M]).
    cb H as b1 s2 H2. apply clean_gen_bb in H2 as [-> _].
    cb H as tt s3 H3. apply clean_bb_params_ty in H3 as [-> _].
    cb H as vs1 s4 H4. apply (oper_args _ _ _ _ _ _ I1 E1) in H4 as (m1 & M1 & Ha1).
    pose proof (mv_trans _ _ _ _ _ _ _ M M1) as M2. pose proof (fi_mv _ _ _ _ _ _ _ _ _ I M2) as I2.
    assert (here s4) as E2 by (eapply here_wo; [exact E|apply M2]).
    cb H as b2 s5 H5. apply clean_gen_bb in H5 as [-> _].
    cb H as tt2 s6 H6. apply clean_bb_params_ty in H6 as [-> _].
    cb H as vs2 s7 H7. apply (oper_args _ _ _ _ _ _ I2 E2) in H7 as (m3 & M3 & Ha2).
    destruct (_ && _); [by apply clean_error in H|].
    pose proof (mv_trans _ _ _ _ _ _ _ M2 M3) as M4.
    assert (Hs1 : sks m ⊆ sks m1) by apply sks_mono, M1. assert (Hs2 : sks m1 ⊆ sks m3) by apply sks_mono, M3.
    eapply made_new; [done|exact M4|exact H|apply _|done|done|]. intros D t' HD _. split; [|done]. cbn [requested operands].
    apply founds_cons; [eapply found_mono; [|exact Hu]; by do 2 (etrans; [eassumption|])|].
    apply founds_app; [eapply founds_mono; [|exact Ha1]; by etrans|by eapply founds_mono].
  - unfold gen_jump in H. cb H as b s1 H1. apply clean_gen_bb in H1 as [-> _].
    cb H as tt s3 H3. apply clean_bb_params_ty in H3 as [-> _].
    cb H as vs1 s4 H4. apply (oper_args x) in H4 as (m1 & M1 & Ha1); [|done..].
    eapply made_new; [done|exact M1|exact H|apply _|done|done|]. intros. split; [by eapply founds_mono|done].
  - unfold gen_return in H. destruct (is_unit r) eqn:Eu; [by apply clean_error in H|].
    cb H as w s3 H3. pose proof H3 as H3'. apply (oper_value x) in H3 as (m & M & Hv); [|done..].
    apply (value_typed x) in H3' as (m' & M' & Ht); [|done..].
    assert (m' = m) as ->.
    { pose proof (mv_after _ _ _ _ _ M) as Q1. rewrite (mv_after _ _ _ _ _ M') in Q1. apply (inj Some) in Q1. by apply (f_equal w_vals) in Q1. }
    eapply made_new; [done|exact M|exact H|apply _|done|done|]. intros. split; [apply founds_cons; [by eapply found_mono|apply founds_nil]|].
    split; [by intros ->|by eapply typed_as_mono].
  - unfold gen_return in H. destruct (is_unit r) eqn:Eu; [|by apply clean_error in H].
    eapply made_new; [done|exact Mr|exact H|apply _|done|done|]. intros. split; [apply founds_nil|]. simpl. by destruct r.
  - by destruct H.
Qed.
(** The same for every statement: the operands of the instruction in the new state *)
Lemma oper_any x st s v s' y : fi f G Fn x L B s → here s → gvs (b_world s) = M0 → clean (gen_stmt f bb r st) s v s' →
  fvs (b_world s') !! f = Some y → ∃ t k, w_sk y !! v = Some (t, k) ∧ founds (w_sk y) (operands k) ∧ rfits (w_sk y) k.
Proof.
  intros I E EM H Hy. destruct (match st with SDef _ _ => true | _ => false end) eqn:Est.
  - destruct st as [n e| | | | | |]; try done.
    apply clean_stmt_def in H as (s1 & s2 & t & w & info & _ & _ & -> & H1 & H2 & Hu & Hw & Hb & ->).
    apply (fi_syms _ _ _ _ _ _ _ ({[n]} ∪ b_syms s)) in I.
    apply (oper_inst x) in H1 as (t' & k & m & M & Hv & HL & Hg & K1 & K2 & He); [|done..].
    pose proof (mv_after _ _ _ _ _ M) as Ha. simpl in Hy.
    assert (w_sk y = sks m) as ->.
    { destruct (is_temp n).
      - subst w. rewrite Ha in Hy. injection Hy as <-. done.
      - apply view_name_local in Hw as (z & q & O & Hz). pose proof (proj1 O) as Hz'. rewrite Ha in Hz'. injection Hz' as <-.
        rewrite (only_after _ _ _ _ _ O) in Hy. injection Hy as <-. unfold w_sk. simpl in *. rewrite fmap_insert.
        apply insert_id. by rewrite lookup_fmap, Hz. }
    exists t', k. split; [by rewrite lookup_fmap, Hv|done].
  - apply (oper_stmt x) in H as (t' & k & m & M & Hv & HL & Hg & K1 & K2 & He); [|done..|by intros n e ->].
    rewrite (mv_after _ _ _ _ _ M) in Hy. injection Hy as <-. exists t', k. split; [|done]. unfold w_sk. simpl. by rewrite lookup_fmap, Hv.
Qed.
End operands.

(** ** Where the definitions of the blocks come from *)
(** [first]: the first block of the layout *)
Definition param_src (x : fview) (first : option bblock) (c : bblock) (u : value) : Prop :=
  first = Some c ∧ u ∈ w_pars x ∨ first ≠ Some c ∧ ∃ o ps, w_bbs x !! c = Some (o, ps) ∧ u ∈ ps.
Definition result (x : fview) (u : value) : Prop := ∃ t k, w_sk x !! u = Some (t, k) ∧ t ≠ TUnit.
Lemma result_mono x y u : w_sk x ⊆ w_sk y → result x u → result y u.
Proof. intros HD (t & k & H & Hu). exists t, k. split; [by eapply lookup_weaken|done]. Qed.
Definition src (x : fview) (first : option bblock) (s : bstate) : Prop :=
  ∀ c n u, defines (b_bbs s) c n u → ∃ i, b_bbs s !! c = Some i ∧
    (param_src x first (bi_bb i) u ∨ (∃ is, (bi_bb i, is) ∈ w_lay x ∧ u ∈ is) ∧ result x u).
Definition agrees (a b : gmap string bbinfo) : Prop :=
  (∀ n p, pred_of a n p ↔ pred_of b n p) ∧ ∀ n, bi_bb <$> b !! n = bi_bb <$> a !! n.
Lemma agrees_trans a b c : agrees a b → agrees b c → agrees a c.
Proof. intros [A1 A2] [B1 B2]. split; [intros n p; by rewrite A1, B1|intros n; by rewrite B2]. Qed.
(** What is known about an operand: [l1] are the blocks before, [h] is the block, and [before]
    the instructions before in it; [bbs] are the blocks and [nm] the name of the block. *)
Definition known_op (x : fview) (first : option bblock) (gv : gmap string value) (bbs : gmap string bbinfo) (nm : string)
    (l1 : list (bblock * list value)) (h : bblock) (before : list value) (u : value) : Prop :=
  (∃ n, gv !! n = Some u) ∨ (∃ i, const_is (w_sk x) u i) ∨
  ∃ c i, rtc (pred_of bbs) nm c ∧ bi_bb <$> bbs !! c = Some i ∧
    (param_src x first i u ∨ ((∃ is, (i, is) ∈ l1 ∧ u ∈ is) ∨ i = h ∧ u ∈ before) ∧ result x u).
Lemma param_src_same x y first c u : w_pars y = w_pars x → w_bbs y = w_bbs x → param_src x first c u → param_src y first c u.
Proof. unfold param_src. intros -> ->. done. Qed.
Lemma known_op_up x y first gv bbs nm l1 h before u : w_pars y = w_pars x → w_bbs y = w_bbs x → w_sk x ⊆ w_sk y →
  known_op x first gv bbs nm l1 h before u → known_op y first gv bbs nm l1 h before u.
Proof.
  intros E1 E2 E3 [?|[[i Hi]|(c & i & Hc & Hi & H)]]; [by left|right; left; exists i; by eapply const_mono|].
  right. right. exists c, i. split; [done|]. split; [done|]. destruct H as [H|[H Hr]]; [|right; split; [done|by eapply result_mono]].
  left. by eapply param_src_same.
Qed.
Definition scoped_to (r : ty) (M0 : gmap N (option string * (ty * vkind))) (x : fview) first gv bbs nm l1 h (vs0 vs : list value) : Prop :=
  ∀ before v after, vs = before ++ v :: after → ∃ t k, w_sk x !! v = Some (t, k) ∧ rfits r M0 (w_sk x) k ∧
    ∀ u, u ∈ operands k → known_op x first gv bbs nm l1 h (vs0 ++ before) u.

Lemma scope_stmts f G Fn B nm r M0 h l1 l2 bbs0 gv first sts : h ∉ map fst l1 → SErr ∉ sts → (∀ y, y ∈ l2 → y.2 = []) →
  ∀ x L s vs0 u s' ns,
  fi f G Fn x L B s → distinct ns L → w_lay x = l1 ++ (h, vs0) :: l2 →
  bi_bb <$> b_bbs s !! nm = Some h → agrees bbs0 (b_bbs s) → b_gvars s = gv → gvs (b_world s) = M0 → src x first s →
  clean (b_each (λ st, b_ok (gen_stmt f nm r st) (push_step f nm)) sts) s u s' →
  ∃ x' L' vs, fstep f G Fn B x L s x' L' s' ∧ w_lay x' = l1 ++ (h, vs0 ++ vs) :: l2 ∧
    distinct (ns ++ concat (map stmt_defs sts)) L' ∧ Forall2 (is_stmt G Fn L' B (w_sk x')) vs sts ∧
    agrees bbs0 (b_bbs s') ∧ src x' first s' ∧ scoped_to r M0 x' first gv bbs0 nm l1 h vs0 vs.
Proof.
  intros Hh. induction sts as [|st sts IH]; intros Herr Hl2 x L s vs0 u s' ns I Hd Hl Hb Hag Hgv HM Hsrc H; cbn [b_each] in H.
  { apply clean_mok in H as [_ ->]. exists x, L, []. rewrite !app_nil_r. split; [by apply fs_refl|]. split_and!; try done.
    intros before v after E. by apply app_cons_not_nil in E. }
  apply not_elem_of_cons in Herr as [E1 E2].
  cb H as u1 s1 H1. pose proof (fi_room _ _ _ _ _ _ _ I) as R.
  apply (room_clean 0 _ _ _ _ _ H1) in R.
  apply clean_block_step in H1 as [[? _]|(v & s2 & info & w & H1 & Hi & Hw & ->)]; [done|].
  pose proof (clean_stmt_more _ _ _ _ _ _ _ H1) as [(_ & M2 & _) _].
  pose proof H1 as Hop. pose proof H1 as Hdf0.
  assert (∃ y L1, fstep f G Fn B x L s y L1 s2 ∧ w_lay y = w_lay x ∧ distinct (ns ++ stmt_defs st) L1 ∧
    is_stmt G Fn L1 B (w_sk y) v st) as (y & L1 & S1 & Hy & Hd1 & Hst).
  { destruct (match st with SDef _ _ => true | _ => false end) eqn:Est.
    - destruct st as [n e| | | | | |]; try done. by eapply faith_def in H1.
    - eapply (faith_stmt f G Fn L B x) in H1 as (m & M & Hst); [|done|by intros n e ->].
      exists (set_wvals x m), L. split; [by apply fs_mv|]. split; [done|]. split; [|done].
      destruct st; try done; simpl; by rewrite app_nil_r. }
  pose proof (fs_fi _ _ _ _ _ _ _ _ _ _ S1) as I1.
  destruct (oper_any f G Fn L B (b_bbs s) gv nm r M0 x _ _ _ _ y I (conj eq_refl Hgv) HM Hop (fi_view _ _ _ _ _ _ _ I1)) as (t & k & Hk & Hops & Hrf).
  assert (bi_bb info = h) as Eh.
  { pose proof (fs_bbs _ _ _ _ _ _ _ _ _ _ S1 nm) as E. rewrite Hi, Hb in E. by injection E. }
  rewrite Eh in Hw. apply view_push_inst in Hw as (y' & is & O & His).
  pose proof (proj1 O) as Ey. rewrite (fi_view _ _ _ _ _ _ _ I1) in Ey. injection Ey as <-.
  rewrite Hy, Hl in O, His. rewrite find_bb_mid in His by done. injection His as <-. rewrite set_bb_mid in O by done.
  set (z := set_wlay y (l1 ++ (h, vs0 ++ [v]) :: l2)) in *.
  assert (S2 : fstep f G Fn B y L1 s2 z L1 (set_world w s2)).
  { constructor; try done. destruct I1 as [A1 A2 A3 A4 A5 A6 A7 A8 A9]. constructor; try done. by eapply only_after. }
  pose proof (fs_trans _ _ _ _ _ _ _ _ _ _ _ _ _ S1 S2) as S3.
  assert (Hag2 : agrees bbs0 (b_bbs s2)).
  { eapply agrees_trans; [exact Hag|]. split; [done|]. intros n. apply S1. }
  (* the instruction *)
  assert (Hkn : ∀ u, u ∈ operands k → known_op y first gv bbs0 nm l1 h vs0 u).
  { intros a Ha. apply Hops in Ha as [Ha|[Ha|(n & c & Hc & Hdc)]]; [by left|by right; left|]. right. right.
    destruct (Hsrc _ _ _ Hdc) as (i & Hi' & Hs). exists c, (bi_bb i). split.
    { destruct Hag as [Hag _]. clear -Hc Hag. induction Hc as [|p q c H1 _ IH]; [done|]. eapply rtc_l; [by apply Hag|done]. }
    split; [destruct Hag as [_ Hag]; by rewrite <- Hag, Hi'|]. pose proof (fs_D _ _ _ _ _ _ _ _ _ _ S1) as SD. destruct S1 as [_ _ _ _ (_ & _ & T1 & T2) _ _ _].
    destruct Hs as [Hs|[(is & His & Ha) Hres]]; [left; by eapply param_src_same|right]. split; [|eapply result_mono; [|exact Hres]; exact SD].
    rewrite Hl in His. apply elem_of_app in His as [His|His]; [left; by exists is|].
    apply elem_of_cons in His as [[= -> ->]|His]; [by right|]. apply Hl2 in His. simpl in His. subst is. by apply elem_of_nil in Ha. }
  assert (Hz : src z first (set_world w s2)).
  { assert (Hall : ∀ c n a, defines (b_bbs s2) c n a → defines (b_bbs s) c n a ∨ c = nm ∧ a = v ∧ match st with SDef _ _ => True | _ => False end).
    { clear -Hdf0 E1. rename Hdf0 into H1. intros c n a Hdf. destruct (match st with SDef _ _ => true | _ => false end) eqn:Est.
      - destruct st as [n' e| | | | | |]; try done.
        apply clean_stmt_def in H1 as (s1 & s3 & t & w & info & _ & _ & -> & H1 & H2 & Hu & Hw & Hb & ->).
        apply framed_inst in H1 as [w' ->]. simpl in *. destruct Hdf as (i & Hi & Hn). apply lookup_insert_Some in Hi as [[<- <-]|[Hne Hi]].
        + simpl in Hn. apply lookup_insert_Some in Hn as [[<- <-]|[_ Hn]]; [by right|]. left. by exists info.
        + left. by exists i.
      - assert (wo s s2) as [w ->] by (revert H1; apply framed_stmt; by intros n' e' ->). by left. }
    destruct S1 as [_ _ SD _ (_ & _ & T1 & T2) T3 _ _].
    intros c n a Hdf. simpl in Hdf. apply Hall in Hdf as [Hdf|(-> & -> & Hdef)].
    - destruct (Hsrc _ _ _ Hdf) as (i & Hi' & Hs). specialize (T3 c). rewrite Hi' in T3. simpl.
      destruct (b_bbs s2 !! c) as [i2|]; [|done]. injection T3 as T3. exists i2. split; [done|]. rewrite T3.
      destruct Hs as [Hs|[(is & His & Ha) Hres]]; [left; by eapply (param_src_same x)|right]. split; [|eapply result_mono; [|exact Hres]; exact SD].
      rewrite Hl in His. apply elem_of_app in His as [His|His]; [exists is; split; [|done]; apply elem_of_app; by left|].
      apply elem_of_cons in His as [[= -> ->]|His].
      + exists (vs0 ++ [v]). split; [apply elem_of_app; right; by left|]. apply elem_of_app. by left.
      + exists is. split; [|done]. apply elem_of_app. right. by right.
    - exists info. split; [done|]. right. rewrite Eh. split.
      2: { destruct Hst as (t1 & k1 & Hk1 & Hst). destruct st; try done. exists t1, k1. by destruct Hst as (_ & ? & _). }
      exists (vs0 ++ [v]). split; [apply elem_of_app; right; by left|].
      apply elem_of_app. right. by left. }
  destruct (IH E2 Hl2 z L1 (set_world w s2) (vs0 ++ [v]) u s' (ns ++ stmt_defs st)) as (x' & L' & vs & S4 & Hl' & Hd' & Hall & Hag' & Hsrc' & Hsc); try done.
  { apply S2. }
  { simpl. rewrite <- Hb. apply S1. }
  { simpl. etrans; [apply S1|done]. }
  { destruct (fs_only _ _ _ _ _ _ _ _ _ _ S3) as (_ & _ & Hg & _). by rewrite Hg. }
  exists x', L', (v :: vs). split; [by eapply fs_trans|]. split; [by rewrite Hl', <- app_assoc|].
  split; [simpl; by rewrite <- app_assoc in Hd'|]. split.
  { constructor; [|done]. eapply up_stmt; [done|done|apply S4|done| |exact Hst]. apply S4. }
  split; [done|]. split; [done|]. intros [|v0 before] v1 after E; injection E as -> E.
  - exists t, k. split; [eapply lookup_weaken; [exact Hk|apply S4]|]. split; [eapply rfits_mono; [|exact Hrf]; apply S4|]. intros a Ha. rewrite app_nil_r.
    destruct S4 as [_ _ T0 _ (_ & _ & T1 & T2) _ _ _]. eapply known_op_up; [exact T1|exact T2|exact T0|by apply Hkn].
  - destruct (Hsc _ _ _ E) as (t1 & k1 & Hk1 & Hr1 & Hu1). exists t1, k1. split; [done|]. split; [done|]. intros a Ha. rewrite cons_middle, app_assoc. by apply Hu1.
Qed.
Lemma scoped_to_up r M0 x y first gv bbs nm l1 h vs0 vs : w_pars y = w_pars x → w_bbs y = w_bbs x → w_sk x ⊆ w_sk y →
  scoped_to r M0 x first gv bbs nm l1 h vs0 vs → scoped_to r M0 y first gv bbs nm l1 h vs0 vs.
Proof.
  intros E1 E2 E3 H before v after E. destruct (H _ _ _ E) as (t & k & Hk & Hr & Hu). exists t, k. split; [by eapply lookup_weaken|]. split; [by eapply rfits_mono|].
  intros u Huk. eapply known_op_up; [exact E1|exact E2|exact E3|by apply Hu].
Qed.
Lemma scope_blocks f G Fn B r M0 bbs0 gv first bl : ∀ l1 l2 x L s u s' ns,
  fi f G Fn x L B s → distinct ns L → w_lay x = l1 ++ l2 → map snd l2 = replicate (length l2) [] → NoDup (map fst (l1 ++ l2)) →
  (∀ b, b ∈ bl → SErr ∉ b_stmts b) →
  Forall2 (λ x b, bi_bb <$> b_bbs s !! b_name b = Some x.1) l2 bl →
  agrees bbs0 (b_bbs s) → b_gvars s = gv → gvs (b_world s) = M0 → src x first s →
  clean (b_each (build_block f r) bl) s u s' →
  ∃ x' L' l2', fstep f G Fn B x L s x' L' s' ∧ w_lay x' = l1 ++ l2' ∧
    distinct (ns ++ concat (map body_names bl)) L' ∧ map fst l2' = map fst l2 ∧
    Forall2 (λ x b, Forall2 (is_stmt G Fn L' B (w_sk x')) x.2 (b_stmts b)) l2' bl ∧
    ∀ front y rest b, l2' = front ++ y :: rest → bl !! length front = Some b →
      scoped_to r M0 x' first gv bbs0 (b_name b) (l1 ++ front) y.1 [] y.2.
Proof.
  induction bl as [|b bl IH]; intros l1 l2 x L s u s' ns I Hd Hl Hnil Hnd Herr Hbs Hag Hgv HM Hsrc H; cbn [b_each] in H.
  { apply clean_mok in H as [_ ->]. apply Forall2_nil_inv_r in Hbs as ->. exists x, L, []. simpl. rewrite !app_nil_r. rewrite app_nil_r in Hl.
    split; [by apply fs_refl|]. split_and!; try done. }
  inversion Hbs as [|[h hs] ? l3 ? Hh Hbs' E1 E2]; subst. simpl in Hnil. injection Hnil as -> Hnil.
  cb H as u1 s1 H1. rewrite build_block_eq in H1.
  pose proof Hnd as Hnd'. rewrite map_app in Hnd'. apply list.NoDup_app in Hnd' as (N1 & N2 & N3).
  assert (Hl3 : ∀ y, y ∈ l3 → y.2 = []).
  { intros y Hy. clear -Hy Hnil. induction l3 as [|a l3 IH]; [by apply elem_of_nil in Hy|]. simpl in Hnil. injection Hnil as E1 E2.
    apply elem_of_cons in Hy as [-> |Hy]; [done|by apply IH]. }
  eapply (scope_stmts f G Fn B _ r _ h l1 l3 bbs0 _ first) in H1 as (y & L1 & vs & S1 & Hy & Hd1 & Hst & Hag1 & Hsrc1 & Hsc); try done.
  2: { intros Hin. apply (N2 _ Hin). by left. }
  2: { apply Herr. by left. }
  rewrite app_nil_l in Hy.
  destruct (IH (l1 ++ [(h, vs)]) l3 y L1 s1 u s' (ns ++ body_names b)) as (z & L2 & l4 & S2 & Hz & Hd2 & Hf & Hall & Hscs); try done.
  { apply S1. }
  { by rewrite Hy, <- app_assoc. }
  { rewrite <- app_assoc, map_app. rewrite map_app in Hnd. exact Hnd. }
  { intros c Hc. apply Herr. by right. }
  { eapply Forall2_impl; [exact Hbs'|]. intros [? ?] c Hc. simpl in *. rewrite <- Hc. apply S1. }
  { apply S1. }
  { destruct (fs_only _ _ _ _ _ _ _ _ _ _ S1) as (_ & _ & Hg & _). by rewrite Hg. }
  exists z, L2, ((h, vs) :: l4). split; [by eapply fs_trans|]. split; [by rewrite Hz, <- app_assoc|].
  split; [simpl; by rewrite <- app_assoc in Hd2|]. split; [simpl; by rewrite Hf|]. split.
  { constructor; [|done]. simpl.
    eapply Forall2_impl; [exact Hst|]. intros. eapply up_stmt; [done|done|apply S2|done| |done]. apply S2. }
  intros [|a front] q rest c E Hc; injection E as <- E; simpl in Hc.
  - injection Hc as <-. rewrite app_nil_r. simpl. destruct S2 as [_ _ T0 _ (_ & _ & T1 & T2) _ _ _]. by eapply scoped_to_up.
  - specialize (Hscs _ _ _ _ E Hc). by rewrite <- app_assoc in Hscs.
Qed.

(** ** The parameters of the blocks are defined in them *)
Definition dfrom (f : func) (s : bstate) : Prop :=
  ∀ x c n u, fvs (b_world s) !! f = Some x → defines (b_bbs s) c n u →
    ∃ i o ps, b_bbs s !! c = Some i ∧ w_bbs x !! bi_bb i = Some (o, ps) ∧ u ∈ ps.
Lemma dfrom_init_bbs f G Fn l : ∀ x L B s u s' ns bs, fi f G Fn x L B s → distinct ns L → distinct bs B →
  dfrom f s → clean (b_each (init_bb f) l) s u s' → dfrom f s'.
Proof.
  induction l as [|b l IH]; intros x L B s u s' ns bs I Hd Hdb Hfr H; cbn [b_each] in H.
  { by apply clean_mok in H as [_ ->]. }
  cb H as u1 s1 H1. pose proof H1 as H1'.
  apply (faith_init_bb f G Fn x L B _ _ _ _ ns bs) in H1 as (y & L1 & B1 & h & E1 & D1 & D2 & Hh & Hl & Hp & Hb & Hs); try done.
  eapply (IH y L1 B1 _ _ _ _ _ (ie_fi _ _ _ _ _ _ _ _ _ _ _ E1) D1 D2); [|exact H]. clear IH H.
  intros x' c n v Hx' Hdf. pose proof (fi_view _ _ _ _ _ _ _ (ie_fi _ _ _ _ _ _ _ _ _ _ _ E1)) as Hy. rewrite Hy in Hx'. injection Hx' as <-.
  destruct (decide (c = b_name b)) as [-> |Hne].
  - apply clean_init_bb in H1' as (ps & h' & w1 & w2 & fd & bd & d & s2 & G1 & G2 & G3 & G4 & G5 & G6 & E & ->).
    apply clean_param_defs in G6 as (_ & _ & G6). rewrite E in Hy. simpl in *. rewrite lookup_fmap, G4 in Hy. apply (inj Some) in Hy.
    destruct Hdf as (i & Hi & Hv). rewrite lookup_insert in Hi. injection Hi as <-. simpl in Hv.
    exists (BbInfo h' [] d), (bb_name bd), (bb_params bd). rewrite lookup_insert. split; [done|]. split.
    + rewrite <- Hy. simpl. by rewrite lookup_fmap, G5.
    + apply G6 in Hv as [Hv|[_ Hv]]; [|done]. apply elem_of_list_lookup in Hv as [j Hv].
      apply lookup_zip_with_Some in Hv as (n1 & v1 & [= <- <-] & _ & Hv). by eapply elem_of_list_lookup_2.
  - destruct (Hfr x c n v (fi_view _ _ _ _ _ _ _ I)) as (i & o & ps & Hi & Hps & Hv).
    { destruct Hdf as (i & Hi & Hv). rewrite (Hs _ Hne) in Hi. by exists i. }
    exists i, o, ps. rewrite (Hs _ Hne). split; [done|]. split; [|done]. eapply lookup_weaken; [exact Hps|apply E1].
Qed.
Lemma src_init_local f G Fn x L s args l u s' ns y : fi f G Fn x L ∅ (set_bbs ∅ s) → distinct ns L → NoDup (map b_name l) →
  (∀ n v, args !! n = Some v → v ∈ w_pars x) →
  clean (init_local_bbs f args l) s u s' → fvs (b_world s') !! f = Some y → w_pars y = w_pars x →
  Forall2 (λ y b, bi_bb <$> b_bbs s' !! b_name b = Some y.1) (w_lay y) l → NoDup (map fst (w_lay y)) →
  (∀ n, is_Some (b_bbs s' !! n) → n ∈ map b_name l) →
  src y (head (map fst (w_lay y))) s'.
Proof.
  rewrite init_local_eq. intros I Hd Hn Ha H Hy Hpar Hbs Hnd Hdom.
  cb H as u1 s1 H1. apply clean_upd in H1 as ->. cb H as u2 s2 H2.
  assert (Hfr : dfrom f s2).
  { eapply (dfrom_init_bbs f G Fn l x L ∅ _ _ _ ns []); [exact I|done|done| |exact H2]. intros x' c n v _ (i & Hi & _). done. }
  cb H as u3 s3 H3. apply clean_upd in H3 as ->.
  cb H as e s4 H4. apply clean_some in H4 as [He ->]. cb H as u5 s5 H5. apply linked_steps in H as (L1 & L2 & _ & _).
  apply clean_entry_step in H5 as (info & Hi & ->). simpl in *.
  set (B0 := <[b_name e := BbInfo (bi_bb info) (bi_preds info) args]> (b_bbs s2)) in *.
  assert (b_world s' = b_world s2) as Ew by (by rewrite L1). rewrite Ew in Hy.
  assert (Hhd : ∀ c i, b_bbs s' !! c = Some i → (head (map fst (w_lay y)) = Some (bi_bb i) ↔ c = b_name e)).
  { intros c i Hc. assert (Hin : c ∈ map b_name l) by (apply Hdom; eauto).
    destruct l as [|e' l]; [done|]. injection He as ->. inversion Hbs as [|[h hs] ? l3 ? Hh Hbs' E1 E2]; subst. rewrite <- E1 in *. simpl in *.
    split; [|intros ->; rewrite Hc in Hh; simpl in Hh; congruence]. intros [= E]. subst h.
    apply elem_of_cons in Hin as [?|Hin]; [done|]. exfalso. apply list.NoDup_cons in Hnd as [Hnd _]. apply Hnd.
    apply elem_of_list_fmap in Hin as (b & -> & Hb). apply elem_of_list_lookup in Hb as [j Hj].
    destruct (Forall2_lookup_r _ _ _ _ _ Hbs' Hj) as (q & Hq & Hqb). rewrite Hc in Hqb. simpl in Hqb. injection Hqb as ->.
    apply elem_of_list_fmap_1. by eapply elem_of_list_lookup_2. }
  intros c n v (i & Hc & Hv). exists i. split; [done|]. left. pose proof (Hhd _ _ Hc) as Hiff. specialize (L2 c). rewrite Hc in L2.
  destruct (B0 !! c) as [j|] eqn:Hj; [|done]. simpl in L2. injection L2 as Eb Ed. rewrite <- Ed in Hv.
  unfold B0 in Hj. apply lookup_insert_Some in Hj as [[<- <-]|[Hne Hj]]; simpl in *.
  - left. split; [by apply Hiff|]. rewrite Hpar. by eapply Ha.
  - right. split; [intros E; by apply Hiff in E|].
    destruct (Hfr y c n v Hy) as (i' & o & ps & Hi' & Hps & Hv'); [by exists j|]. rewrite Hj in Hi'. injection Hi' as <-.
    rewrite <- Eb. by exists o, ps.
Qed.

(** ** Functions *)
Definition wflows (x : fview) (b c : bblock) : Prop :=
  ∃ is v t k, (b, is) ∈ w_lay x ∧ list.last is = Some v ∧ w_sk x !! v = Some (t, k) ∧ c ∈ UsesSpec.targets k.
Definition wavail (x : fview) (front : list (bblock * list value)) (b : bblock) (before : list value) (u : value) : Prop :=
  u ∈ w_pars x ∨
  (∃ c o ps, rtc (wflows x) c b ∧ head (map fst (w_lay x)) ≠ Some c ∧ w_bbs x !! c = Some (o, ps) ∧ u ∈ ps) ∨
  ((∃ c is, rtc (wflows x) c b ∧ (c, is) ∈ front ∧ u ∈ is) ∨ u ∈ before) ∧ result x u.
Definition wscoped (gl : list value) (x : fview) : Prop :=
  (∀ front b before v after rest t k u, w_lay x = front ++ (b, before ++ v :: after) :: rest →
     w_sk x !! v = Some (t, k) → u ∈ operands k →
     u ∈ gl ∨ (∃ t k, w_sk x !! u = Some (t, k) ∧ is_const k = true) ∨ wavail x front b before u) ∧
  (∀ b c, wflows x b c → head (map fst (w_lay x)) ≠ Some c).
Definition wreturns (M0 : gmap N (option string * (ty * vkind))) (x : fview) : Prop :=
  ∃ ts r, w_fty x = TFun ts r ∧
    ∀ b is v t k, (b, is) ∈ w_lay x → v ∈ is → w_sk x !! v = Some (t, k) → rfits r M0 (w_sk x) k.
Lemma stmt_goes G Fn L B D v fin c t k n : is_stmt G Fn L B D v fin → D !! v = Some (t, k) → c ∈ UsesSpec.targets k → B !! c = Some n → goes_to fin n.
Proof.
  intros (t' & k' & Hk & H) Hk' Hc HB. rewrite Hk in Hk'. injection Hk' as <- <-. destruct fin as [m e|a d|g args|a t1 ta e ea|t1 args|[a|]|]; try done.
  - destruct H as (_ & _ & H). destruct e; simpl in H; naive_solver (try by apply elem_of_nil in Hc).
  - destruct H as (? & ? & -> & _). by apply elem_of_nil in Hc.
  - destruct H as (? & ? & -> & _). by apply elem_of_nil in Hc.
  - destruct H as (v' & b1 & b2 & vs1 & vs2 & -> & _ & H1 & _ & H2 & _). simpl in *.
    apply elem_of_cons in Hc as [-> |Hc]; [left; congruence|]. apply elem_of_list_singleton in Hc as ->. right. congruence.
  - destruct H as (b1 & vs1 & -> & H1 & _). simpl in *. apply elem_of_list_singleton in Hc as ->. congruence.
  - destruct H as (? & -> & _). by apply elem_of_nil in Hc.
  - subst. by apply elem_of_nil in Hc.
Qed.
Lemma goes_target G Fn L B D v fin n : is_stmt G Fn L B D v fin → goes_to fin n → ∃ t k c, D !! v = Some (t, k) ∧ c ∈ UsesSpec.targets k ∧ B !! c = Some n.
Proof.
  intros (t & k & Hk & H) Hg. destruct fin as [m e|a d|g args|a t1 ta e ea|t1 args|[a|]|]; try done.
  - destruct H as (v' & b1 & b2 & vs1 & vs2 & -> & _ & H1 & _ & H2 & _). simpl in Hg. destruct Hg as [-> | ->].
    + exists t, (KBranch v' b1 b2 vs1 vs2), b1. split; [done|]. split; [by left|done].
    + exists t, (KBranch v' b1 b2 vs1 vs2), b2. split; [done|]. split; [right; by left|done].
  - destruct H as (b1 & vs1 & -> & H1 & _). simpl in Hg. subst. exists t, (KJump b1 vs1), b1. split; [done|]. split; [by left|done].
Qed.
Lemma Forall2_last {A C} (P : A → C → Prop) l k : Forall2 P l k → ∀ y, list.last k = Some y → ∃ x, list.last l = Some x ∧ P x y.
Proof.
  intros H y Hy. setoid_rewrite last_lookup. rewrite last_lookup in Hy. pose proof (Forall2_length _ _ _ H) as El. rewrite <- El in Hy.
  destruct (Forall2_lookup_r _ _ _ _ _ H Hy) as (x & Hx & Hp). eauto.
Qed.
Lemma Forall2_last_l {A C} (P : A → C → Prop) l k : Forall2 P l k → ∀ x, list.last l = Some x → ∃ y, list.last k = Some y ∧ P x y.
Proof.
  intros H y Hy. setoid_rewrite last_lookup. rewrite last_lookup in Hy. pose proof (Forall2_length _ _ _ H) as El. rewrite El in Hy.
  destruct (Forall2_lookup_l _ _ _ _ _ H Hy) as (x & Hx & Hp). eauto.
Qed.
Lemma last_succ (b : ablock) fin n : list.last (b_stmts b) = Some fin → goes_to fin n → succ b n.
Proof. intros H Hg. apply last_Some in H as [l E]. by exists l, fin. Qed.

Lemma const_kind D v i : const_is D v i → ∃ t k, D !! v = Some (t, k) ∧ is_const k = true.
Proof. inversion 1; eauto. Qed.
Lemma scope_fun_def (G Fn : gmap N string) gl n ps r bbs s u s' : room 0 (b_world s) →
  (∀ n v, b_gvars s !! n = Some v → G !! v = Some n ∧ is_global_id v = true) → (∀ n v, b_gvars s !! n = Some v → v ∈ gl) →
  (∀ n c, b_gfuncs s !! n = Some c → Fn !! c = Some n) → (∀ c n, Fn !! c = Some n → is_Some (fvs (b_world s) !! c)) →
  (∀ b, b ∈ bbs → SErr ∉ b_stmts b) →
  clean (build_fun_def n ps r bbs) s u s' →
  ∃ f x, b_gfuncs s' !! n = Some f ∧ fvs (b_world s') !! f = Some x ∧ wscoped gl x ∧ wreturns (gvs (b_world s)) x.
Proof.
  intros R HG Hgl HF HFn Herr H. pose proof (room_clean 0 _ _ _ _ _ H R) as R'.
  apply clean_fun_def in H as (ret & ps' & f & w1 & fd & args & l & k & s1 & H1 & H2 & H3 & H4 & H5 & H6 & H7 & H8 & H9 & H10).
  apply gen_ret_denotes in H1. apply gen_params_denote in H2.
  assert (R1 : room 0 w1).
  { apply (room_clean 0 (b_prog (w_new_func_def n ps' ret)) s f (set_world w1 s)); [apply _| |done].
    split; [|done]. unfold b_prog. by rewrite H3. }
  apply (view_new_def 0) in H3 as (m & vs & Hf & F1 & F2 & F3 & F4 & V1 & V2 & V3 & V4 & V5); [|done].
  assert (f_params fd = vs) as Ev.
  { apply (f_equal (lookup f)) in F1. rewrite lookup_insert, lookup_fmap, H4 in F1. apply (inj Some) in F1.
    by apply (f_equal w_pars) in F1. }
  rewrite Ev in H5. clear H4 Ev fd. apply clean_arg_map in H5 as (_ & _ & _ & H5).
  destruct (clean_block_list _ _ _ _ H8) as (first & rest & k' & -> & _ & _ & Hhd & _ & Hnd & Hr & Hsucc & _).
  assert (Hlen : length vs = length (map fst ps)).
  { apply Forall2_length in H2. rewrite map_length. lia. }
  destruct (distinct_adds vs (map fst ps) [] ∅) as (L & A1 & A2 & A3 & A4); try done.
  set (x0 := FView n (TFun (map snd ps') ret) vs m ∅ []) in *.
  assert (HL : ∀ (j : nat) v n, vs !! j = Some v → map fst ps !! j = Some n →
    ∃ t i, m !! v = Some (opt_name n, (t, KFuncArg i))).
  { intros j v n' Hv Hn. rewrite list_lookup_fmap in Hn. apply fmap_Some in Hn as ([n1 a] & Hp & ->).
    destruct (Forall2_lookup_l _ _ _ _ _ H2 Hp) as ([o t] & Hq & Eo & Ht). simpl in *. subst o.
    pose proof (V5 _ _ _ _ Hv Hq) as Hi. by eexists t, _. }
  assert (HFf : Fn !! f = None).
  { destruct (Fn !! f) eqn:E; [|done]. apply HFn in E. rewrite Hf in E. by apply is_Some_None in E. }
  assert (I : fi f G (<[f := n]> Fn) x0 L ∅ (set_bbs ∅ (set_warns k (set_syms ∅ (set_gfuncs (<[n:=f]> (b_gfuncs s)) (set_world w1 s)))))).
  { constructor; simpl; try done.
    - by rewrite F1, lookup_insert.
    - intros n' c Hc. apply lookup_insert_Some in Hc as [[<- <-]|[_ Hc]]; [by rewrite lookup_insert|].
      apply HF in Hc. rewrite lookup_insert_ne; [done|]. intros <-. congruence.
    - by intros b n' v (i & Hi & _).
    - intros v n' Hv. apply A4 in Hv as [Hv|(j & Hv & Hn)]; [done|].
      destruct (HL _ _ _ Hv Hn) as (t & i & Hm). split; [apply (V3 v); by eapply elem_of_list_lookup_2|].
      by exists t, (KFuncArg i).
    - intros v y Hy HLv. exfalso. destruct (decide (v ∈ vs)) as [Hv|Hv].
      + apply elem_of_list_lookup in Hv as [j Hv]. destruct (Forall2_lookup_l _ _ _ _ _ A3 Hv) as (n2 & _ & HL2). congruence.
      + rewrite V4 in Hy by done. done. }
  assert (Hargs : ∀ n' v, args !! n' = Some v → L !! v = Some n' ∧ v ∈ vs).
  { intros n' v Hv. apply H5 in Hv as [Hv|Hv]; [|done]. apply elem_of_list_lookup in Hv as [j Hn].
    apply lookup_zip_with_Some in Hn as (n1 & v1 & [= <- <-] & Hn & Hv).
    destruct (Forall2_lookup_l _ _ _ _ _ A3 Hv) as (n2 & Hn2 & HL2). split; [congruence|by eapply elem_of_list_lookup_2]. }
  destruct (clean_init_local _ _ _ _ _ _ H9 Hnd) as (first' & Hhd' & Hdom & Hpred & _ & _ & _).
  pose proof H9 as H9'.
  eapply (faith_init_local _ _ _ _ _ _ _ _ _ _ (map fst ps) I) in H9 as (x1 & L1 & B & E & D1 & D2 & K1 & K2 & P1 & P2); try done.
  2: { intros n' v Hv. by apply Hargs. }
  pose proof (fi_view _ _ _ _ _ _ _ (ie_fi _ _ _ _ _ _ _ _ _ _ _ E)) as Hx1.
  assert (Hsrc : src x1 (head (map fst (w_lay x1))) s1).
  { eapply (src_init_local _ _ _ _ _ _ _ _ _ _ (map fst ps) x1 I); try done.
    - intros n' v Hv. by apply Hargs in Hv as [_ ?].
    - apply E.
    - intros n'. apply Hdom. }
  set (hd := head (map fst (w_lay x1))) in *.
  eapply (scope_blocks _ _ _ _ ret (gvs (b_world s1)) (b_bbs s1) (b_gvars s1) hd l [] _ x1 L1) in H10 as (x2 & L2 & l2 & S & Hl2 & D3 & Hk & Hst & Hsc); try done.
  2: apply E.
  2: { intros b Hb. apply Herr. apply Hr in Hb as [q Hq]. eapply bpath_in; [|exact Hq]. by left. }
  simpl in Hl2. exists f, x2. destruct E as [E1 E2 E3 E4 E5 E6 E7 E8 E9]. destruct S as [S1 S2 S3 S4 S5 S6 S7 S8].
  split; [by rewrite S8, E9; simpl; rewrite lookup_insert|]. split; [apply S1|]. simpl in *.
  destruct E7 as (Q1 & Q2 & Q3), S5 as (T1 & T2 & T3 & T4). subst l2.
  assert (Hhd2 : head (map fst (w_lay x2)) = hd) by (change (map fst (w_lay x2) = map fst (w_lay x1)) in Hk; by rewrite Hk).
  destruct D2 as [_ Binj]. specialize (Binj Hnd).
  (* the blocks and their names *)
  assert (Hblk : ∀ j h is b, w_lay x2 !! j = Some (h, is) → l !! j = Some b →
    bi_bb <$> b_bbs s1 !! b_name b = Some h ∧ B !! h = Some (b_name b) ∧ Forall2 (is_stmt G (<[f:=n]> Fn) L2 B (w_sk x2)) is (b_stmts b)).
  { intros j h is b Hj Hb. destruct (Forall2_lookup_r _ _ _ _ _ P2 Hb) as ([h' hs'] & Hj' & Hp).
    pose proof (Forall2_lookup_lr _ _ _ _ _ _ P1 Hj' Hb) as [Hp' _].
    assert (h' = h) as ->.
    { change (map fst (w_lay x2) = map fst (w_lay x1)) in Hk. apply (f_equal (lookup j)) in Hk. rewrite !list_lookup_fmap, Hj, Hj' in Hk. by injection Hk. }
    simpl in *. split; [done|]. split; [done|]. exact (Forall2_lookup_lr _ _ _ _ _ _ Hst Hj Hb). }
  assert (Hnamed : ∀ c i, bi_bb <$> b_bbs s1 !! c = Some i → B !! i = Some c).
  { intros c i Hc. destruct (b_bbs s1 !! c) as [bi|] eqn:Ec; [|done]. injection Hc as <-. by apply (fi_bbs _ _ _ _ _ _ _ E1). }
  assert (Hfl : ∀ t p ht hp, pred_of (b_bbs s1) t p → bi_bb <$> b_bbs s1 !! t = Some ht → bi_bb <$> b_bbs s1 !! p = Some hp → wflows x2 hp ht).
  { intros t p ht hp Hp Ht Hpp. apply Hpred in Hp as (b & Hb & -> & (body & fin & Eb & Hg)).
    apply elem_of_list_lookup in Hb as [j Hj]. destruct (Forall2_lookup_r _ _ _ _ _ Hst Hj) as ([h is] & Hj' & _).
    destruct (Hblk _ _ _ _ Hj' Hj) as (B1 & B2 & B3). assert (h = hp) as -> by congruence.
    destruct (Forall2_last _ _ _ B3 fin) as (v & Hv & Hvs); [by rewrite Eb, last_snoc|].
    destruct (goes_target _ _ _ _ _ _ _ _ Hvs Hg) as (ty & kk & c & Hkk & Hc & HBc).
    assert (c = ht) as -> by (eapply Binj; [exact HBc|by apply Hnamed]).
    exists is, v, ty, kk. split; [by eapply elem_of_list_lookup_2|done]. }
  assert (Hpath : ∀ nm c h i, rtc (pred_of (b_bbs s1)) nm c → bi_bb <$> b_bbs s1 !! nm = Some h → bi_bb <$> b_bbs s1 !! c = Some i → rtc (wflows x2) i h).
  { intros nm c h i Hp. revert h. induction Hp as [a|a p c Hap Hpc IH]; intros h Ha Hc.
    - assert (h = i) as -> by congruence. done.
    - pose proof Hap as Hap'. apply Hpred in Hap' as (b & Hb & -> & _).
      assert (is_Some (b_bbs s1 !! b_name b)) as [bi Hbi] by (apply Hdom; by apply elem_of_list_fmap_1).
      eapply rtc_r; [apply (IH (bi_bb bi)); [by rewrite Hbi|done]|]. eapply Hfl; [exact Hap|done|by rewrite Hbi]. }
  split; [split|].
  - intros front b before v after rst t0 k0 a Hlay Hv Ha.
    assert (Hj : w_lay x2 !! length front = Some (b, before ++ v :: after)) by (rewrite Hlay; by apply list_lookup_middle).
    destruct (Forall2_lookup_l _ _ _ _ _ Hst Hj) as (ab & Hab & _). destruct (Hblk _ _ _ _ Hj Hab) as (B1 & B2 & B3).
    destruct (Hsc _ _ _ _ Hlay Hab before v after eq_refl) as (t1 & k1 & Hk1 & _ & Hop). rewrite Hv in Hk1. injection Hk1 as <- <-.
    apply Hop in Ha as [[g Hg]|[[i Hi]|(c & i & Hc & Hi & Hfrom)]].
    + left. rewrite E8 in Hg. by eapply Hgl.
    + right. left. by eapply const_kind.
    + right. right. simpl in *. pose proof (Hpath _ _ _ _ Hc B1 Hi) as Hrc. destruct Hfrom as [[[_ Hp]|(Hne & o & qs & Hq & Hu)]|[[(is & His & Hu)|[-> Hu]] Hres]].
      * by left.
      * right. left. exists i, o, qs. by rewrite Hhd2.
      * right. right. split; [|done]. left. by exists i, is.
      * right. right. split; [by right|done].
  - intros b c (is & v & t0 & k0 & Hin & Hlast & Hv & Hc) Hfirst. rewrite Hhd2 in Hfirst.
    apply elem_of_list_lookup in Hin as [j Hj]. destruct (Forall2_lookup_l _ _ _ _ _ Hst Hj) as (ab & Hab & _).
    destruct (Hblk _ _ _ _ Hj Hab) as (B1 & B2 & B3). destruct (Forall2_last_l _ _ _ B3 _ Hlast) as (fin & Hfin & Hvs).
    assert (B !! c = Some (b_name first)) as HBc.
    { destruct l as [|e l]; [done|]. injection Hhd as ->. unfold hd in Hfirst. clear -P1 Hfirst.
      destruct (w_lay x1) as [|[h hs] l3]; [done|]. inversion P1 as [|? ? ? ? [Hp _] _ E1 E2]; subst. simpl in *. by injection Hfirst as ->. }
    pose proof (stmt_goes _ _ _ _ _ _ _ _ _ _ _ Hvs Hv Hc HBc) as Hg.
    destruct (Hsucc ab (b_name first)) as [Hne _]; [by eapply elem_of_list_lookup_2|by eapply last_succ|]. done.
  - exists (map snd ps'), ret. split; [by rewrite T2, Q2|]. intros b is v t0 k0 Hin Hvi Hv.
    apply elem_of_list_split in Hin as (front & rst & Hlay). apply elem_of_list_split in Hvi as (before & after & ->).
    assert (Hj : w_lay x2 !! length front = Some (b, before ++ v :: after)) by (rewrite Hlay; by apply list_lookup_middle).
    destruct (Forall2_lookup_l _ _ _ _ _ Hst Hj) as (ab & Hab & _).
    destruct (Hsc _ _ _ _ Hlay Hab before v after eq_refl) as (t1 & k1 & Hk1 & Hrf & _). rewrite Hv in Hk1. injection Hk1 as <- <-.
    assert (gvs (b_world s1) = gvs (b_world s)) as <-; [|done].
    destruct E6 as (_ & _ & E6 & _). simpl in E6. congruence.
Qed.

(** ** Programs *)
Lemma wscoped_mono gl gl' x : gl ⊆ gl' → wscoped gl x → wscoped gl' x.
Proof.
  intros Hg [H1 H2]. split; [|exact H2]. intros front b before v after rest t k u E Hv Hu.
  destruct (H1 _ _ _ _ _ _ _ _ _ E Hv Hu) as [H|H]; [left; by apply Hg|by right].
Qed.
Lemma wreturns_mono M M' x : M ⊆ M' → wreturns M x → wreturns M' x.
Proof.
  intros HM (ts & r & E & H). exists ts, r. split; [done|]. intros b is v t k H1 H2 H3. specialize (H _ _ _ _ _ H1 H2 H3).
  destruct k as [| | | | | | | | | | | | | | | |[u|]]; try done. destruct H as [Hr [H|H]]; (split; [done|]); [left|by right].
  destruct (is_global_id u); [|done]. destruct H as (o & k & H). exists o, k. by eapply lookup_weaken.
Qed.
Definition all_scoped (s : bstate) : Prop :=
  ∀ f x, fvs (b_world s) !! f = Some x → wscoped (p_inst_layout (w_prog (b_world s))) x ∧ wreturns (gvs (b_world s)) x.
Lemma scope_step G Fn ts t k s s' : top G Fn ts s → all_scoped s → room (globals_in t + k) (b_world s) → no_err_top t →
  clean (build_on t) s tt s' → all_scoped s'.
Proof.
  intros T A R Herr H. pose proof T as [A1 A2 A3 A4 A5 A6]. destruct t as [n t i|n ps r bbs|n ps r| |]; cbn [build_on] in H.
  - apply (faith_global G _ _ _ k) in H as (v & Hv & B1 & B2 & B3 & B4 & B5 & B6 & B7 & B8 & B9 & B10); [|done|].
    2: { intros v m Hm. by apply A2 in Hm as (_ & _ & ?). }
    intros f x. rewrite B2, B4. intros Hf. apply A in Hf as [Hf Hf']. split; [|by eapply wreturns_mono]. eapply wscoped_mono; [|done]. intros u Hu. apply elem_of_app. by left.
  - simpl in R. assert (R0 : room 0 (b_world s)) by (eapply room_mono; [|done]; lia).
    assert (HG : ∀ n v, b_gvars s !! n = Some v → G !! v = Some n ∧ is_global_id v = true).
    { intros m v Hv. apply A1 in Hv. split; [done|]. by apply A2 in Hv as [? _]. }
    assert (Hgl : ∀ n v, b_gvars s !! n = Some v → v ∈ p_inst_layout (w_prog (b_world s))).
    { intros m v Hv. apply A1 in Hv. by apply A2 in Hv as (_ & ? & _). }
    assert (HF : ∀ n c, b_gfuncs s !! n = Some c → Fn !! c = Some n) by (intros m c; apply A3).
    assert (HFn : ∀ c n, Fn !! c = Some n → is_Some (fvs (b_world s) !! c)) by (intros c m Hc; by apply A4 in Hc as [_ ?]).
    assert (He : ∀ b, b ∈ bbs → SErr ∉ b_stmts b).
    { intros b Hb He. simpl in Herr. rewrite list.Forall_forall in Herr. apply Herr in Hb. unfold no_err_block in Hb.
      rewrite list.Forall_forall in Hb. by apply Hb in He. }
    destruct (scope_fun_def G Fn _ _ _ _ _ _ _ _ R0 HG Hgl HF HFn He H) as (f & x & C1 & C2 & C3).
    apply (faith_fun_def G Fn) in H as (f' & x' & B1 & B2 & B3 & B4 & B5 & B6 & B7 & B8 & B9); try done.
    rewrite B7, lookup_insert in C1. injection C1 as <-. rewrite B2, lookup_insert in C2. injection C2 as <-.
    intros g y. rewrite B2, B3, B4. intros [[<- <-]|[_ Hg]]%lookup_insert_Some; [done|by eapply A].
  - simpl in R. apply clean_fun_decl in H as (ret & ps' & f & w1 & H1 & H2 & H3 & H4 & H5 & ->).
    apply (view_new_decl k) in H3 as (V1 & V2 & V3 & V4 & V5); [|done].
    intros g y. simpl. rewrite V2, V3, V4. intros [[<- <-]|[_ Hg]]%lookup_insert_Some; [|by eapply A].
    split; [split; [intros front b before v after rest t0 k0 u E; by destruct front|]|].
    + intros b c (is & v & t0 & k0 & Hin & _). by apply elem_of_nil in Hin.
    + exists ps', ret. split; [done|]. intros b is v t0 k0 Hin. by apply elem_of_nil in Hin.
  - apply clean_mok in H as [_ ->]. done.
  - done.
Qed.
Lemma builds_scoped ts : ∀ G Fn ts0 s b, top G Fn ts0 s → all_scoped s → room (foldr (λ t n, globals_in t + n) 0 ts)%N (b_world s) →
  Forall no_err_top ts → builds s ts b → all_scoped b ∧ room 0 (b_world b).
Proof.
  induction ts as [|t ts IH]; intros G Fn ts0 s b T A R Herr H; inversion H as [|? ? s1 ? ? H1 H2 H3]; subst; [done|].
  apply list.Forall_cons in Herr as [E1 E2]. simpl in R.
  pose proof (scope_step _ _ _ _ _ _ _ T A R E1 (conj H1 H2)) as A'.
  destruct (top_step _ _ _ _ _ _ _ T R E1 (conj H1 H2)) as (G' & Fn' & _ & _ & T' & R').
  exact (IH _ _ _ _ _ T' A' R' E2 H3).
Qed.
Lemma sk_fv fd v : w_sk (fv fd) !! v = (λ d, (v_ty d, v_kind d)) <$> vals fd !! v.
Proof. unfold w_sk. simpl. rewrite !lookup_fmap. by destruct (vals fd !! v). Qed.
Lemma wflows_flows fd b c : wflows (fv fd) b c ↔ flows_to fd b c.
Proof.
  split.
  - intros (is & v & t & k & H1 & H2 & H3 & H4). rewrite sk_fv in H3. apply fmap_Some in H3 as (d & Hd & E). injection E as -> ->.
    by exists is, v, d.
  - intros (is & v & d & H1 & H2 & H3 & H4). exists is, v, (v_ty d), (v_kind d). by rewrite sk_fv, H3.
Qed.
Lemma result_has fd u : result (fv fd) u → has_result fd u.
Proof. intros (t & k & H & Hu). rewrite sk_fv in H. apply fmap_Some in H as (d & Hd & E). injection E as -> ->. by exists d. Qed.
Lemma wscoped_scoped p fd : wscoped (p_inst_layout p) (fv fd) → scoped p fd.
Proof.
  intros [H1 H2]. split.
  - intros front b before v after rest d u E Hd Hu.
    destruct (H1 front b before v after rest (v_ty d) (v_kind d) u) as [H|[(t & k & Hk & Hc)|H]]; [done|by rewrite sk_fv, Hd|done|..].
    + left. by left.
    + left. right. rewrite sk_fv in Hk. apply fmap_Some in Hk as (e & He & E'). injection E' as -> ->. by exists e.
    + right. assert (Hr : ∀ c, rtc (wflows (fv fd)) c b → rtc (flows_to fd) c b).
      { intros c. apply rtc_subrel. intros x y. apply wflows_flows. }
      destruct H as [H|[(c & o & ps & Hc & Hf & Hb & Hp)|[[(c & is & Hc & Hi & Hv)|H] Hres]]].
      * by apply av_arg.
      * simpl in Hb. rewrite lookup_fmap in Hb. apply fmap_Some in Hb as (bd & Hbd & E'). injection E' as -> ->.
        eapply av_param; [by apply Hr|exact Hf|exact Hbd|exact Hp].
      * eapply av_earlier; [by apply Hr|exact Hi|exact Hv|by apply result_has].
      * apply av_here; [done|by apply result_has].
  - intros b c Hf Hc. apply wflows_flows in Hf. by apply (H2 b c).
Qed.
Section built.
Context (ts : list atop) (b : bstate) (Hb : builds (bstate0 ids0 0 0) ts b) (Herr : Forall no_err_top ts)
  (Hg : (foldr (λ t n, globals_in t + n) 0 ts < local_value_id_starts_from)%N).
Notation p := (w_prog (b_world b)).
Lemma builds_both : all_scoped b ∧ room 0 (b_world b).
Proof.
  eapply (builds_scoped ts ∅ ∅ [] (bstate0 ids0 0 0) b); try done.
  - constructor; simpl; try done; constructor.
  - by apply room0.
Qed.
Lemma built_scoped f fd : p_funcs p !! f = Some fd → scoped p fd.
Proof.
  intros Hf. destruct builds_both as [A _]. apply wscoped_scoped. apply (A f). rewrite lookup_fmap. by rewrite Hf.
Qed.
(** Identifiers of global values and of values of functions are different. *)
Lemma built_apart :
  (∀ v, is_Some (p_values p !! v) → v < local_value_id_starts_from)%N ∧
  ∀ f fd v, p_funcs p !! f = Some fd → is_Some (vals fd !! v) → (local_value_id_starts_from ≤ v)%N.
Proof.
  destruct builds_both as [_ R]. split.
  - intros v Hv. apply room_gv in R as [R1 R2]. apply R2 in Hv. lia.
  - intros f fd v Hf Hv. apply room_lv in R as (R1 & R2 & R3). destruct (R3 f (fv fd) v) as [R4 _].
    + rewrite lookup_fmap. by rewrite Hf.
    + simpl. by rewrite lookup_fmap, fmap_is_Some.
    + done.
Qed.
Lemma built_returns f fd : p_funcs p !! f = Some fd → returns_fit p fd.
Proof.
  intros Hf. destruct builds_both as [A _].
  destruct built_apart as [Ag Al]. destruct (builds_consistent _ _ Hb Hg) as (_ & _ & _ & Ht).
  destruct (A f (fv fd)) as [_ (tys & t & Ety & H)]; [rewrite lookup_fmap; by rewrite Hf|].
  exists tys, t. split; [done|]. intros b' is v d Hin Hv Hd'. specialize (H b' is v (v_ty d) (v_kind d) Hin Hv).
  rewrite sk_fv, Hd' in H. specialize (H eq_refl). destruct (v_kind d) as [| | | | | | | | | | | | | | | |[u|]]; try done.
  destruct H as [Hne H]. split; [done|]. simpl.
  assert (Hloc : ∀ e, vals fd !! u = Some e → (p_values p ∪ vals fd) !! u = Some e).
  { intros e He. rewrite lookup_union_r; [done|]. destruct (p_values p !! u) eqn:E'; [|done].
    pose proof (Ag u (ex_intro _ _ E')). pose proof (Al f fd u Hf (ex_intro _ _ He)). lia. }
  destruct H as [H|(-> & t' & z & H)].
  - destruct (is_global_id u).
    + destruct H as (o & k & H). rewrite lookup_fmap in H. apply fmap_Some in H as (e & He & E'). injection E' as -> -> ->.
      by rewrite (lookup_union_Some_l _ _ _ _ He).
    + destruct H as [k H]. rewrite sk_fv in H. apply fmap_Some in H as (e & He & E'). injection E' as -> ->. by rewrite (Hloc _ He).
  - rewrite sk_fv in H. apply fmap_Some in H as (e & He & E'). injection E' as -> Ek. rewrite (Hloc _ He). simpl.
    specialize (Ht f fd u e Hf He). rewrite <- Ek in Ht. by inversion Ht.
Qed.
End built.
Section read.
Context (r : list revent) (p : program) (n : N) (b : bstate) (s : ps) (ts : list atop) (s' : ps)
  (Hr : read_program r = (Rok p, n, b)) (Hd : driver_new r = (Rok s, 0%N)) (Hp : parses s ts s').
Lemma read_builds : p = w_prog (b_world b) ∧ builds (bstate0 ids0 0 0) ts b ∧ Forall no_err_top ts ∧ Forall top_shape ts.
Proof.
  unfold read_program in Hr. rewrite Hd in Hr.
  destruct (generate_ok _ _ _ _ _ _ _ _ _ Hd Hr) as (_ & _ & s1 & ts' & s2 & E & Hp' & _ & Hsh & Herr & Hb & _ & ->).
  injection E as <-. assert (ts' = ts) as -> by (by eapply parses_det). done.
Qed.
Context (Hg : (foldr (λ t n, globals_in t + n) 0 ts < local_value_id_starts_from)%N).
Lemma read_scoped f fd : p_funcs p !! f = Some fd → scoped p fd.
Proof. destruct read_builds as (-> & Hb & He & _). by eapply built_scoped. Qed.
Lemma read_apart :
  (∀ v, is_Some (p_values p !! v) → v < local_value_id_starts_from)%N ∧
  ∀ f fd v, p_funcs p !! f = Some fd → is_Some (vals fd !! v) → (local_value_id_starts_from ≤ v)%N.
Proof. destruct read_builds as (-> & Hb & He & _). by eapply built_apart. Qed.
Lemma read_returns f fd : p_funcs p !! f = Some fd → returns_fit p fd.
Proof. destruct read_builds as (-> & Hb & He & _). by eapply built_returns. Qed.
End read.
