(** Proofs: accepted texts without unchecked mistakes are well-formed (C52). *)
From Coq Require Import Lia ZifyBool ZifyNat ZifyN.
From Verif Require Import RoundProofs FaithFunProofs.
From Verif Require Import Base IdModel TypeModel IrModel WorldModel LexerModel ParserModel ParserSpec ParserProofs FrontModel
  LayoutModel LayoutSpec LayoutProofs DfgSpec UsesSpec FlowSpec TypingSpec ScopeSpec LlvmSpec LexerSpec PrintSpec FaithSpec FaithTopProofs AcceptSpec AcceptTopProofs TameSpec
  DriverModel DriverSpec DriverProofs FrontShapeProofs FunCleanProofs HistoryProofs OrderProofs LlvmSigilProofs CanonNameProofs TreeTextProofs TreeWfProofs RetreeFunProofs
  RetreeTopProofs RetreeProgProofs SizedProofs ScopeProofs RewellProofs ReadAgainProofs.

(** ** Blocks *)
Lemma order_self bbs l : in_order bbs l → NoDup (map b_name l) → in_order l l.
Proof.
  intros H Hn. eapply (order_like (=)); [by intros ???? -> ->|exact H|exact Hn|].
  clear. induction l as [|b l IH]; constructor; [|done]. split; [done|]. clear. induction (ends_to b); by constructor.
Qed.
Lemma names_apart (l : list ablock) :
  concat (map (λ b, param_names b ++ body_names b) l) ≡ₚ concat (map param_names l) ++ concat (map body_names l).
Proof. induction l as [|x l IH]; simpl; [done|]. rewrite IH. solve_Permutation. Qed.
Lemma path_in bbs n a b : bpath bbs n a b → a ∈ bbs → b ∈ bbs.
Proof. induction 1; auto. Qed.
Lemma head_in {A} (l : list A) x : head l = Some x → x ∈ l.
Proof. destruct l; [done|]. intros [= ->]. by left. Qed.
Lemma in_concat_map {A B} (g : A → list B) l x : x ∈ concat (map g l) ↔ ∃ y, y ∈ l ∧ x ∈ g y.
Proof.
  split.
  - intros H. apply elem_of_list_In, in_concat in H as (k & Hk & H). apply in_map_iff in Hk as (y & <- & Hy).
    exists y. by rewrite !elem_of_list_In.
  - intros (y & Hy & Hx). apply elem_of_list_In, in_concat. exists (g y). split; [apply in_map|]; by apply elem_of_list_In.
Qed.
Lemma concat_unique {A B} (g : A → list B) l x y n : NoDup (concat (map g l)) → x ∈ l → y ∈ l → n ∈ g x → n ∈ g y → x = y.
Proof.
  induction l as [|z l IH]; simpl; [by intros _ ?%elem_of_nil|]. intros Hnd Hx Hy Hnx Hny. apply list.NoDup_app in Hnd as (_ & Hd & Hnd).
  apply elem_of_cons in Hx as [-> |Hx]; apply elem_of_cons in Hy as [-> |Hy]; [done|..|by apply IH]; exfalso.
  - apply (Hd n Hnx). apply in_concat_map. by exists y.
  - apply (Hd n Hny). apply in_concat_map. by exists x.
Qed.
Lemma arity_unique ts x tys tr k : NoDup (concat (map top_names ts)) → fun_in ts x tys tr → arity_in ts x k → k = length tys.
Proof.
  intros Hnd (ps & r & H & Ht & _) Ha. rewrite <- (Forall2_length _ _ _ Ht). pose proof (concat_unique top_names ts) as Hu.
  destruct H as [H|(qs & bbs & -> & H)], Ha as [(ps' & r' & H' & ->)|(ps' & r' & bbs' & H' & ->)];
    assert (x ∈ [x]) as Hx by (by left); pose proof (Hu _ _ x Hnd H H' Hx Hx) as E; [by injection E as -> ->|done|done|].
  injection E as -> -> ->. by rewrite map_length.
Qed.
Lemma block_unique bbs b c : NoDup (map b_name bbs) → b ∈ bbs → c ∈ bbs → b_name b = b_name c → b = c.
Proof.
  intros Hnd Hb Hc E. apply elem_of_list_lookup in Hb as [i Hi], Hc as [j Hj].
  assert (i = j) as <-; [|congruence]. eapply NoDup_lookup; [exact Hnd|by apply map_at|rewrite E; by apply map_at].
Qed.
(** The names of the blocks that can be reached *)
Lemma once_names gv ps bbs l : fun_once gv ps bbs → in_order bbs l → NoDup (map b_name l) →
  (∀ x, x ∈ map fst ps → x ∉ gv) →
  (∀ first b, head bbs = Some first → b ∈ bbs → FlowSpec.reachable bbs first b → ∀ x, x ∈ param_names b → x ∉ map fst ps) →
  NoDup (fun_names ps l) ∧ ∀ x, x ∈ fun_names ps l → x ∉ gv.
Proof.
  intros (O1 & O2 & O3) (e & He & Hin & _) Hl T1 T2.
  destruct (O3 e l He) as [O4 O5]; [by eapply NoDup_fmap_1|..].
  { intros b. rewrite Hin. split; [naive_solver|]. intros [n Hp]. split; [|by exists n]. eapply path_in; [exact Hp|by apply head_in]. }
  rewrite names_apart in O4. split.
  - apply list.NoDup_app. split; [done|]. split; [|done]. intros x Hx [H|H]%elem_of_app; apply in_concat_map in H as (b & Hb & H).
    + apply Hin in Hb as [Hb Hr]. by apply (T2 e b He Hb Hr x).
    + destruct (proj2 (O5 b x Hb) H) as [_ H']. done.
  - intros x [H|[H|H]%elem_of_app]%elem_of_app; [by apply T1|..]; apply in_concat_map in H as (b & Hb & H);
      [exact (proj1 (O5 b x Hb) H)|exact (proj1 (proj2 (O5 b x Hb) H))].
Qed.
Lemma ok_params ps : Forall ok_param ps → Forall well_named (map fst ps).
Proof. induction 1; simpl; constructor; [by apply wf_well_named|done]. Qed.
Lemma ok_names ps l : Forall ok_param ps → Forall ok_block l → Forall well_named (map b_name l ++ fun_names ps l).
Proof.
  intros Hp Hb. unfold fun_names. rewrite !list.Forall_app. split; [|split; [by apply ok_params|split]].
  - induction Hb as [|b l (H & _) _ IH]; simpl; constructor; [by apply wf_well_named|done].
  - induction Hb as [|b l (_ & H & _) _ IH]; simpl; [constructor|]. apply list.Forall_app. split; [by apply ok_params|done].
  - induction Hb as [|b l (_ & _ & H) _ IH]; simpl; [constructor|]. apply list.Forall_app. split; [|done]. unfold body_names.
    clear IH. induction H as [|st sts Hst _ IH]; simpl; [constructor|]. apply list.Forall_app. split; [|done].
    destruct st; simpl; constructor; [|constructor]. apply wf_well_named. apply Hst.
Qed.
Lemma shape_ends b : block_shape b → no_err_block b → ∃ body fin, b_stmts b = body ++ [fin] ∧ ends_block fin.
Proof.
  intros (body & fin & E & _ & H) He. exists body, fin. split; [done|]. unfold no_err_block in He. rewrite E in He.
  apply list.Forall_app in He as [_ He]. apply list.Forall_cons in He as [He _]. destruct H as [H|H]; [by destruct fin|done].
Qed.

(** ** Function bodies: which values have names, and how many arguments are passed *)
Section body.
Context (p : program) (G Fn L B : gmap N string) (fd : fdata) (ps : list (string * aty)) (l : list ablock).
Notation D := (datas (vals fd)).
Context (Q2 : inj_names L) (Q8 : ∀ v x, L !! v = Some x → x ∈ fun_names ps l)
  (Q10 : Forall2 (FaithSpec.is_param L D KFuncArg) (f_params fd) ps)
  (Q11 : Forall2 (is_block G Fn L B D (bb_params <$> blks fd)) (l_bbs (f_layout fd)) l)
  (Hlay : linv (f_layout fd)).
Lemma param_value arg vs qs x : Forall2 (FaithSpec.is_param L D arg) vs qs → x ∈ map fst qs → ∃ v t i, L !! v = Some x ∧ D !! v = Some (t, arg i).
Proof.
  induction 1 as [|v q vs qs [H (t & i & Ht & _)] _ IH]; simpl; [by intros ?%elem_of_nil|].
  intros [-> |Hx]%elem_of_cons; [|by apply IH]. by exists v, t, i.
Qed.
Lemma def_at sts x : x ∈ concat (map stmt_defs sts) → ∃ j e, sts !! j = Some (SDef x e).
Proof.
  induction sts as [|st sts IH]; simpl; [by intros ?%elem_of_nil|]. intros [H|H]%elem_of_app.
  - destruct st as [m e| | | | | |]; simpl in H; try (by apply elem_of_nil in H). apply elem_of_list_singleton in H as ->. by exists 0, e.
  - destruct (IH H) as (j & e & Hj). by exists (S j), e.
Qed.
Lemma stmt_kind v st : is_stmt G Fn L B D v st → ∃ t k, D !! v = Some (t, k) ∧ TypingSpec.is_param k = false.
Proof.
  intros (t & k & Hk & H). exists t, k. split; [done|].
  destruct st as [m e|x y|g args|c x ta y fa|x args|[a|]|]; [destruct H as (_ & _ & H); destruct e; simpl in H|..]; naive_solver.
Qed.
Lemma named_def i x b u nm j : l_bbs (f_layout fd) !! i = Some x → l !! i = Some b → x.2 !! j = Some u → L !! u = Some nm →
  ∃ e, b_stmts b !! j = Some (SDef nm e).
Proof.
  intros Hx Hb Hu HL. destruct (Forall2_lookup_l _ _ _ _ _ Q11 Hx) as (b' & Hb' & _ & _ & Hst). rewrite Hb in Hb'. injection Hb' as <-.
  destruct (Forall2_lookup_l _ _ _ _ _ Hst Hu) as (st & Hst' & Hs). destruct (stmt_kind _ _ Hs) as (t & k & Hk & Hnp).
  pose proof (Q8 _ _ HL) as Hin. unfold fun_names in Hin. apply elem_of_app in Hin as [Hin|Hin]; [|apply elem_of_app in Hin as [Hin|Hin]].
  - destruct (param_value _ _ _ _ Q10 Hin) as (w & t' & i' & Hw & Hk'). rewrite (Q2 _ _ _ Hw HL) in Hk'. rewrite Hk in Hk'. injection Hk' as _ ->. done.
  - apply in_concat_map in Hin as (c & Hc & Hin). apply elem_of_list_lookup in Hc as [q Hq].
    destruct (Forall2_lookup_r _ _ _ _ _ Q11 Hq) as (y & Hy & _ & (qs & _ & Hpar) & _).
    destruct (param_value _ _ _ _ Hpar Hin) as (w & t' & i' & Hw & Hk'). rewrite (Q2 _ _ _ Hw HL) in Hk'. rewrite Hk in Hk'. injection Hk' as _ ->. done.
  - apply in_concat_map in Hin as (c & Hc & Hin). apply elem_of_list_lookup in Hc as [q Hq].
    destruct (Forall2_lookup_r _ _ _ _ _ Q11 Hq) as (y & Hy & _ & _ & Hsts).
    apply def_at in Hin as (j' & e & Hj). destruct (Forall2_lookup_r _ _ _ _ _ Hsts Hj) as (w & Hw & _ & _ & _ & HLw & _).
    pose proof (Q2 _ _ _ HLw HL) as ->.
    destruct Hlay as [[Nd1 Nd2] Hrev].
    assert (E1 : x.1 = y.1).
    { eapply linv_unique; [exact Hlay|..].
      - exists x.2. split; [destruct x; by eapply elem_of_list_lookup_2|by eapply elem_of_list_lookup_2].
      - exists y.2. split; [destruct y; by eapply elem_of_list_lookup_2|by eapply elem_of_list_lookup_2]. }
    assert (i = q) as <-.
    { eapply NoDup_lookup; [exact Nd1|..]; unfold blocks; rewrite list_lookup_fmap; [rewrite Hx|rewrite Hy]; simpl; by rewrite ?E1. }
    rewrite Hx in Hy. injection Hy as <-. rewrite Hb in Hq. injection Hq as <-.
    assert (j = j') as <-; [|by exists e].
    eapply NoDup_lookup; [|exact Hu|exact Hw]. eapply (Nd2 x.1). destruct x. by eapply elem_of_list_lookup_2.
Qed.
End body.

(** ** The last definition of a text *)
Section last.
Context (pre : list atop) (t : atop) (p : program) (G Fn : gmap N string).
Notation ts := (pre ++ [t]).
Context (F1 : Forall2 (global_is G (p_values p)) (p_inst_layout p) (filter is_global_def ts))
  (F2 : Forall2 (λ f t, ∃ fd, p_funcs p !! f = Some fd ∧ Fn !! f = Some (f_name fd) ∧ fun_is G Fn fd t) (p_func_layout p) (filter is_fun_top ts))
  (F3 : ∀ v n, G !! v = Some n → is_global_id v = true ∧ v ∈ p_inst_layout p)
  (F4 : ∀ f n, Fn !! f = Some n → f ∈ p_func_layout p)
  (HT : well_typed p) (Hsz : sized_program p)
  (Hsc : ∀ f fd, p_funcs p !! f = Some fd → scoped p fd) (Hrf : ∀ f fd, p_funcs p !! f = Some fd → returns_fit p fd)
  (Hapart : ∀ f fd v, p_funcs p !! f = Some fd → is_Some (p_values p !! v) → is_Some (vals fd !! v) → False)
  (Hlay : ∀ f fd, p_funcs p !! f = Some fd → linv (f_layout fd))
  (Hok : Forall ok_top ts) (Hsh : Forall top_shape ts) (Herr : Forall no_err_top ts) (Hend : t ≠ TEnd)
  (Honce : ∀ n ps r bbs, t = TFunDef n ps r bbs → fun_once (concat (map gvar_names pre)) ps bbs)
  (Hnd : NoDup (concat (map top_names ts))) (Htame : tame ts).

Lemma global_ok v n a i : TGlobal n a i ∈ ts → global_is G (p_values p) v (TGlobal n a i) → ∃ d t0, p_values p !! v = Some d ∧ v_ty d = TPtr t0 ∧ type_of a t0 ∧ init_of i t0.
Proof.
  intros Hin (Hn & d & init & e & Hd & Hk & _ & He & Hc & Hden & _). exists d, (v_ty e).
  assert (Hfit : init_fits a i).
  { apply elem_of_list_split in Hin as (l1 & l2 & E). exact (Htame _ _ _ E). }
  split; [done|]. pose proof (proj1 HT _ _ Hd) as Hh. rewrite Hk in Hh.
  inversion Hh as [| | | |? t0 H1 H2 E1 E2| | | | | | | | | | |]. subst. simpl in H1. rewrite He in H1. injection H1 as <-.
  split; [done|]. split; [apply sized_denotes; [by apply Hden|exact (proj1 Hsz _ _ He)]|].
  eapply (const_init (p_values p) (global_env p)); [| |exact Hc|exact He].
  - intros u e' He' _. exact (proj1 HT _ _ He').
  - intros u e' He'. simpl. by rewrite He'.
Qed.
Lemma var_ok v x : G !! v = Some x → ∃ d, p_values p !! v = Some d ∧ var_in ts x (v_ty d).
Proof.
  intros Hx. destruct (F3 _ _ Hx) as [_ Hin]. apply elem_of_list_lookup in Hin as [i Hi].
  destruct (Forall2_lookup_l _ _ _ _ _ F1 Hi) as (t1 & Ht & H). apply elem_of_list_lookup_2, elem_of_list_filter in Ht as [_ Ht].
  destruct t1 as [n a i'| | | |]; try done. destruct (global_ok _ _ _ _ Ht H) as (d & t0 & Hd & Ety & H1 & H2). exists d. split; [done|].
  assert (n = x) as -> by (destruct H as [H _]; congruence). by exists a, i', t0.
Qed.
Lemma fun_ok_ty f fd t1 : p_funcs p !! f = Some fd → fun_is G Fn fd t1 → ∃ n ps r tys tr, f_name fd = n ∧ f_ty fd = TFun tys tr ∧
  Forall2 type_of ps tys ∧ ret_of r tr ∧ (t1 = TFunDecl n ps r ∨ ∃ qs bbs, ps = map snd qs ∧ t1 = TFunDef n qs r bbs).
Proof.
  intros Hf H. destruct (proj2 Hsz _ _ Hf) as [(ts' & tr' & Ety' & Hs1 & Hs2) _].
  destruct t1 as [|n' ps r bbs|n' ps r| |]; try done.
  - destruct H as (Hn' & _ & (tys & tr & Ety & H1 & H2) & _). rewrite Ety in Ety'. injection Ety' as <- <-.
    exists n', (map snd ps), r, tys, tr. split; [done|]. split; [done|]. split; [by apply denote_types|]. split; [by apply denote_ret|]. right. by exists ps, bbs.
  - destruct H as (Hn' & _ & _ & tys & tr & Ety & H1 & H2). rewrite Ety in Ety'. injection Ety' as <- <-.
    exists n', ps, r, tys, tr. split; [done|]. split; [done|]. split; [by apply denote_types|]. split; [by apply denote_ret|]. by left.
Qed.
Lemma callee_ok c x tys tr : Fn !! c = Some x → (f_ty <$> p_funcs p !! c) = Some (TFun tys tr) →
  fun_in ts x tys tr ∧ arity_in ts x (length tys).
Proof.
  intros Hx Hc. apply fmap_Some in Hc as (cd & Hcd & Ec). pose proof (F4 _ _ Hx) as Hin. apply elem_of_list_lookup in Hin as [i Hi].
  destruct (Forall2_lookup_l _ _ _ _ _ F2 Hi) as (t1 & Ht & cd' & Hcd' & Hn & H). rewrite Hcd in Hcd'. injection Hcd' as <-.
  apply elem_of_list_lookup_2, elem_of_list_filter in Ht as [_ Ht].
  destruct (fun_ok_ty _ _ _ Hcd H) as (n & ps & r & tys' & tr' & En & Ety & H1 & H2 & H3). rewrite Ety in Ec. injection Ec as <- <-.
  assert (n = x) as -> by congruence. split.
  - exists ps, r. split; [|done]. destruct H3 as [-> |(qs & bbs & -> & ->)]; [by left|right; by exists qs, bbs].
  - rewrite <- (Forall2_length _ _ _ H1). destruct H3 as [-> |(qs & bbs & -> & ->)]; [left; by exists ps, r|right]. exists qs, r, bbs. by rewrite map_length.
Qed.
Lemma self_in : t ∈ ts.
Proof. apply elem_of_app. right. by left. Qed.
Lemma glob_last n a i : t = TGlobal n a i → ∃ t0, type_of a t0 ∧ init_of i t0.
Proof.
  intros Et. assert (Hg : TGlobal n a i ∈ filter is_global_def ts) by (apply elem_of_list_filter; split; [done|rewrite <- Et; apply self_in]).
  apply elem_of_list_lookup in Hg as [j Hj]. destruct (Forall2_lookup_r _ _ _ _ _ F1 Hj) as (v & _ & H).
  destruct (global_ok v n a i) as (d & t0 & _ & _ & H1 & H2); [rewrite <- Et; apply self_in|done|]. by exists t0.
Qed.
Lemma decl_last n ps r : t = TFunDecl n ps r → ∃ ts t0, Forall2 type_of ps ts ∧ ret_of r t0.
Proof.
  intros Et. assert (Hg : TFunDecl n ps r ∈ filter is_fun_top ts) by (apply elem_of_list_filter; split; [done|rewrite <- Et; apply self_in]).
  apply elem_of_list_lookup in Hg as [j Hj]. destruct (Forall2_lookup_r _ _ _ _ _ F2 Hj) as (f & _ & fd & Hfd & _ & H).
  destruct (fun_ok_ty _ _ _ Hfd H) as (n' & ps' & r' & tys & tr & _ & _ & H1 & H2 & [H3|(? & ? & _ & H3)]); [|done]. injection H3 as <- <- <-. by exists tys, tr.
Qed.
Lemma args_short {A B} (P : A → B → Prop) (vs : list A) args : (∃ l rest, args = l ++ rest ∧ Forall2 P vs l) → length vs ≤ length args.
Proof. intros (l & rest & -> & F). rewrite app_length, (Forall2_length _ _ _ F). lia. Qed.
Lemma fun_last n ps r bbs : t = TFunDef n ps r bbs → ∃ t0 l Ty, ret_of r t0 ∧ fun_of pre t ps t0 bbs l Ty.
Proof.
  intros Et. assert (Hg : TFunDef n ps r bbs ∈ filter is_fun_top ts) by (apply elem_of_list_filter; split; [done|rewrite <- Et; apply self_in]).
  apply elem_of_list_lookup in Hg as [j Hj]. destruct (Forall2_lookup_r _ _ _ _ _ F2 Hj) as (f & Hf & fd & Hfd & Hn & H).
  pose proof H as (_ & _ & (tys & tr & Ety & Hden & Hret) & L & B & l & N1 & N2 & N3 & [N4 N5] & [N6 N7] & N8 & N9).
  destruct (proj2 Hsz _ _ Hfd) as [(ts' & tr' & Ety' & Hs1 & Hs2) Hsv]. rewrite Ety in Ety'. injection Ety' as <- <-.
  pose proof (Htame pre t [] eq_refl) as Htm. rewrite Et in Htm. destruct Htm as [Tm1 Tm2].
  pose proof (list.Forall_forall ok_top ts) as [Hok' _]. specialize (Hok' Hok _ self_in). rewrite Et in Hok'. destruct Hok' as (Ok1 & Ok2 & Ok3).
  pose proof (list.Forall_forall top_shape ts) as [Hsh' _]. specialize (Hsh' Hsh _ self_in). rewrite Et in Hsh'. destruct Hsh' as [_ Hsh'].
  pose proof (list.Forall_forall no_err_top ts) as [Herr' _]. specialize (Herr' Herr _ self_in). rewrite Et in Herr'.
  destruct (once_names _ _ _ _ (Honce _ _ _ _ Et) N2 N3 Tm1) as [Nd Ng].
  { intros first b H1 H2 H3. by apply (Tm2 first b). }
  assert (Hsub : ∀ b, b ∈ l → b ∈ bbs ∧ ∃ e, head bbs = Some e ∧ FlowSpec.reachable bbs e b).
  { destruct N2 as (e & He & Hin & _). intros b Hb. apply Hin in Hb as [H1 H2]. eauto. }
  exists tr, l, (type_named L (vals fd)). split; [by apply denote_ret|]. rewrite Et.
  eapply (fun_well p G Fn L B fd n ps r bbs l pre); try eassumption.
  - intros v d Hd. exact (proj2 HT _ _ _ _ Hfd Hd).
  - by eapply Hsc.
  - by eapply Hrf.
  - intros v. by apply (Hapart f fd).
  - intros v Hv. apply elem_of_list_lookup in Hv as [i Hi]. destruct (Forall2_lookup_l _ _ _ _ _ F1 Hi) as (t1 & _ & Ht').
    destruct t1 as [n1 a1 i1| | | |]; try done. destruct Ht' as (_ & d & _ & _ & Hd & _). eauto.
  - intros v x Hx. destruct (var_ok _ _ Hx) as (d & Hd & a & i & t0 & Hin & Hv). exists (v_ty d). split.
    + simpl. by rewrite (lookup_union_Some_l _ _ _ _ Hd).
    + exists a, i, t0. split; [|done]. apply elem_of_app in Hin as [Hin|Hin]; [done|]. apply elem_of_list_singleton in Hin. congruence.
  - intros x t0 Hx (a & i & t1 & Hin & _). apply (Ng x Hx). apply in_concat_map. exists (TGlobal x a i). split; [done|by left].
  - intros v d c vs x tys' tr' Hd Hk Hx Hc. rewrite <- Et. by apply (callee_ok c).
  - by apply names_nameable.
  - intros v w x H1 H2. by apply (N5 Nd v w x).
  - intros v w x H1 H2. by apply (N7 N3 v w x).
  - by eapply order_self.
  - by destruct (Honce _ _ _ _ Et) as (_ & ? & _).
  - intros i x b u nm j' Hx Hb Hu _ HL. eapply (named_def G Fn L B fd ps l); try eassumption.
    + intros v w x' H1 H2. by apply (N5 Nd v w x').
    + by eapply Hlay.
  - intros i x b j' v st d Hx Hb Hv Hst Hd.
    destruct (Forall2_lookup_l _ _ _ _ _ N9 Hx) as (b' & Hb' & _ & _ & Hsts). rewrite Hb in Hb'. injection Hb' as <-.
    destruct (Forall2_lookup_l _ _ _ _ _ Hsts Hv) as (st' & Hst' & t1 & k & Hk & Hs). rewrite Hst in Hst'. injection Hst' as <-.
    unfold datas in Hk. rewrite lookup_fmap, Hd in Hk. injection Hk as Ek1 Ek2.
    destruct (Hsub b) as (Hbb & e & He & Hr); [by eapply elem_of_list_lookup_2|].
    destruct (Tm2 e b He Hbb Hr) as [_ Hns]. eapply list.Forall_forall in Hns; [|by eapply elem_of_list_lookup_2].
    pose proof (proj2 HT _ _ _ _ Hfd Hd) as Hty.
    assert (Hblk : ∀ c x vs args, B !! c = Some x → args_match (local_env p fd) c vs → is_args G L (datas (vals fd)) vs args →
      (∀ b, b ∈ bbs → b_name b = x → length args ≤ length (b_params b)) → length vs = length args).
    { intros c x' vs args Hc (qs & Hqs & Hm) Ha Hle. apply args_short in Ha. pose proof (N6 _ _ Hc) as Hin. apply elem_of_list_fmap in Hin as (a & Ea & Hin).
      apply elem_of_list_lookup in Hin as [q Hq]. destruct (Forall2_lookup_r _ _ _ _ _ N9 Hq) as (y & Hy & Hy1 & (qs' & Hqs' & Hpar) & _).
      rewrite <- Ea in Hy1. pose proof (N7 N3 _ _ _ Hc Hy1) as ->. simpl in Hqs. rewrite lookup_fmap in Hqs'. rewrite Hqs' in Hqs. injection Hqs as ->.
      assert (length args ≤ length (b_params a)) by (apply Hle; [apply Hsub; by eapply elem_of_list_lookup_2|done]).
      pose proof (Forall2_length _ _ _ Hpar). pose proof (Forall2_length _ _ _ Hm). lia. }
    assert (Hfun : ∀ g c vs args, v_kind d = KCall c vs → Fn !! c = Some g → is_args G L (datas (vals fd)) vs args →
      (∀ k, arity_in ts g k → length args ≤ k) → length vs = length args).
    { intros g c vs args Ec Hc Ha Hle. apply args_short in Ha. rewrite Ec in Hty. cbn [TypingSpec.is_param] in Hty.
      inversion Hty as [| | | | | | | | | | | | |c0 vs0 qs r0 H1 H2 E1 E2| |]. subst c0 vs0. simpl in H1.
      destruct (callee_ok _ _ _ _ Hc H1) as [_ Har]. apply Hle in Har. pose proof (Forall2_length _ _ _ H2). lia. }
    rewrite Ek2 in *. destruct st as [m e0|x0 y0|g args|c x0 ta y0 fa|x0 args|[a0|]|]; try done.
    + destruct Hs as (_ & _ & Hs). destruct e0 as [| | | | |g args]; try done. destruct Hs as (c & vs & Ec & Hc & Ha). rewrite Ec. simpl.
      eapply (Hfun g c); [exact Ec|exact Hc|exact Ha|]. rewrite Et. exact Hns.
    + destruct Hs as (c & vs & Ec & Hc & Ha). rewrite Ec. simpl. eapply (Hfun g c); [exact Ec|exact Hc|exact Ha|]. rewrite Et. exact Hns.
    + destruct Hs as (u & b1 & b2 & vs1 & vs2 & Ec & _ & H1 & Ha1 & H2 & Ha2). rewrite Ec in *. cbn [TypingSpec.is_param] in Hty. destruct Hns as [Hns1 Hns2].
      inversion Hty as [| | | | | | | | | | |? ? ? ? ? K1 K2 K3 K4 E1 E2| | | |]. split; [by eapply (Hblk b1)|by eapply (Hblk b2)].
    + destruct Hs as (b1 & vs & Ec & H1 & Ha). rewrite Ec in *. cbn [TypingSpec.is_param] in Hty.
      inversion Hty as [| | | | | | | | | | | |? ? K1 E1 E2| | |]. by eapply (Hblk b1).
  - apply ok_names; [done|]. apply list.Forall_forall. intros b Hb. eapply list.Forall_forall in Ok3; [exact Ok3|]. by apply Hsub.
  - intros b Hb. apply Hsub in Hb as [Hb _]. apply shape_ends; [eapply list.Forall_forall in Hsh'; [exact Hsh'|done]|eapply list.Forall_forall in Herr'; [exact Herr'|done]].
Qed.
(** The arguments of calls, jumps and branches are enough. *)
Lemma enough_last n ps r bbs first b st : t = TFunDef n ps r bbs → head bbs = Some first → b ∈ bbs → FlowSpec.reachable bbs first b → st ∈ b_stmts b →
  no_shortage ts bbs st.
Proof.
  clear Hsc Hrf Hapart Hlay Hok Hsh Herr Hend Htame.
  intros Et Hfst Hbb Hrb Hst. assert (Hg : TFunDef n ps r bbs ∈ filter is_fun_top ts) by (apply elem_of_list_filter; split; [done|rewrite <- Et; apply self_in]).
  apply elem_of_list_lookup in Hg as [j Hj]. destruct (Forall2_lookup_r _ _ _ _ _ F2 Hj) as (f & Hf & fd & Hfd & Hn & H).
  pose proof H as (_ & _ & _ & L & B & l & N1 & N2 & N3 & _ & [N6 N7] & N8 & N9).
  pose proof (Honce _ _ _ _ Et) as (_ & Hbn & _).
  assert (Hsub : ∀ b, b ∈ l ↔ b ∈ bbs ∧ FlowSpec.reachable bbs first b).
  { destruct N2 as (e & He & Hin & _). rewrite Hfst in He. injection He as <-. exact Hin. }
  assert (Hbl : b ∈ l) by (by apply Hsub). apply elem_of_list_lookup in Hbl as [i Hi].
  destruct (Forall2_lookup_r _ _ _ _ _ N9 Hi) as (x & Hx & _ & _ & Hsts). apply elem_of_list_lookup in Hst as [j' Hj'].
  destruct (Forall2_lookup_r _ _ _ _ _ Hsts Hj') as (v & Hv & t1 & k & Hk & Hs).
  unfold datas in Hk. rewrite lookup_fmap in Hk. apply fmap_Some in Hk as (d & Hd & Ek). injection Ek as _ ->.
  pose proof (proj2 HT _ _ _ _ Hfd Hd) as Hty.
  assert (Hblk : ∀ c x vs args, B !! c = Some x → args_match (local_env p fd) c vs → is_args G L (datas (vals fd)) vs args →
    ∀ b, b ∈ bbs → b_name b = x → length (b_params b) ≤ length args).
  { intros c x' vs args Hc (qs & Hqs & Hm) Ha b' Hb' Hbx. apply args_short in Ha. pose proof (N6 _ _ Hc) as Hin. apply elem_of_list_fmap in Hin as (a & Ea & Hin).
    assert (a = b') as <- by (apply (block_unique bbs); [done|by apply Hsub|done|congruence]).
    apply elem_of_list_lookup in Hin as [q Hq]. destruct (Forall2_lookup_r _ _ _ _ _ N9 Hq) as (y & Hy & Hy1 & (qs' & Hqs' & Hpar) & _).
    rewrite <- Ea in Hy1. pose proof (N7 N3 _ _ _ Hc Hy1) as ->. simpl in Hqs. rewrite lookup_fmap in Hqs'. rewrite Hqs' in Hqs. injection Hqs as ->.
    pose proof (Forall2_length _ _ _ Hpar). pose proof (Forall2_length _ _ _ Hm). lia. }
  assert (Hfun : ∀ g c vs args, v_kind d = KCall c vs → Fn !! c = Some g → is_args G L (datas (vals fd)) vs args →
    ∀ k, arity_in ts g k → k ≤ length args).
  { intros g c vs args Ec Hc Ha k Hk. apply args_short in Ha. rewrite Ec in Hty. cbn [TypingSpec.is_param] in Hty.
    inversion Hty as [| | | | | | | | | | | | |c0 vs0 qs r0 H1 H2 E1 E2| |]. subst c0 vs0. simpl in H1.
    destruct (callee_ok _ _ _ _ Hc H1) as [Hin _]. rewrite (arity_unique _ _ _ _ _ Hnd Hin Hk). pose proof (Forall2_length _ _ _ H2). lia. }
  destruct st as [m e0|x0 y0|g args|c x0 ta y0 fa|x0 args|[a0|]|]; try done.
  - destruct Hs as (_ & _ & Hs). destruct e0 as [| | | | |g args]; try done. destruct Hs as (c & vs & Ec & Hc & Ha). exact (Hfun g c vs args Ec Hc Ha).
  - destruct Hs as (c & vs & Ec & Hc & Ha). exact (Hfun g c vs args Ec Hc Ha).
  - destruct Hs as (u & b1 & b2 & vs1 & vs2 & Ec & _ & H1 & Ha1 & H2 & Ha2). rewrite Ec in *. cbn [TypingSpec.is_param] in Hty.
    inversion Hty as [| | | | | | | | | | |? ? ? ? ? K1 K2 K3 K4 E1 E2| | | |]. split; [exact (Hblk b1 _ _ _ H1 K2 Ha1)|exact (Hblk b2 _ _ _ H2 K3 Ha2)].
  - destruct Hs as (b1 & vs & Ec & H1 & Ha). rewrite Ec in *. cbn [TypingSpec.is_param] in Hty.
    inversion Hty as [| | | | | | | | | | | |? ? K1 E1 E2| | |]. exact (Hblk b1 _ _ _ H1 K1 Ha).
Qed.
Lemma top_ok : top_of pre t.
Proof.
  split.
  - apply list.Forall_forall. intros x Hx. split.
    + pose proof (list.Forall_forall ok_top ts) as [Hok' _]. specialize (Hok' Hok _ self_in). apply wf_well_named. clear -Hx Hok'.
      destruct t; try (by apply elem_of_nil in Hx); apply elem_of_list_singleton in Hx as ->; naive_solver.
    + intros Hc. rewrite map_app, concat_app in Hnd. apply list.NoDup_app in Hnd as (_ & Hd & _). apply (Hd _ Hc). simpl. by rewrite app_nil_r.
  - pose proof glob_last as H1. pose proof decl_last as H2. pose proof fun_last as H3.
    pose proof (list.Forall_forall no_err_top ts) as [Herr' _]. specialize (Herr' Herr _ self_in).
    revert H1 H2 H3 Herr' Hend. clear. destruct t as [n a i|n ps r bbs|n ps r| |]; intros H1 H2 H3 Herr Hend; [by eapply H1|by eapply H3|by eapply H2|done|done].
Qed.
End last.

(** ** Texts *)
Lemma globals_prefix l1 l2 : (foldr (λ t n, globals_in t + n) 0 l1 ≤ foldr (λ t n, globals_in t + n) 0 (l1 ++ l2))%N.
Proof. induction l1 as [|t l1 IH]; simpl; lia. Qed.
Lemma built_well ts b : builds (bstate0 ids0 0 0) ts b → (foldr (λ t n, globals_in t + n) 0 ts < local_value_id_starts_from)%N →
  Forall ok_top ts → Forall top_shape ts → Forall no_err_top ts → TEnd ∉ ts → tame ts → well_formed ts.
Proof.
  intros Hb Hg Hok Hsh Herr Hend Htm pre t post E.
  assert (E' : ts = (pre ++ [t]) ++ post) by (by rewrite E, <- app_assoc). clear E.
  rewrite E' in Hb, Hok, Hsh, Herr, Hg. apply builds_app in Hb as (b1 & Hb & _).
  apply list.Forall_app in Hok as [Hok _]. apply list.Forall_app in Hsh as [Hsh _]. apply list.Forall_app in Herr as [Herr _].
  pose proof (globals_prefix (pre ++ [t]) post). assert (Hg' : (foldr (λ t n, globals_in t + n) 0 (pre ++ [t]) < local_value_id_starts_from)%N) by lia.
  destruct (built_faithful _ _ Hb Herr Hg') as (G & Fn & F1 & F2 & F3 & F4 & F5 & F6).
  destruct (builds_consistent _ _ Hb Hg') as (_ & _ & HT). destruct (built_apart _ _ Hb Herr Hg') as [A1 A2].
  destruct (builds_once _ _ _ _ _ Hb) as [Hnd Honce].
  eapply (top_ok pre t (w_prog (b_world b1)) G Fn); try eassumption.
  - by eapply built_sized.
  - intros f fd. by apply (built_scoped (pre ++ [t])).
  - intros f fd. by apply (built_returns (pre ++ [t])).
  - intros f fd v Hf H1 H2. apply A1 in H1. pose proof (A2 _ _ _ Hf H2). lia.
  - intros f fd Hf. apply builds_ex in Hb as (_ & _ & Hex); [by eapply g_lay, Hex|].
    split_and!; [done..|]. simpl. intros f' fd'. by rewrite lookup_empty.
  - intros ->. apply Hend. rewrite E'. apply elem_of_app. left. apply elem_of_app. right. by left.
  - intros n ps r bbs ->. eapply Honce. done.
  - intros l1 t' l2 E. apply (Htm l1 t' (l2 ++ post)). rewrite E', E. by rewrite <- app_assoc.
Qed.
Lemma built_enough ts b pre n ps r bbs post first a st :
  builds (bstate0 ids0 0 0) ts b → (foldr (λ t n, globals_in t + n) 0 ts < local_value_id_starts_from)%N → Forall no_err_top ts →
  ts = pre ++ TFunDef n ps r bbs :: post → head bbs = Some first → a ∈ bbs → FlowSpec.reachable bbs first a → st ∈ b_stmts a →
  no_shortage (pre ++ [TFunDef n ps r bbs]) bbs st.
Proof.
  intros Hb Hg Herr E. set (t := TFunDef n ps r bbs) in *.
  assert (E' : ts = (pre ++ [t]) ++ post) by (by rewrite E, <- app_assoc). clear E.
  rewrite E' in Hb, Herr, Hg. apply builds_app in Hb as (b1 & Hb & _). apply list.Forall_app in Herr as [Herr _].
  pose proof (globals_prefix (pre ++ [t]) post). assert (Hg' : (foldr (λ t n, globals_in t + n) 0 (pre ++ [t]) < local_value_id_starts_from)%N) by lia.
  destruct (built_faithful _ _ Hb Herr Hg') as (G & Fn & F1 & F2 & F3 & F4 & F5 & F6).
  destruct (builds_consistent _ _ Hb Hg') as (_ & _ & HT). destruct (builds_once _ _ _ _ _ Hb) as [Hnd Honce].
  eapply (enough_last pre t (w_prog (b_world b1)) G Fn); try eassumption; [by eapply built_sized| |reflexivity].
  intros n' ps' r' bbs' E. eapply Honce. by rewrite E.
Qed.
Lemma parses_no_end s ts s' : parses s ts s' → TEnd ∉ ts.
Proof. induction 1; [by intros ?%elem_of_nil|]. intros [<-|?]%elem_of_cons; done. Qed.
Lemma parses_end_det s ts s1 : parses s ts s1 → ∀ ts' s1', parses s ts' s1' → s1' = s1.
Proof.
  intros H. induction H as [s s1 H|s t s1 ts s2 H Hne Hp IH]; intros ts' s1' H';
    inversion H' as [? ? G|? ? ? ? ? G Gne Gp]; subst; [congruence|congruence|congruence|].
  rewrite H in G. injection G as -> ->. by eapply IH.
Qed.
Lemma read_well_formed r p n b s ts s' : (∀ c, RByte c ∈ r → is_ascii c) →
  read_program r = (Rok p, n, b) → driver_new r = (Rok s, 0%N) → parses s ts s' → small ts → tame ts → perrs s' = 0%N ∧ well_formed ts.
Proof.
  intros Ha Hr Hd Hp Hs Ht. pose proof (small_globals _ Hs) as Hg. pose proof Hr as Hr'. unfold read_program in Hr'. rewrite Hd in Hr'.
  destruct (DriverProofs.generate_ok _ _ _ _ _ _ _ _ _ Hd Hr') as (_ & _ & s1 & ts' & s2 & E & Hp' & He & Hsh & Herr & Hb & _ & _).
  injection E as <-. assert (ts' = ts ∧ s2 = s') as [-> ->].
  { split; [by eapply parses_det|by eapply parses_end_det]. }
  split; [done|]. eapply built_well; try eassumption; [|by eapply parses_no_end].
  unfold driver_new in Hd. destruct (parser_new (lex_new r 0)) as [[] l] eqn:En; try done. injection Hd as -> _.
  apply new_good in En; [|done]. exact (proj1 (parses_good _ _ _ Hp En)).
Qed.

(** ** Well-formed texts have no unchecked mistakes *)
Lemma init_of_fits i : ∀ a t, type_of a t → init_of i t → init_fits a i.
Proof.
  induction i as [z| | |l IH] using ainit_ind'; intros a t Ha Hi; try done.
  inversion Hi as [| | |? t' _ _ Hl]; subst. inversion Ha as [|b ? ? _ Hb| | |]; subst. simpl. clear Hi Ha.
  induction Hl as [|x l Hx _ IHl]; [done|]. apply list.Forall_cons in IH as [IHx IH]. split; [by eapply IHx|by apply IHl].
Qed.
Lemma well_formed_prefix l1 l2 : well_formed (l1 ++ l2) → well_formed l1.
Proof. intros H pre t post ->. apply (H pre t (post ++ l2)). by rewrite <- app_assoc. Qed.
Lemma well_formed_names ts : well_formed ts → NoDup (concat (map top_names ts)).
Proof.
  induction ts as [|t ts IH] using rev_ind; intros H; [constructor|]. rewrite map_app, concat_app. simpl. rewrite app_nil_r.
  apply list.NoDup_app. split; [apply IH; by eapply well_formed_prefix|]. destruct (H ts t [] eq_refl) as [Hn _]. split.
  - intros x H1 H2. eapply list.Forall_forall in Hn; [|exact H2]. by destruct Hn.
  - unfold top_names. destruct t; simpl; repeat constructor; by intros ?%elem_of_nil.
Qed.
Lemma well_formed_tame ts : well_formed ts → tame ts.
Proof.
  intros H pre t post E. pose proof (H pre t post E) as [_ Ht].
  assert (Hwf : well_formed (pre ++ [t])) by (apply (well_formed_prefix _ post); rewrite <- app_assoc; simpl; by rewrite <- E).
  pose proof (well_formed_names _ Hwf) as Hnd.
  destruct t as [n a i|n ps r bbs|n ps r| |]; try done.
  { destruct Ht as (t0 & H1 & H2). by eapply init_of_fits. }
  destruct Ht as (t0 & l & Ty & _ & [O1 O2 O3 O4 O5 O6 O7 O8 O9]). split.
  - intros x Hx Hin. apply in_concat_map in Hin as (g & Hg & Hin). destruct g as [m a i| | | |]; try (by apply elem_of_nil in Hin).
    apply elem_of_list_singleton in Hin as ->. apply elem_of_list_split in Hg as Hg'. destruct Hg' as (l1 & l2 & E2).
    assert (Hv : top_of l1 (TGlobal m a i)) by (apply (H l1 _ (l2 ++ TFunDef n ps r bbs :: post)); rewrite E, E2; by rewrite <- app_assoc).
    destruct Hv as [_ (t1 & H1 & _)]. apply (O7 m (TPtr t1)); [apply elem_of_app; by left|]. by exists a, i, t1.
  - intros first b Hf Hb Hr. assert (Hbl : b ∈ l).
    { destruct O2 as (e & He & Hin & _). rewrite Hf in He. injection He as <-. by apply Hin. }
    assert (Hsub : ∀ b, b ∈ l → b ∈ bbs) by (destruct O2 as (e & He & Hin & _); intros b' Hb'; by apply Hin).
    split.
    + intros x Hx Hp. unfold fun_names in O6. apply list.NoDup_app in O6 as (_ & Hd & _). apply (Hd x Hp). apply elem_of_app. left.
      apply in_concat_map. by exists b.
    + apply list.Forall_forall. intros st Hst. apply elem_of_list_split in Hbl as (front & rest & El). apply elem_of_list_split in Hst as (sts & after & Es).
      pose proof (O9 _ _ _ _ _ _ El Es) as Hw.
      assert (Hblk : ∀ x (args : list aval) tys (P : aval → ty → Prop), blk_in l x tys → Forall2 P args tys → ∀ c, c ∈ bbs → b_name c = x → length args ≤ length (b_params c)).
      { intros x args tys P (c & Hc & Hcx & Hty) Hargs c' Hc' Hcx'.
        assert (c = c') as <- by (apply (block_unique bbs); [done|by apply Hsub|done|congruence]).
        rewrite (Forall2_length _ _ _ Hargs), <- (Forall2_length _ _ _ Hty), map_length. done. }
      destruct st as [m e|x y|g args|c x ta y fa|x args|[a|]|]; try done.
      * destruct e as [| | | | |g args]; try done. destruct Hw as (_ & tys & Hg & Hargs). intros k Hk.
        rewrite (arity_unique _ _ _ _ _ Hnd Hg Hk). by rewrite (Forall2_length _ _ _ Hargs).
      * destruct Hw as (tys & tr & Hg & Hargs). intros k Hk. rewrite (arity_unique _ _ _ _ _ Hnd Hg Hk). by rewrite (Forall2_length _ _ _ Hargs).
      * destruct Hw as (_ & (ts1 & H1 & H2) & (ts2 & H3 & H4) & _). split; [by eapply Hblk|by eapply Hblk].
      * destruct Hw as (ts1 & H1 & H2). cbn. by eapply Hblk.
Qed.
