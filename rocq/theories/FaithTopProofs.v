(** The front end builds what the text says (C48): globals and programs. *)
From Coq Require Import Lia ZifyBool ZifyNat ZifyN.
From Verif Require Import Base IdModel TypeModel IrModel LayoutModel BuilderModel WorldModel
  LexerModel ParserModel ParserSpec FrontModel FrontProofs FlowSpec FlowProofs BlockListProofs
  CleanProofs BuildCleanProofs FunCleanProofs FlowBuildProofs DriverModel DriverSpec DriverProofs UsesSpec UsesProofs
  DfgSpec DfgProofs WorldSpec WorldProofs TypingSpec TypingProofs TypingHistory EqHistory SkelProofs ParamProofs HistoryProofs
  FaithSpec RoundProofs ViewProofs FaithProofs FaithFunProofs.

(** ** Global variables *)
(** Only constants are added to the program. *)
Record gadd (s s' : bstate) : Prop := {
  ga_wo : wo s s';
  ga_vals : gvs (b_world s) ⊆ gvs (b_world s');
  ga_funs : fvs (b_world s') = fvs (b_world s);
  ga_flay : p_func_layout (w_prog (b_world s')) = p_func_layout (w_prog (b_world s));
  ga_ilay : p_inst_layout (w_prog (b_world s')) = p_inst_layout (w_prog (b_world s));
}.
Lemma ga_refl s : gadd s s.
Proof. constructor; try done. apply wo_refl. Qed.
Lemma ga_trans a b c : gadd a b → gadd b c → gadd a c.
Proof. intros [] []. constructor; [by eapply wo_trans|by etrans|congruence..]. Qed.
Lemma build_fits w r d : build (global_querier (w_prog w)) r = Some d → cst_req r → fits (sks (gvs w)) r (v_ty d).
Proof.
  destruct r as [z|t|t|l| | | | | | | | | | | | |]; simpl; intros H Hr; try done.
  - unfold mk_integer in H. by injection H as <-.
  - unfold mk_zero_init in H. apply bind_Some in H as (u & _ & H). by injection H as <-.
  - unfold mk_undef in H. apply bind_Some in H as (u & _ & H). by injection H as <-.
  - unfold mk_aggregate in H. destruct l as [|e l]; [done|]. split; [done|].
    apply bind_Some in H as (u1 & _ & H). apply bind_Some in H as (u2 & _ & H). apply bind_Some in H as (u3 & _ & H).
    apply bind_Some in H as (u4 & Hw & H). apply bind_Some in H as (u5 & Hu5 & H). apply bind_Some in H as (e0 & E0 & H).
    injection E0 as <-. apply bind_Some in H as (base & Hbase & H). apply bind_Some in H as (u6 & _ & H).
    apply bind_Some in H as (t & Ht & H). injection H as <-. destruct u4; [|done].
    pose proof (proj1 (windows_eq_true _ _ _ _ Hbase) Hw) as Hall.
    unfold get_array in Ht. destruct (_ =? 0)%N; [done|]. injection Ht as <-. exists base. split; [|done].
    intros x b k Hx Hb. assert (q_type (global_querier (w_prog w)) x = Some base) as Hq.
    { apply elem_of_cons in Hx as [-> |Hx]; [done|by apply Hall]. }
    rewrite !lookup_fmap in Hb. simpl in Hq. destruct (p_values (w_prog w) !! x) as [d|]; [|done]. simpl in *. congruence.
Qed.
Lemma faith_global_init t i k s v s' : room (init_nodes i + k) (b_world s) → clean (gen_global_init t i) s v s' →
  room k (b_world s') ∧ gadd s s' ∧ const_is (sks (gvs (b_world s'))) v i ∧
  ∀ a, denotes a t → ∃ a' t' j, sks (gvs (b_world s')) !! v = Some (t', j) ∧ denotes a' t' ∧ init_fits a' i ∧ (init_fits a i → t' = t).
Proof.
  intros R H. unfold gen_global_init in H.
  apply (gen_init_const new_global (λ s, sks (gvs (b_world s))) (λ k s, room k (b_world s)) gadd true) with (k := k) in H.
  - destruct H as (A1 & A2 & A3 & A4 & A5). split_and!; try done. by apply A5.
  - intros. apply ga_refl.
  - apply ga_trans.
  - intros k' r s0 v0 s1 Hr R0 H0. apply clean_prog in H0 as (w & H0 & ->).
    assert (global_req r = true) as Hg by (by destruct r).
    apply (view_new_global k') in H0 as (d & Hd & Hn & Hi & V1 & V2 & V3 & V4 & V5); [|done|done].
    assert (E : is_global_alloc (requested r) = false) by (by destruct r). rewrite E, app_nil_r in V4.
    assert (Hsub : gvs (b_world s0) ⊆ gvs (b_world (set_world w s0))).
    { simpl. rewrite V1. by apply insert_subseteq. }
    split_and!; [done| |by apply sks_mono|].
    + constructor; try done. by exists w.
    + exists (v_ty d). simpl. rewrite V1. split; [by rewrite lookup_fmap, lookup_insert|]. intros _. by apply build_fits.
  - done.
Qed.
Definition wglobal (G : gmap N string) (m : gmap N (option string * (ty * vkind))) (v : value) (t : atop) : Prop :=
  match t with
  | TGlobal n t i => G !! v = Some n ∧ ∃ tv init o te ke,
      m !! v = Some (opt_name n, (tv, KGlobalAlloc init)) ∧ m !! init = Some (o, (te, ke)) ∧
      const_is (sks m) init i ∧ (init_fits t i → denotes t te) ∧ ∃ a, denotes a te ∧ init_fits a i
  | _ => False
  end.
Lemma up_wglobal G G' m m' v t : G ⊆ G' → m ⊆ m' → wglobal G m v t → wglobal G' m' v t.
Proof.
  intros HG Hm. destruct t as [n a z| | | |]; try done. intros (H1 & tv & i & o & te & ke & H2 & H3 & H4 & H5).
  split; [by eapply lookup_weaken|]. exists tv, i, o, te, ke. split; [by eapply lookup_weaken|].
  split; [by eapply lookup_weaken|]. split; [|exact H5]. eapply const_mono; [|done]. by apply sks_mono.
Qed.
Lemma wglobal_is G m v t : wglobal G (vim m) v t → global_is G m v t.
Proof.
  destruct t as [n a z| | | |]; try done. intros (H1 & tv & i & o & te & ke & H2 & H3 & H4 & H5 & H6). rewrite lookup_fmap in H2, H3.
  apply fmap_Some in H2 as (d & Hd & E). apply fmap_Some in H3 as (e & He & E').
  injection E as E1 E2 E3. injection E' as E4 E5 E6. split; [done|]. exists d, i, e. split_and!; try done.
  - rewrite <- E1. apply kept_opt_name.
  - by rewrite datas_vim.
  - intros Hf. rewrite <- E5. by apply H5.
  - by rewrite <- E5.
Qed.
Lemma new_global_fresh k s v w r : w_new_global r (b_world s) = Some (v, w) → global_req r = true → room (1 + k) (b_world s) →
  room k w.
Proof. intros H Hr R. apply (view_new_global k) in H as (?&_&_&_&_&_&_&_&?); done. Qed.
Lemma room_name_global k v n w w' : w_name_global v n w = Some w' → room k w → room k w'.
Proof.
  intros H R. apply (room_ev k (b_prog_ (w_name_global v n)) (set_world w (bstate0 ids0 0 0))) in R; [|apply _].
  unfold b_prog_ in R. simpl in R. by rewrite H in R.
Qed.
Lemma faith_global G n t i k s u s' : room (globals_in (TGlobal n t i) + k) (b_world s) →
  clean (build_global n t i) s u s' →
  (∀ v m, G !! v = Some m → is_Some (gvs (b_world s) !! v)) →
  ∃ v, G !! v = None ∧ gvs (b_world s) ⊆ gvs (b_world s') ∧ fvs (b_world s') = fvs (b_world s) ∧
    p_func_layout (w_prog (b_world s')) = p_func_layout (w_prog (b_world s)) ∧
    p_inst_layout (w_prog (b_world s')) = p_inst_layout (w_prog (b_world s)) ++ [v] ∧
    b_gvars s' = <[n := v]> (b_gvars s) ∧ b_gfuncs s' = b_gfuncs s ∧ b_gvars s !! n = None ∧
    is_global_id v = true ∧ room k (b_world s') ∧
    wglobal (<[v := n]> G) (gvs (b_world s')) v (TGlobal n t i).
Proof.
  intros R H HG. cbn [globals_in] in R. replace (init_nodes i + 1 + k)%N with (init_nodes i + (1 + k))%N in R by lia.
  apply clean_global in H as (t' & s0 & init & v & w1 & w2 & H1 & H2 & _ & H3 & H4 & H5 & H6 & ->).
  apply gen_type_denotes in H1. apply (faith_global_init _ _ (1 + k)) in H2 as (R0 & A & Hc & Ht); [|done].
  apply (view_new_global k) in H3 as (d & Hd & Hn & Hi & V1 & V2 & V3 & V4 & V5); [|done|done].
  simpl in V4. destruct A as [[w0 ->] A2 A3 A4 A5]. simpl in *.
  assert (Hsub0 : gvs w0 ⊆ gvs w1) by (rewrite V1; by apply insert_subseteq).
  assert (gvs w2 = <[v := (opt_name n, (v_ty d, KGlobalAlloc init))]> (gvs w0) ∧ fvs w2 = fvs w1 ∧
    p_func_layout (w_prog w2) = p_func_layout (w_prog w1) ∧ p_inst_layout (w_prog w2) = p_inst_layout (w_prog w1) ∧ room k w2)
    as (W1 & W2 & W3 & W4 & W5).
  { rewrite opt_name_if. destruct (is_temp n); [by subst w2|]. pose proof (room_name_global _ _ _ _ _ H4 V5).
    apply view_name_global in H4 as (y & Hy & B1 & B2 & B3 & B4). rewrite V1 in Hy, B1.
    rewrite lookup_insert in Hy. injection Hy as <-. rewrite insert_insert in B1. done. }
  assert (Hsub : gvs w0 ⊆ gvs w2) by (rewrite W1; by apply insert_subseteq).
  exists v. split_and!; try done; try congruence.
  - destruct (G !! v) as [m|] eqn:E; [|done]. apply HG in E as [y Hy].
    apply (lookup_weaken _ _ _ _ Hy) in A2. congruence.
  - by etrans.
  - by rewrite lookup_insert.
  - assert (∃ y, gvs w0 !! init = Some y) as [[o [te ke]] Hy].
    { assert (is_Some (sks (gvs w0) !! init)) as [y Hy] by (inversion Hc; eauto).
      rewrite lookup_fmap in Hy. apply fmap_Some in Hy as (z & Hz & _). eauto. }
    exists (v_ty d), init, o, te, ke. split_and!.
    + by rewrite W1, lookup_insert.
    + by eapply lookup_weaken.
    + eapply const_mono; [|exact Hc]. by apply sks_mono.
    + intros Hf. destruct (Ht _ H1) as (a' & t1 & j & Hj & Hd1 & _ & Hs). rewrite lookup_fmap, Hy in Hj. injection Hj as -> _.
      by rewrite (Hs Hf).
    + destruct (Ht _ H1) as (a' & t1 & j & Hj & Hd1 & Hfi & _). rewrite lookup_fmap, Hy in Hj. injection Hj as -> _. by exists a'.
Qed.

(** ** Programs *)
Definition wtop (G Fn : gmap N string) (x : fview) (t : atop) : Prop :=
  match t with
  | TFunDef n ps r bbs => wfun G Fn x n ps r bbs
  | TFunDecl n ps r => w_fname x = n ∧ w_bbs x = ∅ ∧ w_vals x = ∅ ∧ ∃ ts t, w_fty x = TFun ts t ∧ Forall2 denotes ps ts ∧ denotes_ret r t
  | _ => False
  end.
Record top (G Fn : gmap N string) (ts : list atop) (s : bstate) : Prop := {
  to_gvars : ∀ n v, b_gvars s !! n = Some v ↔ G !! v = Some n;
  to_gid : ∀ v n, G !! v = Some n → is_global_id v = true ∧ v ∈ p_inst_layout (w_prog (b_world s)) ∧ is_Some (gvs (b_world s) !! v);
  to_gfuncs : ∀ n c, b_gfuncs s !! n = Some c ↔ Fn !! c = Some n;
  to_fid : ∀ c n, Fn !! c = Some n → c ∈ p_func_layout (w_prog (b_world s)) ∧ is_Some (fvs (b_world s) !! c);
  to_globals : Forall2 (wglobal G (gvs (b_world s))) (p_inst_layout (w_prog (b_world s))) (filter is_global_def ts);
  to_funs : Forall2 (λ f t, ∃ x, fvs (b_world s) !! f = Some x ∧ Fn !! f = Some (w_fname x) ∧ wtop G Fn x t)
    (p_func_layout (w_prog (b_world s))) (filter is_fun_top ts);
}.
Lemma up_wtop G G' Fn Fn' x t : G ⊆ G' → Fn ⊆ Fn' → wtop G Fn x t → wtop G' Fn' x t.
Proof. destruct t; try done. simpl. apply up_wfun. Qed.
(** A new function *)
Lemma top_fun G Fn ts s s' f x n t : top G Fn ts s →
  fvs (b_world s) !! f = None → fvs (b_world s') = <[f := x]> (fvs (b_world s)) → gvs (b_world s') = gvs (b_world s) →
  p_inst_layout (w_prog (b_world s')) = p_inst_layout (w_prog (b_world s)) →
  p_func_layout (w_prog (b_world s')) = p_func_layout (w_prog (b_world s)) ++ [f] →
  b_gvars s' = b_gvars s → b_gfuncs s' = <[n := f]> (b_gfuncs s) → b_gfuncs s !! n = None →
  is_fun_top t = true → is_global_def t = false → w_fname x = n → wtop G (<[f := n]> Fn) x t →
  top G (<[f := n]> Fn) (ts ++ [t]) s'.
Proof.
  intros [A1 A2 A3 A4 A5 A6] Hf E1 E2 E3 E4 E5 E6 Hn T1 T2 Hx Hw.
  assert (HFf : Fn !! f = None).
  { destruct (Fn !! f) eqn:E; [|done]. apply A4 in E as [_ E]. rewrite Hf in E. by apply is_Some_None in E. }
  assert (HF : Fn ⊆ <[f := n]> Fn) by (by apply insert_subseteq).
  constructor.
  - by rewrite E5.
  - by rewrite E2, E3.
  - intros m c. rewrite E6. split.
    + intros [[<- <-]|[Hne Hc]]%lookup_insert_Some; [by rewrite lookup_insert|]. apply A3 in Hc. by eapply lookup_weaken.
    + intros [[<- <-]|[Hne Hc]]%lookup_insert_Some; [by rewrite lookup_insert|]. apply A3 in Hc.
      rewrite lookup_insert_ne; [done|]. intros <-. congruence.
  - intros c m. rewrite E4, E1. intros [[<- <-]|[Hne Hc]]%lookup_insert_Some.
    + rewrite lookup_insert. split; [|eauto]. apply elem_of_app. right. by apply elem_of_list_singleton.
    + rewrite lookup_insert_ne by done. apply A4 in Hc as [? ?]. split; [|done]. apply elem_of_app. by left.
  - rewrite E2, E3, list.filter_app. simpl. rewrite filter_cons_False by (rewrite T2; naive_solver). by rewrite app_nil_r.
  - rewrite E4, E1, list.filter_app. apply Forall2_app.
    + eapply Forall2_impl; [exact A6|]. intros g t' (y & Hy & Hg & Hw'). exists y. split_and!.
      * rewrite lookup_insert_ne; [done|]. intros <-. congruence.
      * by eapply lookup_weaken.
      * by eapply up_wtop.
    + rewrite filter_cons_True by (rewrite T1; naive_solver). constructor; [|constructor]. exists x. rewrite !lookup_insert, Hx. done.
Qed.
Lemma top_step G Fn ts t k s s' : top G Fn ts s → room (globals_in t + k) (b_world s) → no_err_top t →
  clean (build_on t) s tt s' → ∃ G' Fn', G ⊆ G' ∧ Fn ⊆ Fn' ∧ top G' Fn' (ts ++ [t]) s' ∧ room k (b_world s').
Proof.
  intros T R Herr H. pose proof T as [A1 A2 A3 A4 A5 A6]. destruct t as [n t i|n ps r bbs|n ps r| |]; cbn [build_on] in H.
  - apply (faith_global G _ _ _ k) in H as (v & Hv & B1 & B2 & B3 & B4 & B5 & B6 & B7 & B8 & B9 & B10); [|done|].
    2: { intros v m Hm. by apply A2 in Hm as (_ & _ & ?). }
    assert (HG : G ⊆ <[v := n]> G) by (by apply insert_subseteq).
    exists (<[v := n]> G), Fn. split_and!; try done. constructor.
    + intros m c. rewrite B5. split.
      * intros [[<- <-]|[Hne Hc]]%lookup_insert_Some; [by rewrite lookup_insert|]. apply A1 in Hc. by eapply lookup_weaken.
      * intros [[<- <-]|[Hne Hc]]%lookup_insert_Some; [by rewrite lookup_insert|]. apply A1 in Hc.
        rewrite lookup_insert_ne; [done|]. intros <-. congruence.
    + intros c m. rewrite B4. intros [[<- <-]|[Hne Hc]]%lookup_insert_Some.
      * split; [done|]. split; [apply elem_of_app; right; by apply elem_of_list_singleton|].
        destruct B10 as (_ & ? & ? & ? & ? & ? & ? & _). eauto.
      * apply A2 in Hc as (? & ? & [y Hy]). split; [done|]. split; [apply elem_of_app; by left|]. exists y. by eapply lookup_weaken.
    + by rewrite B6.
    + by rewrite B3, B2.
    + rewrite B4, list.filter_app. apply Forall2_app.
      * eapply Forall2_impl; [exact A5|]. intros. by eapply up_wglobal.
      * rewrite filter_cons_True by done. constructor; [exact B10|constructor].
    + rewrite B3, B2, list.filter_app. rewrite filter_cons_False by naive_solver. rewrite filter_nil, app_nil_r.
      eapply Forall2_impl; [exact A6|]. intros g t' (y & Hy & Hg & Hw'). exists y. split_and!; try done. by eapply up_wtop.
  - simpl in R. pose proof (room_clean k _ _ _ _ _ H R) as R'.
    apply (faith_fun_def G Fn) in H as (f & x & B1 & B2 & B3 & B4 & B5 & B6 & B7 & B8 & B9).
    + exists G, (<[f := n]> Fn). split_and!; [done| | |done].
      * apply insert_subseteq. destruct (Fn !! f) eqn:E; [|done]. apply A4 in E as [_ E]. rewrite B1 in E. by apply is_Some_None in E.
      * eapply top_fun; try done. by apply B9.
    + eapply room_mono; [|done]. lia.
    + intros m v Hv. apply A1 in Hv. split; [done|]. by apply A2 in Hv as [? _].
    + apply A3.
    + intros c m Hc. by apply A4 in Hc as [_ ?].
    + intros b Hb He. simpl in Herr. rewrite list.Forall_forall in Herr. apply Herr in Hb. unfold no_err_block in Hb.
      rewrite list.Forall_forall in Hb. by apply Hb in He.
  - simpl in R. pose proof (room_clean k _ _ _ _ _ H R) as R'.
    apply clean_fun_decl in H as (ret & ps' & f & w1 & H1 & H2 & H3 & H4 & H5 & ->).
    apply gen_ret_denotes in H1. apply gen_types_denote in H2.
    apply (view_new_decl k) in H3 as (V1 & V2 & V3 & V4 & V5); [|done].
    exists G, (<[f := n]> Fn). split_and!; [done| | |done].
    + apply insert_subseteq. destruct (Fn !! f) eqn:E; [|done]. apply A4 in E as [_ E]. rewrite V1 in E. by apply is_Some_None in E.
    + eapply top_fun; try done. split_and!; [done..|]. by exists ps', ret.
  - apply clean_mok in H as [_ ->]. exists G, Fn. split_and!; try done. constructor; try done;
      rewrite list.filter_app, filter_cons_False by naive_solver; by rewrite filter_nil, app_nil_r.
  - done.
Qed.
Lemma builds_top ts : ∀ G Fn ts0 s b, top G Fn ts0 s → room (foldr (λ t n, globals_in t + n) 0 ts)%N (b_world s) →
  Forall no_err_top ts → builds s ts b → ∃ G' Fn', top G' Fn' (ts0 ++ ts) b.
Proof.
  induction ts as [|t ts IH]; intros G Fn ts0 s b T R Herr H; inversion H as [|? ? s1 ? ? H1 H2 H3]; subst.
  { exists G, Fn. by rewrite app_nil_r. }
  apply list.Forall_cons in Herr as [E1 E2]. simpl in R.
  destruct (top_step _ _ _ _ _ _ _ T R E1 (conj H1 H2)) as (G' & Fn' & _ & _ & T' & R').
  apply (IH _ _ _ _ _ T' R' E2) in H3 as (G2 & F2 & T2). exists G2, F2. by rewrite <- app_assoc in T2.
Qed.
Lemma top_faithful G Fn ts b : top G Fn ts b → faithful (w_prog (b_world b)) ts.
Proof.
  intros [A1 A2 A3 A4 A5 A6]. exists G, Fn. split_and!.
  - eapply Forall2_impl; [exact A5|]. intros. by apply wglobal_is.
  - eapply Forall2_impl; [exact A6|]. intros f t (x & Hx & Hf & Hw). rewrite lookup_fmap in Hx. apply fmap_Some in Hx as (fd & Hfd & ->).
    exists fd. split_and!; [done|done|]. destruct t; try done.
    + by apply wfun_fun_is.
    + destruct Hw as (? & Hb & Hv & ?). simpl in Hb, Hv. apply fmap_empty_inv in Hb, Hv. done.
  - intros v n Hv. by apply A2 in Hv as (? & ? & _).
  - intros f n Hf. by apply A4 in Hf as [? _].
  - intros v w n Hv Hw. apply A1 in Hv, Hw. congruence.
  - intros v w n Hv Hw. apply A3 in Hv, Hw. congruence.
Qed.
Lemma built_faithful ts b : builds (bstate0 ids0 0 0) ts b → Forall no_err_top ts →
  (foldr (λ t n, globals_in t + n) 0 ts < local_value_id_starts_from)%N → faithful (w_prog (b_world b)) ts.
Proof.
  intros Hb Herr Hg. destruct (builds_top ts ∅ ∅ [] (bstate0 ids0 0 0) b) as (G & Fn & T); try done.
  - constructor; simpl; try done; constructor.
  - by apply room0.
  - by eapply top_faithful.
Qed.
Lemma read_faithful r p n b s ts s' :
  read_program r = (Rok p, n, b) → driver_new r = (Rok s, 0%N) → parses s ts s' →
  (foldr (λ t n, globals_in t + n) 0 ts < local_value_id_starts_from)%N → faithful p ts.
Proof.
  intros Hr Hd Hp Hg. unfold read_program in Hr. rewrite Hd in Hr.
  destruct (generate_ok _ _ _ _ _ _ _ _ _ Hd Hr) as (_ & _ & s1 & ts' & s2 & E & Hp' & _ & _ & Herr & Hb & _ & ->).
  injection E as <-. assert (ts' = ts) as -> by (by eapply parses_det).
  by apply built_faithful.
Qed.
