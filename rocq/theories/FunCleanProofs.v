(** Runs of the builder on whole functions and programs that report no error. *)
From Coq Require Import Lia ZifyBool ZifyNat ZifyN.
From Verif Require Import Base IdModel TypeModel IrModel LayoutModel BuilderModel WorldModel
  LexerModel ParserModel ParserSpec FrontModel FrontProofs FlowSpec FlowProofs BlockListProofs
  CleanProofs BuildCleanProofs DriverSpec.

(** ** The search of the blocks changes nothing but the counters *)
Definition counts (s s' : bstate) : Prop := ∃ n, (b_errs s ≤ n)%N ∧ s' = set_errs n s.
Lemma counts_refl s : counts s s.
Proof. exists (b_errs s). split; [lia|by destruct s]. Qed.
Lemma counts_trans s s1 s2 : counts s s1 → counts s1 s2 → counts s s2.
Proof. intros (n & Hn & ->) (m & Hm & ->). exists m. split; [simpl in *; lia|by destruct s]. Qed.
Lemma counts_log s : counts s (set_errs (b_errs s + 1) s).
Proof. exists (b_errs s + 1)%N. split; [lia|done]. Qed.
Lemma block_map_state l : ∀ m s m' s', block_map l m s = (Rok m', s') → counts s s'.
Proof.
  induction l as [|b l IH]; intros m s m' s' H; simpl in H.
  { injection H as _ <-. apply counts_refl. }
  apply mthen_ok in H as (u & s1 & H1 & H). apply IH in H. eapply counts_trans; [|done].
  case_decide; injection H1 as _ <-; [apply counts_log|apply counts_refl].
Qed.
Lemma add_targets_state e m ts : ∀ s q s', add_targets e m ts s = (Rok q, s') → counts s s'.
Proof.
  induction ts as [|t ts IH]; intros s q s' H; simpl in H.
  { injection H as _ <-. apply counts_refl. }
  destruct (t =? e)%string; [|case_decide];
    apply mthen_ok in H as (u & s1 & H1 & H).
  - injection H1 as _ <-. apply IH in H. eapply counts_trans; [apply counts_log|done].
  - injection H as _ <-. by apply IH in H1.
  - injection H1 as _ <-. apply IH in H. eapply counts_trans; [apply counts_log|done].
Qed.
Lemma bfs_state fuel e m : ∀ q V s r s', bfs fuel e m q V s = (Rok r, s') → counts s s'.
Proof.
  induction fuel as [|fuel IH]; intros q V s r s' H; [done|]. cbn [bfs] in H. destruct q as [|n q].
  { injection H as _ <-. apply counts_refl. }
  case_decide; [by apply IH in H|].
  apply mthen_ok in H as (b & s1 & H1 & H). apply mthen_ok in H as (ts & s2 & H2 & H).
  apply mthen_ok in H as (q' & s3 & H3 & H). apply mthen_ok in H as ([bs V'] & s4 & H4 & H).
  injection H as _ <-. apply IH in H4. apply add_targets_state in H3.
  destruct (m !! n); [|done]. injection H1 as _ <-. destruct (targets b); [|done]. injection H2 as _ <-.
  by eapply counts_trans.
Qed.
Lemma clean_block_list bbs s l s' : clean (get_block_list bbs) s l s' →
  ∃ first rest n, bbs = first :: rest ∧ s' = set_warns n s ∧ NoDup (map b_name bbs) ∧
    head l = Some first ∧ NoDup l ∧ NoDup (map b_name l) ∧
    (∀ b, b ∈ l ↔ reachable bbs first b) ∧
    (∀ b t, b ∈ l → succ b t → t ≠ b_name first ∧ t ∈ map b_name bbs) ∧
    (∀ i j x y n, l !! i = Some x → l !! j = Some y → i ≤ j → bpath bbs n first y →
       ∃ m, bpath bbs m first x ∧ m ≤ n).
Proof.
  intros [H He]. destruct bbs as [|first rest]; [done|]. exists first, rest.
  pose proof H as H0. unfold get_block_list in H0.
  apply mthen_ok in H0 as (f0 & s0 & [= <- <-] & H0). apply mthen_ok in H0 as (m & s1 & Em & H0).
  apply mthen_ok in H0 as ([l' V] & s2 & Eb & H0). injection H0 as <- <-.
  destruct (block_map_spec _ _ _ _ _ Em) as (M1 & M2 & M3 & _).
  assert (Hnd : NoDup (map b_name (first :: rest))).
  { apply M3. apply bfs_state in Eb as (e2 & U & ->). simpl in He. lia. }
  apply get_block_list_spec in H as (A1 & A2 & A3 & A4 & A5 & A6 & A7); [|done].
  apply block_map_state in Em as (e1 & _ & ->). apply bfs_state in Eb as (e2 & _ & ->). simpl in *.
  eexists. split_and!; try done; [|by apply A6].
  subst e2. by destruct s.
Qed.

(** ** Top-level items *)
Lemma clean_fun_def n ps r bbs s u s' : clean (build_fun_def n ps r bbs) s u s' →
  ∃ ret ps' f w1 fd args l k s1,
    gen_ret r = Some ret ∧ gen_params ps = Some ps' ∧
    w_new_func_def n ps' ret (b_world s) = Some (f, w1) ∧
    p_funcs (w_prog w1) !! f = Some fd ∧
    clean (arg_map (zip (map fst ps) (f_params fd)) ∅) (set_world w1 s) args (set_world w1 s) ∧
    b_gvars s !! n = None ∧ b_gfuncs s !! n = None ∧
    let s0 := set_syms ∅ (set_gfuncs (<[n := f]> (b_gfuncs s)) (set_world w1 s)) in
    clean (get_block_list bbs) s0 l (set_warns k s0) ∧
    clean (init_local_bbs f args l) (set_warns k s0) tt s1 ∧
    clean (b_each (build_block f ret) l) s1 u s'.
Proof.
  unfold build_fun_def. intros H.
  cb H as ret sa H1. apply clean_some in H1 as [H1 ->].
  cb H as ps' sa H2. apply clean_some in H2 as [H2 ->].
  cb H as f sa H3. apply clean_prog in H3 as (w1 & H3 & ->).
  cb H as x sa H4. apply clean_mget in H4 as [-> ->].
  cb H as vs sa H5. apply clean_some in H5 as [H5 ->].
  apply fmap_Some in H5 as (fd & Hfd & ->).
  cb H as args sa H6. pose proof (clean_arg_map _ _ _ _ _ H6) as (-> & _).
  cb H as u1 sa H7. apply clean_def_func in H7 as (H7 & H8 & ->).
  cb H as u2 sa H9. apply clean_upd in H9 as ->.
  cb H as l sa H10. pose proof (clean_block_list _ _ _ _ H10) as (_ & _ & k & _ & -> & _).
  cb H as u3 sa H11. destruct u3.
  exists ret, ps', f, w1, fd, args, l, k, sa. split_and!; done.
Qed.
Lemma w_new_func_def_data n ps r w f w1 : w_new_func_def n ps r w = Some (f, w1) →
  ∃ fd, p_funcs (w_prog w1) !! f = Some fd ∧ length (f_params fd) = length ps.
Proof.
  unfold w_new_func_def, prog_new_func_def, fdata_with_param_names, prog_new_func. intros H.
  apply bind_Some in H as ([[f1 i1] p1] & H & E). injection E as <- <-.
  apply bind_Some in H as ([d i2] & H1 & H). apply bind_Some in H as ([f2 i3] & _ & H). injection H as <- <- <-.
  apply bind_Some in H1 as (? & _ & H1). apply bind_Some in H1 as ([[vs i4] g] & H1 & E). injection E as <- <-.
  apply new_func_args_length in H1. eexists. simpl. by rewrite lookup_insert.
Qed.
#[global] Instance up_b_ok {A} (m : F A) (k : A → F unit) : Up m → (∀ a, Up (k a)) → Up (b_ok m k).
Proof.
  intros Um Uk s. unfold b_ok. pose proof (Um s) as U.
  destruct (m s) as [[v|x| |] s1]; simpl in *; try done. pose proof (Uk v s1). lia.
Qed.
Lemma clean_global n t i s u s' : clean (build_global n t i) s u s' →
  ∃ t' s0 init v w1 w2, gen_type t = Some t' ∧ clean (gen_global_init t' i) s init s0 ∧ wo s s0 ∧
    w_new_global (BGlobalAlloc init) (b_world s0) = Some (v, w1) ∧
    (if is_temp n then w2 = w1 else w_name_global v (Some n) w1 = Some w2) ∧
    b_gvars s !! n = None ∧ b_gfuncs s !! n = None ∧
    s' = set_gvars (<[n := v]> (b_gvars s)) (set_world w2 s0).
Proof.
  unfold build_global. intros H. cb H as t' sa H1. apply clean_some in H1 as [H1 ->].
  apply clean_b_ok in H as (init & s0 & H2 & H).
  2: { intros. apply sane_init. intros. apply sane_prog. }
  2: { apply _. }
  pose proof (framed_global_init _ _ _ _ _ H2) as Hw.
  cb H as v sb H3. apply clean_prog in H3 as (w1 & H3 & ->).
  cb H as u1 sb H4. assert (∃ w2, (if is_temp n then w2 = w1 else w_name_global v (Some n) w1 = Some w2)
     ∧ sb = set_world w2 s0) as (w2 & H5 & ->).
  { destruct (is_temp n).
    - apply clean_mok in H4 as [_ ->]. by exists w1.
    - apply clean_prog_ in H4 as (w2 & H4 & ->). exists w2. split; [done|by destruct s0]. }
  apply clean_def_gvar in H as (H6 & H7 & ->). destruct Hw as [w0 ->].
  exists t', (set_world w0 s), init, v, w1, w2. split_and!; try done. by exists w0.
Qed.
Lemma clean_fun_decl n ps r s u s' : clean (build_fun_decl n ps r) s u s' →
  ∃ ret ps' f w1, gen_ret r = Some ret ∧ gen_types ps = Some ps' ∧
    w_new_func_decl n ps' ret (b_world s) = Some (f, w1) ∧
    b_gvars s !! n = None ∧ b_gfuncs s !! n = None ∧
    s' = set_gfuncs (<[n := f]> (b_gfuncs s)) (set_world w1 s).
Proof.
  unfold build_fun_decl. intros H.
  cb H as ps' sa H1. apply clean_some in H1 as [H1 ->].
  cb H as ret sa H2. apply clean_some in H2 as [H2 ->].
  cb H as f sa H3. apply clean_prog in H3 as (w1 & H3 & ->).
  apply clean_def_func in H as (H7 & H8 & ->). exists ret, ps', f, w1. done.
Qed.

(** ** Names are defined once *)
Lemma grew_build_blocks f ret l : ∀ s u s', clean (b_each (build_block f ret) l) s u s' →
  grew (concat (map (λ b, concat (map stmt_defs (b_stmts b))) l)) s s'.
Proof.
  induction l as [|b l IH]; intros s u s' H; simpl in H.
  { apply clean_mok in H as [_ ->]. apply grew_refl. }
  cb H as u1 s1 H1. simpl. eapply grew_app; [by eapply grew_build_block|by eapply IH].
Qed.
Lemma concat_map_app {A B} (f g : A → list B) l :
  concat (map (λ x, f x ++ g x) l) ≡ₚ concat (map f l) ++ concat (map g l).
Proof.
  induction l as [|x l IH]; simpl; [done|]. rewrite IH. solve_Permutation.
Qed.
Lemma concat_map_perm {A B} (f : A → list B) l k : l ≡ₚ k → concat (map f l) ≡ₚ concat (map f k).
Proof.
  induction 1; simpl; try done.
  - by f_equiv.
  - solve_Permutation.
  - by etrans.
Qed.
Lemma clean_fun_once n ps r bbs gv s u s' :
  (∀ x, x ∈ gv → is_Some (b_gvars s !! x)) →
  clean (build_fun_def n ps r bbs) s u s' →
  fun_once gv ps bbs ∧ b_gvars s !! n = None ∧ b_gfuncs s !! n = None ∧
  b_gvars s' = b_gvars s ∧ dom (b_gfuncs s') = {[n]} ∪ dom (b_gfuncs s).
Proof.
  intros Hgv (ret & ps' & f & w1 & fd & args & l & k & s1 & H1 & H2 & H3 & H4 & H5 & H6 & H7 & H8 & H9 & H10)%clean_fun_def.
  apply clean_arg_map in H5 as (_ & H5 & _ & Ha).
  apply w_new_func_def_data in H3 as (fd' & H3 & Hlen). rewrite H3 in H4. injection H4 as ->.
  rewrite map_fst_zip_eq in H5 by (rewrite map_length, Hlen; symmetry; by apply gen_params_length).
  apply clean_block_list in H8 as (first & rest & k2 & -> & _ & B1 & B2 & B3 & B4 & B5 & _).
  apply grew_init_local in H9 as (s2 & G1 & E1 & E2 & E3). apply grew_build_blocks in H10 as G2.
  destruct G1 as (A1 & A2 & A3 & A4 & A5). destruct G2 as (C1 & C2 & C3 & C4 & C5). simpl in *.
  assert (Ng : ∀ x, b_gvars s !! x = None → x ∉ gv).
  { intros x Hx Hin. apply Hgv in Hin. rewrite Hx in Hin. by destruct Hin. }
  split_and!; try done; [|congruence|by rewrite C5, E2; apply dom_insert_L].
  split_and!; [done|done|]. intros first' l' [= <-] Hnd Hl'.
  assert (Hp : l' ≡ₚ l) by (apply NoDup_Permutation; [done..|]; intros b; by rewrite Hl', B5).
  split.
  - rewrite (concat_map_perm _ _ _ Hp), concat_map_app. apply list.NoDup_app. split_and!; [done| |done].
    intros y Hx1 Hx2. apply C2 in Hx2 as [Hx2 _]. rewrite E3, A3 in Hx2. set_solver.
  - intros b x Hb. rewrite Hp in Hb. split.
    + intros Hx. apply Ng. apply A2. apply elem_of_list_In, in_concat. exists (param_names b).
      split; [|by apply elem_of_list_In]. apply in_map. by apply elem_of_list_In.
    + intros Hx. assert (Hc : x ∈ concat (map (λ b, concat (map stmt_defs (b_stmts b))) l)).
      { apply elem_of_list_In, in_concat. exists (body_names b).
        split; [|by apply elem_of_list_In]. apply (in_map (λ b, concat (map stmt_defs (b_stmts b)))).
        by apply elem_of_list_In. }
      apply C2 in Hc as [Hc1 Hc2]. rewrite E1 in Hc2. split; [by apply Ng|].
      intros Hx'. apply Hc1. rewrite E3. apply elem_of_union_r, elem_of_dom.
      apply elem_of_list_fmap in Hx' as ([y t] & -> & Hy). simpl in *.
      assert (Hm : y ∈ map fst (zip (map fst ps) (f_params fd))).
      { rewrite map_fst_zip_eq by (rewrite map_length, Hlen; symmetry; by apply gen_params_length).
        by apply elem_of_list_fmap_1 with (f := fst) in Hy. }
      apply elem_of_list_fmap in Hm as ([z v] & -> & Hz). exists v. apply Ha. by left.
Qed.

Lemma builds_names ts : ∀ s b, builds s ts b →
  (∀ x, x ∈ concat (map gvar_names ts) → b_gvars s !! x = None ∧ b_gfuncs s !! x = None) ∧
  (∀ x, x ∈ concat (map gfun_names ts) → b_gvars s !! x = None ∧ b_gfuncs s !! x = None) ∧
  NoDup (concat (map (λ t, gvar_names t ++ gfun_names t) ts)) ∧
  (∀ x, is_Some (b_gvars b !! x) ↔ is_Some (b_gvars s !! x) ∨ x ∈ concat (map gvar_names ts)) ∧
  (∀ x, is_Some (b_gfuncs b !! x) ↔ is_Some (b_gfuncs s !! x) ∨ x ∈ concat (map gfun_names ts)).
Proof.
  induction ts as [|t ts IH]; intros s b H; inversion H as [|? ? s1 ? ? H1 H2 H3]; subst.
  { simpl. split_and!; try (by intros x ?%elem_of_nil); [constructor|intros x..]; rewrite elem_of_nil; tauto. }
  apply IH in H3 as (A1 & A2 & A3 & A4 & A5). clear IH H.
  assert (Hc : clean (build_on t) s tt s1) by done. clear H1 H2.
  (* what the first item does *)
  assert (∀ x, x ∈ gvar_names t ++ gfun_names t → b_gvars s !! x = None ∧ b_gfuncs s !! x = None) as T1.
  { intros x Hx. destruct t; simpl in Hx; try (by apply elem_of_nil in Hx);
      apply elem_of_list_singleton in Hx as ->.
    - apply clean_global in Hc as (?&?&?&?&?&?&_&_&_&_&_&?&?&_). done.
    - apply (clean_fun_once _ _ _ _ []) in Hc as (_ & ? & ? & _); [done|by intros ? ?%elem_of_nil].
    - apply clean_fun_decl in Hc as (?&?&?&?&_&_&_&?&?&_). done. }
  assert ((∀ x, is_Some (b_gvars s1 !! x) ↔ is_Some (b_gvars s !! x) ∨ x ∈ gvar_names t) ∧
     (∀ x, is_Some (b_gfuncs s1 !! x) ↔ is_Some (b_gfuncs s !! x) ∨ x ∈ gfun_names t)) as [T2 T3].
  { destruct t; simpl in Hc.
    - apply clean_global in Hc as (?&?&?&?&?&?&_&_&[w ->]&_&_&?&?&->). simpl.
      split; intros q; [rewrite lookup_insert_is_Some', elem_of_list_singleton; naive_solver|].
      rewrite elem_of_nil. tauto.
    - apply (clean_fun_once _ _ _ _ []) in Hc as (_ & _ & _ & E1 & E2); [|by intros ? ?%elem_of_nil].
      simpl. split; intros q; [rewrite E1, elem_of_nil; tauto|].
      rewrite <- elem_of_dom, E2, elem_of_union, elem_of_singleton, elem_of_list_singleton, elem_of_dom. tauto.
    - apply clean_fun_decl in Hc as (?&?&?&?&_&_&_&?&?&->). simpl.
      split; intros q; [rewrite elem_of_nil; tauto|].
      rewrite lookup_insert_is_Some', elem_of_list_singleton. naive_solver.
    - apply clean_mok in Hc as [_ ->]. simpl. split; intros q; rewrite elem_of_nil; tauto.
    - apply clean_mok in Hc as [_ ->]. simpl. split; intros q; rewrite elem_of_nil; tauto. }
  assert (N1 : ∀ x, b_gvars s1 !! x = None → b_gvars s !! x = None ∧ x ∉ gvar_names t).
  { intros x Hx. rewrite !eq_None_not_Some, T2 in *. tauto. }
  assert (N2 : ∀ x, b_gfuncs s1 !! x = None → b_gfuncs s !! x = None ∧ x ∉ gfun_names t).
  { intros x Hx. rewrite !eq_None_not_Some, T3 in *. tauto. }
  simpl. split_and!.
  - intros x [Hx|Hx]%elem_of_app; [by apply T1, elem_of_app; left|].
    apply A1 in Hx as [?%N1 ?%N2]. tauto.
  - intros x [Hx|Hx]%elem_of_app; [by apply T1, elem_of_app; right|].
    apply A2 in Hx as [?%N1 ?%N2]. tauto.
  - apply list.NoDup_app. split_and!; [|intros x Hx1 Hx2|done].
    + destruct t; simpl; try apply NoDup_singleton; constructor.
    + assert (b_gvars s1 !! x = None ∧ b_gfuncs s1 !! x = None) as [?%N1 ?%N2].
      { rewrite concat_map_app in Hx2. apply elem_of_app in Hx2 as [?|?]; auto. }
      apply elem_of_app in Hx1. tauto.
  - intros x. rewrite A4, T2, elem_of_app. tauto.
  - intros x. rewrite A5, T3, elem_of_app. tauto.
Qed.
Lemma builds_app ts1 ts2 : ∀ s b, builds s (ts1 ++ ts2) b ↔ ∃ s1, builds s ts1 s1 ∧ builds s1 ts2 b.
Proof.
  induction ts1 as [|t ts1 IH]; intros s b; simpl.
  { split; [intros H; exists s; split; [constructor|done]|]. intros (s1 & H1 & H2). by inversion H1; subst. }
  split.
  - intros H. inversion H as [|? ? s2 ? ? E1 E2 E3]; subst. apply IH in E3 as (s1 & ? & ?).
    exists s1. split; [by econstructor|done].
  - intros (s1 & H1 & H2). inversion H1 as [|? ? s2 ? ? E1 E2 E3]; subst. econstructor; [done..|].
    apply IH. eauto.
Qed.
Lemma builds_once i e w ts b : builds (bstate0 i e w) ts b →
  NoDup (concat (map (λ t, gvar_names t ++ gfun_names t) ts)) ∧
  ∀ ts1 n ps r bbs ts2, ts = ts1 ++ TFunDef n ps r bbs :: ts2 →
    fun_once (concat (map gvar_names ts1)) ps bbs.
Proof.
  intros H. split; [by destruct (builds_names _ _ _ H) as (_ & _ & ? & _)|].
  intros ts1 n ps r bbs ts2 ->. apply builds_app in H as (s1 & H1 & H2).
  inversion H2 as [|? ? s2 ? ? E1 E2 E3]; subst.
  eapply clean_fun_once; [|split; [exact E1|exact E2]].
  intros x Hx. apply builds_names in H1 as (_ & _ & _ & H1 & _). apply H1. by right.
Qed.
