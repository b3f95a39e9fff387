(** Runs of the builder that report no error: statements, blocks, functions, programs. *)
From Coq Require Import Lia ZifyBool ZifyNat ZifyN.
From Verif Require Import Base IdModel TypeModel IrModel LayoutModel BuilderModel WorldModel
  LexerModel ParserModel ParserSpec FrontModel FrontProofs FlowSpec FlowProofs BlockListProofs CleanProofs
  DriverSpec.

Tactic Notation "cb" hyp(H) "as" ident(a) ident(s1) ident(H1) :=
  let H2 := fresh in
  destruct (clean_bind _ _ _ _ _ H) as (a & s1 & H1 & H2); clear H; rename H2 into H;
  simpl in H1.

Ltac framed_go2 := first
  [ apply framed_value | apply framed_store_value | apply framed_args | framed_go ].
Lemma framed_inst f bb e : framed (gen_inst f bb e).
Proof.
  destruct e; cbn [gen_inst]; unfold gen_load, gen_get_ptr, gen_get_elem_ptr, gen_binary;
    try (repeat framed_go2; fail).
  intros s v s' H. unfold gen_call, clean in H. destruct (b_gfuncs s !! f0) as [c|]; [|by apply clean_error in H].
  revert H. apply framed_bind; [apply _..|apply framed_some|]. intros. repeat framed_go2.
Qed.
Lemma framed_stmt f bb r st : (∀ n e, st ≠ SDef n e) → framed (gen_stmt f bb r st).
Proof.
  intros Hn. destruct st; cbn [gen_stmt].
  all: try apply (framed_inst f bb (ECall _ _)).
  all: unfold gen_store, gen_branch, gen_jump, gen_return; try (repeat framed_go2; fail).
  - by destruct (Hn name e).
  - by intros s v s' [? _].
Qed.

(** ** Statements *)
Lemma clean_stmt_def f bb ret n e s v s' : clean (gen_stmt f bb ret (SDef n e)) s v s' →
  ∃ s1 s2 t w info,
    b_gvars s !! n = None ∧ n ∉ b_syms s ∧ s1 = set_syms ({[n]} ∪ b_syms s) s ∧
    clean (gen_inst f bb e) s1 v s2 ∧ clean (value_ty f v) s2 t s2 ∧ is_unit t = false ∧
    (if is_temp n then w = b_world s2 else w_name_local f v (Some n) (b_world s2) = Some w) ∧
    b_bbs s2 !! bb = Some info ∧
    s' = set_bbs (<[bb := BbInfo (bi_bb info) (bi_preds info) (<[n := v]> (bi_defs info))]> (b_bbs s2))
           (set_world w s2).
Proof.
  intros H. cbn [gen_stmt] in H. cb H as u s1 H1. apply clean_def_symbol in H1 as (G1 & G2 & Es1).
  cb H as v0 s2 H2. cb H as t s3 H3. destruct (clean_value_ty _ _ _ _ _ H3) as [-> _].
  destruct (is_unit t) eqn:Eu; [by apply clean_error in H|]. cb H as u2 s4 H4. cb H as u3 s5 H5.
  apply clean_mok in H as [-> ->].
  assert (∃ w, (if is_temp n then w = b_world s2 else w_name_local f v0 (Some n) (b_world s2) = Some w) ∧
    s4 = set_world w s2) as (w & Hw & ->).
  { destruct (is_temp n).
    - apply clean_mok in H4 as [_ ->]. exists (b_world s2). split; [done|]. by destruct s2.
    - apply clean_prog_ in H4 as (w & Hw & ->). eauto. }
  apply clean_add_def in H5 as (info & Hi & ->). exists s1, s2, t, w, info. done.
Qed.

(** Which local symbols a run defines *)
Definition grew (ns : list string) (s s' : bstate) : Prop :=
  NoDup ns ∧ (∀ n, n ∈ ns → n ∉ b_syms s ∧ b_gvars s !! n = None) ∧
  b_syms s' = list_to_set ns ∪ b_syms s ∧ b_gvars s' = b_gvars s ∧ b_gfuncs s' = b_gfuncs s.
Lemma grew_app a b s s1 s2 : grew a s s1 → grew b s1 s2 → grew (a ++ b) s s2.
Proof.
  intros (A1 & A2 & A3 & A4 & A5) (B1 & B2 & B3 & B4 & B5).
  split_and!; [|..|congruence|congruence].
  - apply list.NoDup_app. split_and!; [done| |done]. intros x Hx Hx'. apply B2 in Hx' as [? _].
    set_solver.
  - intros n [Hn|Hn]%elem_of_app; [by apply A2|]. apply B2 in Hn as [? ?]. split; [set_solver|congruence].
  - rewrite B3, A3, list_to_set_app_L. set_solver.
Qed.
Lemma grew_wo s s' : wo s s' → grew [] s s'.
Proof. intros [w ->]. split_and!; simpl; [constructor|set_solver|set_solver|done|done]. Qed.
Lemma grew_refl s : grew [] s s.
Proof. apply grew_wo, wo_refl. Qed.

(** The symbols defined by statements *)
Lemma grew_stmt f bb ret st s v s' : clean (gen_stmt f bb ret st) s v s' →
  grew (stmt_defs st) s s'.
Proof.
  destruct (match st with SDef _ _ => true | _ => false end) eqn:E.
  - destruct st; try done. intros H.
    apply clean_stmt_def in H as (s1 & s2 & t & w & info & H1 & H2 & -> & H3 & H4 & H5 & H6 & H7 & ->).
    apply framed_inst in H3 as [w' ->]. simpl. split_and!; simpl; try done.
    + apply NoDup_singleton.
    + intros x ->%elem_of_list_singleton. done.
    + set_solver.
  - intros H. assert (stmt_defs st = []) as -> by (by destruct st).
    apply grew_wo. revert H. apply framed_stmt. by intros n e ->.
Qed.

(** One step of [build_block] *)
Definition push_step f name : value → F unit := λ v s,
  match b_bbs s !! name with
  | None => (Rpanic, s)
  | Some info => b_prog_ (w_push_inst f (bi_bb info) v) s
  end.
#[global] Instance up_push_step f n v : Up (push_step f n v).
Proof. intros s. unfold push_step. case_match; [|done]. apply up. Qed.
Lemma clean_push_step f n v s u s' : clean (push_step f n v) s u s' →
  ∃ info w, b_bbs s !! n = Some info ∧ w_push_inst f (bi_bb info) v (b_world s) = Some w ∧
    s' = set_world w s.
Proof.
  unfold push_step, clean. destruct (b_bbs s !! n) as [info|]; [|by intros [? ?]].
  intros (w & Hw & ->)%clean_prog_. eauto.
Qed.
Lemma clean_block_step f name ret st s u s' :
  clean (b_ok (gen_stmt f name ret st) (push_step f name)) s u s' →
  (st = SErr ∧ s' = s) ∨
  ∃ v s1 info w, clean (gen_stmt f name ret st) s v s1 ∧ b_bbs s1 !! name = Some info ∧
    w_push_inst f (bi_bb info) v (b_world s1) = Some w ∧ s' = set_world w s1.
Proof.
  intros H. destruct (match st with SErr => true | _ => false end) eqn:E.
  - destruct st; try done. left. destruct H as [H _]. by injection H as _ ->.
  - right. apply clean_b_ok in H.
    + destruct H as (v & s1 & H1 & H2). apply clean_push_step in H2 as (info & w & ? & ? & ->). eauto 10.
    + intros s0. pose proof (sane_stmt f name ret st s0). by destruct st.
    + apply _.
Qed.
Lemma build_block_eq f ret b :
  build_block f ret b = b_each (λ st, b_ok (gen_stmt f (b_name b) ret st) (push_step f (b_name b))) (b_stmts b).
Proof. done. Qed.
#[global] Instance up_b_ok_stmt f name ret st : Up (b_ok (gen_stmt f name ret st) (push_step f name)).
Proof.
  intros s. unfold b_ok. pose proof (up (m := gen_stmt f name ret st) s) as U.
  destruct (gen_stmt f name ret st s) as [[v|x| |] s1]; simpl in *; try done.
  pose proof (up (m := push_step f name v) s1). lia.
Qed.
Lemma grew_block_step f name ret st s u s' :
  clean (b_ok (gen_stmt f name ret st) (push_step f name)) s u s' → grew (stmt_defs st) s s'.
Proof.
  intros [[-> ->]|(v & s1 & info & w & H1 & H2 & H3 & ->)]%clean_block_step; [apply grew_refl|].
  apply grew_stmt in H1. rewrite <- (app_nil_r (stmt_defs st)). eapply grew_app; [done|].
  apply grew_wo. by exists w.
Qed.
Lemma grew_build_block f ret b s u s' : clean (build_block f ret b) s u s' →
  grew (concat (map stmt_defs (b_stmts b))) s s'.
Proof.
  rewrite build_block_eq. generalize (b_stmts b) as l. intros l. revert s.
  induction l as [|st l IH]; intros s H; simpl in H.
  { apply clean_mok in H as [_ ->]. apply grew_refl. }
  cb H as u1 s1 H1. apply grew_block_step in H1. simpl. eapply grew_app; [done|]. by apply IH.
Qed.

(** ** Blocks *)
Lemma clean_param_defs ps : ∀ d s d' s', clean (param_defs ps d) s d' s' →
  grew (map fst ps) s s' ∧ s' = set_syms (b_syms s') s ∧
  (∀ n v, d' !! n = Some v ↔ (n, v) ∈ ps ∨ (n ∉ map fst ps ∧ d !! n = Some v)).
Proof.
  induction ps as [|[n v] ps IH]; intros d s d' s' H; cbn in H.
  { apply clean_mok in H as [-> ->]. split_and!; [apply grew_refl|by destruct s|].
    intros n v. split; [right; split; [by intros ?%elem_of_nil|done]|]. intros [?%elem_of_nil|[_ ?]]; done. }
  cb H as u s1 H1. apply clean_def_symbol in H1 as (G1 & G2 & ->).
  apply IH in H as (H1 & H2 & H3). split_and!.
  - change (map fst ((n, v) :: ps)) with ([n] ++ map fst ps). eapply grew_app; [|exact H1].
    split_and!; simpl; try done; [apply NoDup_singleton|by intros x ->%elem_of_list_singleton|set_solver].
  - rewrite H2. simpl. done.
  - intros m x. rewrite H3. simpl. rewrite lookup_insert_Some, !elem_of_cons.
    destruct H1 as (_ & H1 & _). split.
    + intros [?|[? [[<- <-]|[? ?]]]]; auto. right. split; [|done]. by intros [?|?].
    + intros [[[= <- <-]|?]|[Hn ?]]; auto.
      * right. split; [|by left]. intros Hin. apply H1 in Hin as [Hin _]. simpl in Hin. set_solver.
      * right. split; [tauto|]. right. split; [|done]. intros ->. apply Hn. by left.
Qed.

Lemma clean_init_bb f b s u s' : clean (init_bb f b) s u s' →
  ∃ ps bb w1 w2 fd bd d s1,
    gen_params (b_params b) = Some ps ∧
    w_new_bb f (opt_name (b_name b)) ps (b_world s) = Some (bb, w1) ∧
    w_push_bb f bb w1 = Some w2 ∧
    p_funcs (w_prog w2) !! f = Some fd ∧ d_bbs (f_dfg fd) !! bb = Some bd ∧
    clean (param_defs (zip (map fst (b_params b)) (bb_params bd)) ∅) (set_world w2 s) d s1 ∧
    s1 = set_syms (b_syms s1) (set_world w2 s) ∧
    s' = set_bbs (<[b_name b := BbInfo bb [] d]> (b_bbs s)) s1.
Proof.
  intros H. unfold init_bb in H. cb H as ps s1 H1. apply clean_some in H1 as [H1 ->].
  cb H as bb s2 H2. apply clean_prog in H2 as (w1 & H2 & ->).
  cb H as u2 s3 H3. apply clean_prog_ in H3 as (w2 & H3 & ->). simpl in H3.
  cb H as s4 s5 H4. apply clean_mget in H4 as [-> ->].
  cb H as vs s6 H5. apply clean_some in H5 as [H5 ->]. simpl in H5.
  destruct (p_funcs (w_prog w2) !! f) as [fd|] eqn:Ef; [|done]. simpl in H5.
  destruct (d_bbs (f_dfg fd) !! bb) as [bd|] eqn:Ed; [|done]. simpl in H5. injection H5 as <-.
  cb H as d s7 H6. apply clean_upd in H.
  pose proof (clean_param_defs _ _ _ _ _ H6) as (_ & E & _).
  exists ps, bb, w1, w2, fd, bd, d, s7. split_and!; try done.
  rewrite H. f_equal. rewrite E. done.
Qed.

(** ** Numbers of parameters *)
Lemma new_block_args_length ps : ∀ i gs idx g vs i' gs' g',
  new_block_args i gs idx ps g = Some (vs, i', gs', g') → length vs = length ps.
Proof.
  induction ps as [|[n t] ps IH]; intros i gs idx g vs i' gs' g' H; simpl in H; [by simplify_eq|].
  apply bind_Some in H as (d & _ & H). apply bind_Some in H as ([[[v i1] gs1] g1] & _ & H).
  apply bind_Some in H as ([[[vs2 i2] gs2] g2] & H2 & H). apply IH in H2. simplify_eq. simpl. congruence.
Qed.
Lemma new_func_args_length ps : ∀ i idx g vs i' g',
  new_func_args i idx ps g = Some (vs, i', g') → length vs = length ps.
Proof.
  induction ps as [|[n t] ps IH]; intros i idx g vs i' g' H; simpl in H; [by simplify_eq|].
  apply bind_Some in H as ([[[v i1] gs1] g1] & _ & H). apply bind_Some in H as (g2 & _ & H).
  apply bind_Some in H as ([[vs2 i2] g3] & H2 & H). apply IH in H2. simplify_eq. simpl. congruence.
Qed.
Lemma gen_params_length ps l : gen_params ps = Some l → length l = length ps.
Proof.
  revert l. induction ps as [|[n t] ps IH]; intros l H; simpl in H; [by simplify_eq|].
  apply bind_Some in H as (t' & _ & H). apply bind_Some in H as (l' & H2 & H).
  apply IH in H2. simplify_eq. simpl. congruence.
Qed.
Lemma w_new_bb_data f n ps w bb w1 : w_new_bb f n ps w = Some (bb, w1) →
  ∃ fd bd, p_funcs (w_prog w1) !! f = Some fd ∧ d_bbs (f_dfg fd) !! bb = Some bd ∧
    length (bb_params bd) = length ps ∧ bb_name bd = n.
Proof.
  unfold w_new_bb, on_dfg. intros H. apply bind_Some in H as (fd & Hf & H).
  apply bind_Some in H as ([[[a i1] gs1] g1] & H1 & H). injection H as <- <-.
  unfold basic_block_with_param_names in H1.
  apply bind_Some in H1 as (? & _ & H1). apply bind_Some in H1 as (? & _ & H1).
  apply bind_Some in H1 as ([[[vs i2] gs2] g2] & H2 & H1).
  apply bind_Some in H1 as ([[b i3] g3] & H3 & H1). injection H1 as <- <- <- <-.
  apply new_block_args_length in H2. unfold dfg_new_bb_data in H3.
  apply bind_Some in H3 as ([b' i'] & _ & H3). injection H3 as <- <- <-.
  exists (set_dfg fd (Dfg (d_values g2) (<[b':=BBData n vs ∅]> (d_bbs g2)))), (BBData n vs ∅).
  simpl. rewrite !lookup_insert. done.
Qed.
Lemma w_push_bb_data f b w w' g fd : w_push_bb f b w = Some w' → p_funcs (w_prog w') !! g = Some fd →
  ∃ fd0, p_funcs (w_prog w) !! g = Some fd0 ∧ f_dfg fd0 = f_dfg fd.
Proof.
  unfold w_push_bb. intros H. apply bind_Some in H as (fd1 & Hf & H).
  apply bind_Some in H as ([l|] & _ & H); [|done]. injection H as <-. simpl.
  destruct (decide (g = f)) as [-> |Hne].
  - rewrite lookup_insert. intros [= <-]. by exists fd1.
  - rewrite lookup_insert_ne by done. eauto.
Qed.
Lemma map_fst_zip_eq {A B} (l : list A) (k : list B) : length l = length k → map fst (zip l k) = l.
Proof. revert k. induction l as [|x l IH]; intros [|y k] H; simpl in *; try done. by rewrite IH by lia. Qed.

Lemma grew_init_bb f b s u s' : clean (init_bb f b) s u s' → grew (param_names b) s s'.
Proof.
  intros (ps & bb & w1 & w2 & fd & bd & d & s1 & H1 & H2 & H3 & H4 & H5 & H6 & E & ->)%clean_init_bb.
  apply clean_param_defs in H6 as (H6 & _ & _).
  destruct (w_new_bb_data _ _ _ _ _ _ H2) as (fd0 & bd0 & G1 & G2 & G3 & _).
  destruct (w_push_bb_data _ _ _ _ _ _ H3 H4) as (fd1 & G4 & G5). simplify_eq. rewrite G5 in G2. simplify_eq.
  rewrite map_fst_zip_eq in H6.
  - destruct H6 as (A1 & A2 & A3 & A4 & A5). split_and!; try done.
  - rewrite map_length, G3. symmetry. by apply gen_params_length.
Qed.
Lemma grew_init_bbs f l : ∀ s u s', clean (b_each (init_bb f) l) s u s' →
  grew (concat (map param_names l)) s s'.
Proof.
  induction l as [|b l IH]; intros s u s' H; simpl in H.
  { apply clean_mok in H as [_ ->]. apply grew_refl. }
  cb H as u1 s1 H1. simpl. eapply grew_app; [by eapply grew_init_bb|by eapply IH].
Qed.
(** The two anonymous steps of [init_local_bbs] *)
Definition entry_step (e : string) (args : gmap string value) : F unit := λ s,
  match b_bbs s !! e with
  | Some info => (Rok tt, set_bbs (<[e := BbInfo (bi_bb info) (bi_preds info) args]> (b_bbs s)) s)
  | None => (Rpanic, s)
  end.
Definition link_step (b : ablock) : F unit :=
  match list.last (b_stmts b) with
  | None => λ s, (Rpanic, s)
  | Some (SBr _ t _ e _) => add_pred (b_name b) t;; add_pred (b_name b) e
  | Some (SJump t _) => add_pred (b_name b) t
  | Some _ => mok tt
  end.
#[global] Instance up_entry_step e a : Up (entry_step e a).
Proof. intros s. unfold entry_step. by case_match. Qed.
#[global] Instance up_link_step b : Up (link_step b).
Proof. unfold link_step. repeat case_match; try apply _. by intros s. Qed.
Lemma init_local_eq f args l : init_local_bbs f args l =
  (b_upd (set_bbs ∅);;
  b_each (init_bb f) l;;
  b_upd (λ s, set_syms (b_syms s ∪ dom args) s);;
  entry <- b_some (head l);;
  entry_step (b_name entry) args;;
  b_each link_step l).
Proof. done. Qed.

(** What linking the predecessors does: only [b_bbs] changes, no definition changes, and
    each predecessor list grows by the sources of the edges. *)
Definition linked (E : string → string → Prop) (s s' : bstate) : Prop :=
  s' = set_bbs (b_bbs s') s ∧ same_defs (b_bbs s) (b_bbs s') ∧
  (∀ t p, pred_of (b_bbs s') t p ↔ pred_of (b_bbs s) t p ∨ (E p t)) ∧
  (∀ p t, E p t → is_Some (b_bbs s !! t)).
Lemma linked_refl s : linked (λ _ _, False) s s.
Proof. split_and!; [by destruct s|by intros b; destruct (b_bbs s !! b)|tauto|done]. Qed.
Lemma same_defs_trans a b c : same_defs a b → same_defs b c → same_defs a c.
Proof.
  intros H1 H2 x. specialize (H1 x). specialize (H2 x).
  destruct (a !! x), (b !! x), (c !! x); simpl in *; try done. destruct H1, H2. split; congruence.
Qed.
Lemma same_defs_is_Some a b x : same_defs a b → is_Some (b !! x) → is_Some (a !! x).
Proof. intros H [y Hy]. specialize (H x). rewrite Hy in H. by destruct (a !! x). Qed.
Lemma linked_app E1 E2 s s1 s2 : linked E1 s s1 → linked E2 s1 s2 →
  linked (λ p t, E1 p t ∨ E2 p t) s s2.
Proof.
  intros (A1 & A2 & A3 & A4) (B1 & B2 & B3 & B4). split_and!.
  - rewrite B1, A1. by destruct s, s1, s2.
  - by eapply same_defs_trans.
  - intros t p. rewrite B3, A3. tauto.
  - intros p t [H|H]; [by eapply A4|]. eapply same_defs_is_Some; [done|by eapply B4].
Qed.
Lemma linked_iff E1 E2 s s' : (∀ p t, E1 p t ↔ E2 p t) → linked E1 s s' → linked E2 s s'.
Proof.
  intros H (A1 & A2 & A3 & A4). split_and!; try done.
  - intros t p. by rewrite A3, H.
  - intros p t ?%H. by eapply A4.
Qed.
Lemma linked_add_pred a b s u s' : clean (add_pred a b) s u s' → linked (λ p t, p = a ∧ t = b) s s'.
Proof.
  intros [H _]. unfold add_pred in H. destruct (b_bbs s !! b) as [info|] eqn:Hb; [|done].
  injection H as <- <-. split_and!; [by destruct s| | |by intros p t [-> ->]; eauto].
  - intros x. simpl. destruct (decide (b = x)) as [<- |Hne].
    + rewrite lookup_insert, Hb. done.
    + rewrite lookup_insert_ne by done. by destruct (b_bbs s !! x).
  - intros t p. unfold pred_of. simpl. destruct (decide (b = t)) as [<- |Hne].
    + rewrite lookup_insert, Hb. split.
      * intros (i & [= <-] & Hi). simpl in Hi. apply elem_of_app in Hi as [Hi|Hi%elem_of_list_singleton]; eauto.
      * intros [(i & [= <-] & Hi)|[-> _]]; eexists; (split; [done|]); simpl; rewrite elem_of_app, elem_of_list_singleton; auto.
    + rewrite lookup_insert_ne by done. split; [by left|]. intros [?|[_ ->]]; done.
Qed.
Lemma linked_step b s u s' : clean (link_step b) s u s' →
  linked (λ p t, p = b_name b ∧ succ b t) s s'.
Proof.
  unfold link_step. intros H. destruct (list.last (b_stmts b)) as [fin|] eqn:Hl; [|by destruct H].
  apply last_snoc_inv in Hl as [body Hl].
  assert (Hs : ∀ t, succ b t ↔ goes_to fin t).
  { intros t. split; [|by intros; exists body, fin]. intros (body' & fin' & E & Hg).
    rewrite Hl in E. by apply app_inj_2 in E as [_ [= ->]]. }
  destruct fin; try (apply clean_mok in H as [_ ->]; eapply linked_iff; [|apply linked_refl];
    intros p t'; rewrite Hs; simpl; tauto).
  - cb H as u1 s1 H1. eapply linked_iff; [|eapply linked_app; by eapply linked_add_pred].
    intros p t'. rewrite Hs. simpl. naive_solver.
  - eapply linked_iff; [|by eapply linked_add_pred]. intros p t'. rewrite Hs. simpl. naive_solver.
Qed.
Lemma linked_steps l : ∀ s u s', clean (b_each link_step l) s u s' →
  linked (λ p t, ∃ b, b ∈ l ∧ p = b_name b ∧ succ b t) s s'.
Proof.
  induction l as [|b l IH]; intros s u s' H; simpl in H.
  { apply clean_mok in H as [_ ->]. eapply linked_iff; [|apply linked_refl].
    intros p t. split; [done|]. by intros (b & ?%elem_of_nil & _). }
  cb H as u1 s1 H1. eapply linked_iff; [|eapply linked_app; [by eapply linked_step|by eapply IH]].
  intros p t. cbn beta. setoid_rewrite elem_of_cons. naive_solver.
Qed.
Lemma clean_entry_step e args s u s' : clean (entry_step e args) s u s' → ∃ info,
  b_bbs s !! e = Some info ∧
  s' = set_bbs (<[e := BbInfo (bi_bb info) (bi_preds info) args]> (b_bbs s)) s.
Proof. intros [H _]. unfold entry_step in H. destruct (b_bbs s !! e) as [info|]; [|done]. injection H as <- <-. eauto. Qed.

Lemma grew_init_local f args l s u s' : clean (init_local_bbs f args l) s u s' →
  ∃ s1, grew (concat (map param_names l)) s s1 ∧
    b_gvars s' = b_gvars s ∧ b_gfuncs s' = b_gfuncs s ∧ b_syms s' = b_syms s1 ∪ dom args.
Proof.
  rewrite init_local_eq. intros H. cb H as u1 s1 H1. apply clean_upd in H1 as ->.
  cb H as u2 s2 H2. apply grew_init_bbs in H2. cb H as u3 s3 H3. apply clean_upd in H3 as ->.
  cb H as e s4 H4. apply clean_some in H4 as [_ ->]. cb H as u5 s5 H5. apply linked_steps in H as (H & _).
  apply clean_entry_step in H5 as (info & _ & ->).
  exists s2. destruct H2 as (A1 & A2 & A3 & A4 & A5).
  rewrite H. simpl in *. split_and!; done.
Qed.

(** ** Functions *)
Lemma clean_arg_map ps : ∀ d s d' s', clean (arg_map ps d) s d' s' →
  s' = s ∧ NoDup (map fst ps) ∧ (∀ n, n ∈ map fst ps → d !! n = None) ∧
  (∀ n v, d' !! n = Some v ↔ (n, v) ∈ ps ∨ d !! n = Some v).
Proof.
  induction ps as [|[n v] ps IH]; intros d s d' s' H; cbn in H.
  { apply clean_mok in H as [-> ->]. split_and!; [done|constructor|by intros ? ?%elem_of_nil|].
    intros n v. rewrite elem_of_nil. tauto. }
  cb H as u s1 H1. assert (d !! n = None ∧ s1 = s) as [Hd ->].
  { case_decide as Hs; [by apply clean_log in H1|]. apply clean_mok in H1 as [_ ->].
    split; [by apply eq_None_not_Some|done]. }
  apply IH in H as (-> & H2 & H3 & H4). split_and!; try done.
  - simpl. apply list.NoDup_cons. split; [|done]. intros Hn. apply H3 in Hn. by rewrite lookup_insert in Hn.
  - intros m [-> |Hm]%elem_of_cons; [done|]. apply H3 in Hm. by apply lookup_insert_None in Hm as [? _].
  - intros m x. rewrite H4, lookup_insert_Some, elem_of_cons. split.
    + intros [?|[[<- <-]|[_ ?]]]; auto.
    + intros [[[= <- <-]|?]|Hx]; auto. right. right. split; [by intros <-; congruence|done].
Qed.
Lemma clean_def_func n f s u s' : clean (def_func n f) s u s' →
  b_gvars s !! n = None ∧ b_gfuncs s !! n = None ∧ s' = set_gfuncs (<[n := f]> (b_gfuncs s)) s.
Proof.
  unfold clean, def_func. repeat case_decide; intros Hc; try by apply clean_log in Hc.
  - destruct Hc as [[= <- <-] H1]. simpl in H1. lia.
  - destruct Hc as [[= <- <-] _]. rewrite !eq_None_not_Some. done.
Qed.
Lemma clean_def_gvar n f s u s' : clean (def_gvar n f) s u s' →
  b_gvars s !! n = None ∧ b_gfuncs s !! n = None ∧ s' = set_gvars (<[n := f]> (b_gvars s)) s.
Proof.
  unfold clean, def_gvar. repeat case_decide; intros Hc; try by apply clean_log in Hc.
  - destruct Hc as [[= <- <-] H1]. simpl in H1. lia.
  - destruct Hc as [[= <- <-] _]. rewrite !eq_None_not_Some. done.
Qed.
