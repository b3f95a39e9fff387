(** Proofs about the front end's builder: no function runs out of fuel, errors are counted. *)
From Coq Require Import Lia ZifyBool ZifyNat ZifyN.
From Verif Require Import Base IdModel TypeModel IrModel LayoutModel BuilderModel WorldModel
  LexerModel ParserModel ParserSpec FrontModel.

(** ** Fuel of the two graph searches *)
Lemma local_symbol_fuel bbs sym fuel : ∀ visited bb,
  visited ⊆ dom bbs → base.size (dom bbs ∖ visited) < fuel →
  local_symbol fuel bbs visited bb sym ≠ Rfuel ∧
  (∀ r visited', local_symbol fuel bbs visited bb sym = Rok (r, visited') →
     visited ⊆ visited' ∧ visited' ⊆ dom bbs).
Proof.
  induction fuel as [|fuel IH]; intros visited bb Hv Hs; [lia|].
  simpl. case_decide as Hb; [split; [done|intros ? ? [= <- <-]; done]|].
  destruct (bbs !! bb) as [info|] eqn:Hbb; [|split; [done|done]].
  assert (Hd : bb ∈ dom bbs) by (apply elem_of_dom; eauto).
  destruct (bi_defs info !! sym) as [v|]; [split; [done|intros ? ? [= <- <-]; set_solver]|].
  assert (Hlt : base.size (dom bbs ∖ ({[bb]} ∪ visited)) < fuel).
  { assert (base.size (dom bbs ∖ ({[bb]} ∪ visited)) < base.size (dom bbs ∖ visited)); [|lia].
    apply subset_size. set_solver. }
  assert (Hsub : {[bb]} ∪ visited ⊆ dom bbs) by set_solver.
  assert (Hmono : visited ⊆ {[bb]} ∪ visited) by set_solver.
  revert Hlt Hsub Hmono. generalize ({[bb]} ∪ visited) as vis. clear Hb Hs Hbb Hd.
  induction (bi_preds info) as [|p ps IHp]; intros vis Hlt Hsub Hmono.
  { split; [done|]. intros ? ? [= <- <-]. done. }
  destruct (IH vis p Hsub Hlt) as [H1 H2].
  destruct (local_symbol fuel bbs vis p sym) as [[[v|] vis']|f| |] eqn:E; try done.
  - split; [done|]. intros ? ? [= <- <-]. destruct (H2 _ _ eq_refl). set_solver.
  - destruct (H2 _ _ eq_refl) as [H3 H4].
    destruct (IHp vis') as [H5 H6]; [|set_solver|set_solver|].
    { assert (base.size (dom bbs ∖ vis') ≤ base.size (dom bbs ∖ vis)); [|lia].
      apply subseteq_size. set_solver. }
    split; [done|]. intros r v' Hr. by apply H6 in Hr.
Qed.

(** ** Errors *)
Record sane {A} (E : N → N → Prop) (s : bstate) (p : res A * bstate) : Prop := {
  sa_fuel : p.1 ≠ Rfuel;
  sa_errs : (b_errs s ≤ b_errs p.2)%N;
  sa_err : ∀ f, p.1 = Rerr f → E (b_errs s) (b_errs p.2);
}.
Definition counted (e e' : N) : Prop := (e < e')%N.
Definition never (e e' : N) : Prop := False.
Definition anyhow (e e' : N) : Prop := True.
Class Mono (E : N → N → Prop) := mono : ∀ e0 e1 e2, (e0 ≤ e1)%N → E e1 e2 → E e0 e2.
#[global] Instance counted_mono : Mono counted.
Proof. intros ? ? ? ? H. unfold counted in *. lia. Qed.
#[global] Instance never_mono : Mono never.
Proof. by intros ? ? ? ? []. Qed.
#[global] Instance anyhow_mono : Mono anyhow.
Proof. by intros ? ? ? ? ?. Qed.
Class Ok_counted (E : N → N → Prop) := ok_counted : ∀ e e', (e < e')%N → E e e'.
#[global] Instance counted_ok : Ok_counted counted.
Proof. by intros ? ? ?. Qed.
#[global] Instance anyhow_ok : Ok_counted anyhow.
Proof. by intros ? ? ?. Qed.

Lemma sane_weak {A} (E E' : N → N → Prop) s (p : res A * bstate) :
  (∀ e e', E e e' → E' e e') → sane E s p → sane E' s p.
Proof. intros H []; split; eauto. Qed.
Lemma sane_counted {A} E `{!Ok_counted E} s (p : res A * bstate) : sane counted s p → sane E s p.
Proof. apply sane_weak. intros e e' H. by apply ok_counted. Qed.
Lemma sane_never {A} E s (p : res A * bstate) : sane never s p → sane E s p.
Proof. by apply sane_weak. Qed.

Lemma sane_bind {A B} E `{!Mono E} s (m : F A) (k : A → F B) :
  sane E s (m s) → (∀ a s1, m s = (Rok a, s1) → sane E s1 (k a s1)) →
  sane E s ((x <- m;; k x) s).
Proof.
  intros H Hk. unfold mthen. destruct (m s) as [[a|f| |] s1] eqn:Hm.
  2-4: by destruct H as [H1 H2 H3]; split; simpl in *; try done; intros; simplify_eq; eauto.
  destruct H as [_ H2 _]; simpl in H2. destruct (Hk a s1 eq_refl) as [G1 G2 G3].
  split; [done|lia|]. intros f Hf. eapply mono; [exact H2|]. by eapply G3.
Qed.
Lemma sane_ok {A} E s (a : A) : sane E s (mok a s).
Proof. by split. Qed.
Lemma sane_panic {A} E s : sane (A:=A) E s (Rpanic, s).
Proof. by split. Qed.
Lemma sane_get E s : sane E s (mget s).
Proof. by split. Qed.
Lemma sane_log E s : sane E s (b_log s).
Proof. split; simpl; [done|lia|done]. Qed.
Lemma sane_error {A} E `{!Ok_counted E} s : sane (A:=A) E s (b_error s).
Proof. split; simpl; [done|lia|]. intros. apply ok_counted. lia. Qed.
Lemma sane_warn E n s : sane E s (b_warn n s).
Proof. split; simpl; [done|lia|done]. Qed.
Lemma sane_some {A} E (o : option A) s : sane E s (b_some o s).
Proof. destruct o; by split. Qed.
Lemma sane_prog {A} E (f : world → option (A * world)) s : sane E s (b_prog f s).
Proof. unfold b_prog. by destruct (f (b_world s)) as [[]|]; split. Qed.
Lemma sane_prog_ E (f : world → option world) s : sane E s (b_prog_ f s).
Proof. unfold b_prog_. by destruct (f (b_world s)); split. Qed.
Lemma sane_upd E f s : b_errs (f s) = b_errs s → sane E s (b_upd f s).
Proof. intros H. split; simpl; [done|lia|done]. Qed.
Lemma sane_b_ok {A} (m : F A) (k : A → F unit) s :
  sane anyhow s (m s) → (∀ a s1, m s = (Rok a, s1) → sane never s1 (k a s1)) →
  sane never s (b_ok m k s).
Proof.
  intros H Hk. unfold b_ok. destruct (m s) as [[a|f| |] s1] eqn:Hm.
  - destruct H as [_ H2 _]; simpl in H2. destruct (Hk a s1 eq_refl) as [G1 G2 G3].
    split; [done|lia|]. intros f Hf. by apply G3 in Hf.
  - destruct H as [H1 H2 H3]; split; simpl in *; done.
  - destruct H as [H1 H2 H3]; split; simpl in *; done.
  - by destruct H.
Qed.
Lemma sane_each {A} E `{!Mono E} (f : A → F unit) l :
  (∀ x s, sane E s (f x s)) → ∀ s, sane E s (b_each f l s).
Proof.
  intros H. induction l as [|x l IH]; intros s; simpl; [apply sane_ok|].
  apply sane_bind; [done|done|]. intros; apply IH.
Qed.
Lemma sane_map {A B} E `{!Mono E} (f : A → F B) l :
  (∀ x s, sane E s (f x s)) → ∀ s, sane E s (b_map f l s).
Proof.
  intros H. induction l as [|x l IH]; intros s; cbn [b_map]; [apply sane_ok|].
  apply sane_bind; [done|done|]. intros y s1 _. apply sane_bind; [done|apply IH|].
  intros; apply sane_ok.
Qed.

Ltac sane_go := first
  [ apply sane_ok | apply sane_panic | apply sane_get | apply sane_log
  | apply sane_error; apply _ | apply sane_warn | apply sane_some | apply sane_prog
  | apply sane_prog_ | (apply sane_upd; done)
  | (apply sane_bind; [apply _| |intros]) ].

Lemma sane_new_local E f r s : sane E s (new_local f r s).
Proof. apply sane_prog. Qed.
Lemma sane_value_ty E f v s : sane E s (value_ty f v s).
Proof. apply sane_some. Qed.
Lemma sane_bb_params_ty E f v s : sane E s (bb_params_ty f v s).
Proof. apply sane_some. Qed.

Lemma sane_init new i : (∀ r s, sane counted s (new r s)) →
  ∀ t s, sane counted s (gen_init new t i s).
Proof.
  intros Hn. revert i. fix IH 1. intros [z| | |elems] t s; simpl.
  - destruct (is_i32 t); [apply Hn|apply sane_error; apply _].
  - apply Hn.
  - apply Hn.
  - assert (Hgo : ∀ e s, sane counted s (b_map (gen_init new e) elems s)).
    { intros e. induction elems as [|x l IHl]; intros s1; cbn [b_map]; [apply sane_ok|].
      apply sane_bind; [apply _|apply IH|]. intros y s2 _.
      apply sane_bind; [apply _|apply IHl|]. intros; apply sane_ok. }
    destruct t; try (apply sane_error; apply _).
    + apply sane_bind; [apply _|destruct (_ =? _)%N; [apply sane_ok|apply sane_log]|].
      intros _ s1 _. apply sane_bind; [apply _|apply Hgo|]. intros; apply Hn.
    + apply sane_bind; [apply _|apply Hgo|]. intros; apply Hn.
Qed.
Lemma sane_local_init f t i s : sane counted s (gen_local_init f t i s).
Proof. apply sane_init. intros; apply sane_prog. Qed.
Lemma sane_global_init t i s : sane counted s (gen_global_init t i s).
Proof. apply sane_init. intros; apply sane_prog. Qed.

Lemma local_symbol_no_err bbs sym fuel : ∀ visited bb f,
  local_symbol fuel bbs visited bb sym ≠ Rerr f.
Proof.
  induction fuel as [|fuel IH]; intros visited bb f; [done|]. simpl. case_decide; [done|].
  destruct (bbs !! bb) as [info|]; [|done]. destruct (bi_defs info !! sym); [done|].
  generalize ({[bb]} ∪ visited). induction (bi_preds info) as [|p ps IHp]; intros vis; [done|].
  specialize (IH vis p). destruct (local_symbol fuel bbs vis p sym) as [[[v|] vis']|f'| |]; try done.
Qed.
Lemma sane_symbol bb sym s : sane counted s (gen_symbol bb sym s).
Proof.
  unfold gen_symbol. destruct (b_gvars s !! sym); [by split|].
  destruct (local_symbol_fuel (b_bbs s) sym (S (base.size (b_bbs s))) ∅ bb) as [H _].
  { set_solver. }
  { rewrite difference_empty_L. rewrite size_dom. lia. }
  pose proof (local_symbol_no_err (b_bbs s) sym (S (base.size (b_bbs s))) ∅ bb) as H'.
  destruct (local_symbol _ _ _ _ _) as [[[v|] ?]|f| |]; try done; [|by destruct (H' f)].
  apply sane_error; apply _.
Qed.
Lemma sane_sym_value f bb t sym s : sane counted s (gen_sym_value f bb t sym s).
Proof.
  unfold gen_sym_value. apply sane_bind; [apply _|apply sane_symbol|]. intros.
  apply sane_bind; [apply _|apply sane_value_ty|]. intros. case_match; sane_go.
Qed.
Lemma sane_value f bb t v s : sane counted s (gen_value f bb t v s).
Proof. destruct v; [apply sane_sym_value|apply sane_local_init..]. Qed.
Lemma sane_store_value f bb t v s : sane counted s (gen_store_value f bb t v s).
Proof. destruct v; [apply sane_sym_value|apply sane_local_init]. Qed.
Lemma sane_bb n s : sane counted s (gen_bb n s).
Proof. unfold gen_bb. destruct (b_bbs s !! n); [by split|apply sane_error; apply _]. Qed.
Lemma sane_args f bb a t s : sane counted s (gen_args f bb a t s).
Proof. apply sane_map; [apply _|]. intros; apply sane_value. Qed.

Ltac sane_step := first
  [ apply sane_symbol | apply sane_value_ty | apply sane_value | apply sane_new_local
  | apply sane_bb | apply sane_args | apply sane_bb_params_ty | apply sane_store_value
  | sane_go | case_match ].
Lemma sane_call f bb c a s : sane counted s (gen_call f bb c a s).
Proof.
  unfold gen_call. destruct (b_gfuncs s !! c); [|apply sane_error; apply _].
  repeat sane_step.
Qed.
Lemma sane_inst f bb e s : sane counted s (gen_inst f bb e s).
Proof.
  destruct e; simpl; [..|apply sane_call];
    unfold gen_load, gen_get_ptr, gen_get_elem_ptr, gen_binary; repeat sane_step.
Qed.
Lemma sane_def_symbol E n s : sane E s (def_symbol n s).
Proof. unfold def_symbol. repeat case_decide; [apply sane_log..|]. by split. Qed.
Lemma sane_add_def E bb n v s : sane E s (add_def bb n v s).
Proof. unfold add_def. case_match; by split. Qed.
Lemma sane_stmt f bb ret st s : sane (match st with SErr => anyhow | _ => counted end) s (gen_stmt f bb ret st s).
Proof.
  destruct st; simpl; try apply sane_call;
    try (unfold gen_store, gen_branch, gen_jump, gen_return; repeat sane_step; fail).
  - apply sane_bind; [apply _|apply sane_def_symbol|]. intros.
    apply sane_bind; [apply _|apply sane_inst|]. intros.
    apply sane_bind; [apply _|apply sane_value_ty|]. intros. case_match; [sane_go|].
    apply sane_bind; [apply _|case_match; sane_go|]. intros.
    apply sane_bind; [apply _|apply sane_add_def|]. intros. sane_go.
  - by split.
Qed.
Lemma sane_stmt' f bb ret st s : sane anyhow s (gen_stmt f bb ret st s).
Proof. eapply sane_weak; [|apply sane_stmt]. by intros ? ? ?. Qed.

Lemma sane_build_block f ret b s : sane never s (build_block f ret b s).
Proof.
  apply sane_each; [apply _|]. intros st s1. apply sane_b_ok; [apply sane_stmt'|].
  intros v s2 _. case_match; sane_go.
Qed.

Lemma sane_block_map l : ∀ m s, sane never s (block_map l m s).
Proof.
  induction l as [|b l IH]; intros m s; cbn; [sane_go|].
  apply sane_bind; [apply _|case_decide; sane_go|]. intros; apply IH.
Qed.
Lemma sane_add_targets entry m ts : ∀ s, sane never s (add_targets entry m ts s).
Proof.
  induction ts as [|t ts IH]; intros s; cbn; [sane_go|].
  destruct (String.eqb t entry); [apply sane_bind; [apply _|sane_go|intros; apply IH]|].
  case_decide.
  - apply sane_bind; [apply _|apply IH|]. intros; sane_go.
  - apply sane_bind; [apply _|sane_go|]. intros; apply IH.
Qed.
Lemma add_targets_facts entry m ts : ∀ s q s', add_targets entry m ts s = (Rok q, s') →
  length q ≤ length ts ∧ Forall (λ t, t ∈ dom m) q.
Proof.
  induction ts as [|t ts IH]; intros s q s'; cbn.
  { intros [= <- <-]. split; [done|constructor]. }
  destruct (String.eqb t entry); [intros H; apply IH in H as []; split; [lia|done]|].
  case_decide as Hd.
  - unfold mthen. destruct (add_targets entry m ts s) as [[q1|f| |] s1] eqn:E; try done.
    intros [= <- <-]. apply IH in E as []. simpl. split; [lia|]. constructor; [by apply elem_of_dom|done].
  - intros H; apply IH in H as []; split; [lia|done].
Qed.
Lemma targets_length b ts : targets b = Some ts → length ts ≤ 2.
Proof.
  unfold targets. destruct (list.last _) as [[]|]; simpl; intros; simplify_eq; simpl; lia.
Qed.
Lemma sane_bfs fuel entry m : ∀ queue visited s,
  Forall (λ t, t ∈ dom m) queue → visited ⊆ dom m →
  length queue + 2 * base.size (dom m ∖ visited) < fuel →
  sane never s (bfs fuel entry m queue visited s).
Proof.
  induction fuel as [|fuel IH]; intros queue visited s Hq Hv Hf; [lia|]. cbn.
  destruct queue as [|n queue]; [sane_go|]. apply list.Forall_cons in Hq as [Hn Hq].
  simpl in Hf. case_decide as Hd; [apply IH; [done|done|lia]|].
  apply sane_bind; [apply _|sane_go|]. intros b s1 Hb.
  apply sane_bind; [apply _|sane_go|]. intros ts s2 Ht.
  apply sane_bind; [apply _|apply sane_add_targets|]. intros q s3 H.
  apply add_targets_facts in H as [H1 H2].
  assert (length ts ≤ 2).
  { destruct (targets b) as [ts'|] eqn:E; simpl in Ht; [|done]. injection Ht as -> _.
    by eapply targets_length. }
  apply sane_bind; [apply _|apply IH|intros [] ? _; sane_go].
  - by apply Forall_app_2.
  - set_solver.
  - rewrite app_length.
    assert (base.size (dom m ∖ ({[n]} ∪ visited)) < base.size (dom m ∖ visited)); [|lia].
    apply subset_size. set_solver.
Qed.
Lemma block_map_dom l : ∀ m s m' s', block_map l m s = (Rok m', s') →
  ∀ n, n ∈ dom m' ↔ n ∈ dom m ∨ n ∈ b_name <$> l.
Proof.
  induction l as [|b l IH]; intros m s m' s'; cbn.
  { intros [= <- <-] n. set_solver. }
  case_decide; cbn; intros Hm n; rewrite (IH _ _ _ _ Hm n), dom_insert; set_solver.
Qed.
Lemma sane_block_list bbs s : sane never s (get_block_list bbs s).
Proof.
  unfold get_block_list. destruct bbs as [|b bbs]; [by split|].
  apply sane_bind; [apply _|sane_go|]. intros first s1 [= <- <-].
  apply sane_bind; [apply _|apply sane_block_map|]. intros m s2 Hm.
  apply sane_bind; [apply _|apply sane_bfs|].
  - constructor; [|done]. apply (block_map_dom _ _ _ _ _ Hm). right. set_solver.
  - set_solver.
  - rewrite difference_empty_L. rewrite size_dom. simpl. lia.
  - intros [l v] s3 _. repeat sane_go.
Qed.

Lemma sane_param_defs ps : ∀ d s, sane never s (param_defs ps d s).
Proof.
  induction ps as [|[n v] ps IH]; intros d s; cbn; [sane_go|].
  apply sane_bind; [apply _|apply sane_def_symbol|]. intros; apply IH.
Qed.
Lemma sane_init_bb f b s : sane never s (init_bb f b s).
Proof.
  unfold init_bb. repeat (apply sane_param_defs || sane_go).
Qed.
Lemma sane_add_pred a b s : sane never s (add_pred a b s).
Proof. unfold add_pred. case_match; by split. Qed.
Lemma sane_init_local_bbs f args bbs s : sane never s (init_local_bbs f args bbs s).
Proof.
  unfold init_local_bbs. apply sane_bind; [apply _|sane_go|]. intros.
  apply sane_bind; [apply _|apply sane_each; [apply _|apply sane_init_bb]|]. intros.
  apply sane_bind; [apply _|sane_go|]. intros. apply sane_bind; [apply _|sane_go|]. intros.
  apply sane_bind; [apply _|case_match; by split|]. intros.
  apply sane_each; [apply _|]. intros b s'. repeat case_match; try by split.
  - apply sane_bind; [apply _|apply sane_add_pred|]. intros; apply sane_add_pred.
  - apply sane_add_pred.
Qed.
Lemma sane_arg_map ps : ∀ d s, sane never s (arg_map ps d s).
Proof.
  induction ps as [|[n v] ps IH]; intros d s; cbn; [sane_go|].
  apply sane_bind; [apply _|case_decide; sane_go|]. intros; apply IH.
Qed.
Lemma sane_def_func n f s : sane never s (def_func n f s).
Proof. unfold def_func. repeat case_decide; split; simpl; try done; lia. Qed.
Lemma sane_def_gvar n f s : sane never s (def_gvar n f s).
Proof. unfold def_gvar. repeat case_decide; split; simpl; try done; lia. Qed.

(** Building never fails with a [Result], never runs out of fuel, never uncounts errors. *)
Lemma sane_build_on t s : sane never s (build_on t s).
Proof.
  destruct t as [n t i|n ps r bbs|n ps r| |]; simpl; [| | |sane_go..].
  - unfold build_global. apply sane_bind; [apply _|sane_go|]. intros.
    apply sane_b_ok; [eapply sane_counted, sane_global_init; apply _|]. intros.
    apply sane_bind; [apply _|apply sane_prog|]. intros.
    apply sane_bind; [apply _|case_match; sane_go|]. intros. apply sane_def_gvar.
  - unfold build_fun_def. do 5 (apply sane_bind; [apply _|sane_go|intros]).
    apply sane_bind; [apply _|apply sane_arg_map|]. intros.
    apply sane_bind; [apply _|apply sane_def_func|]. intros.
    apply sane_bind; [apply _|sane_go|]. intros.
    apply sane_bind; [apply _|apply sane_block_list|]. intros.
    apply sane_bind; [apply _|apply sane_init_local_bbs|]. intros.
    apply sane_each; [apply _|]. intros; apply sane_build_block.
  - unfold build_fun_decl. do 3 (apply sane_bind; [apply _|sane_go|intros]). apply sane_def_func.
Qed.
