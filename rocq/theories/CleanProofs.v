(** Runs of the builder that report no error. *)
From Coq Require Import Lia ZifyBool ZifyNat ZifyN.
From Verif Require Import Base IdModel TypeModel IrModel LayoutModel BuilderModel WorldModel
  LexerModel ParserModel ParserSpec FrontModel FrontProofs FlowSpec FlowProofs BlockListProofs.

(** ** Counters only go up *)
Class Up {A} (m : F A) : Prop := up : ∀ s, (b_errs s ≤ b_errs (m s).2)%N.
Lemma sane_up {A} E (m : F A) : (∀ s, sane E s (m s)) → Up m.
Proof. intros H s. by apply sa_errs with (E := E). Qed.
#[global] Instance up_bind {A B} (m : F A) (k : A → F B) : Up m → (∀ a, Up (k a)) → Up (mthen m k).
Proof.
  intros Hm Hk s. unfold mthen. specialize (Hm s). destruct (m s) as [[a|f| |] s1]; simpl in *; try done.
  specialize (Hk a s1). lia.
Qed.
#[global] Instance up_ok {A} (a : A) : Up (mok a).
Proof. by intros s. Qed.
#[global] Instance up_get : Up (mget (S:=bstate)).
Proof. by intros s. Qed.
#[global] Instance up_log : Up b_log.
Proof. intros s. simpl. lia. Qed.
#[global] Instance up_error {A} : Up (b_error (A:=A)).
Proof. intros s. simpl. lia. Qed.
#[global] Instance up_warn n : Up (b_warn n).
Proof. by intros s. Qed.
#[global] Instance up_some {A} (o : option A) : Up (b_some o).
Proof. by intros s; destruct o. Qed.
#[global] Instance up_prog {A} (f : world → option (A * world)) : Up (b_prog f).
Proof. eapply sane_up. intros. apply (sane_prog never). Qed.
#[global] Instance up_prog_ f : Up (b_prog_ f).
Proof. eapply sane_up. intros. apply (sane_prog_ never). Qed.
#[global] Instance up_ite {A} (b : bool) (m n : F A) : Up m → Up n → Up (if b then m else n).
Proof. by destruct b. Qed.
#[global] Instance up_dec {A} P `{Decision P} (m n : F A) : Up m → Up n → Up (if decide P then m else n).
Proof. by case_decide. Qed.
#[global] Instance up_init new t i : (∀ r, Up (new r)) → Up (gen_init new t i).
Proof.
  intros Hn. revert i t. fix IH 1. intros [z| | |l] t; cbn [gen_init].
  1: case_match; [apply Hn|apply up_error].
  1-2: apply Hn.
  assert (Hl : ∀ b, Up (b_map (gen_init new b) l)).
  { intros b. induction l as [|x l IHl]; cbn [b_map]; [apply up_ok|].
    apply up_bind; [apply IH|]. intros. apply up_bind; [apply IHl|]. intros; apply up_ok. }
  clear IH. destruct t; apply _.
Qed.
#[global] Instance up_new_local f r : Up (new_local f r).
Proof. apply up_prog. Qed.
#[global] Instance up_new_global r : Up (new_global r).
Proof. apply up_prog. Qed.
#[global] Instance up_local_init f t i : Up (gen_local_init f t i).
Proof. apply up_init. apply _. Qed.
#[global] Instance up_global_init t i : Up (gen_global_init t i).
Proof. apply up_init. apply _. Qed.
#[global] Instance up_value_ty f v : Up (value_ty f v).
Proof. eapply sane_up. intros. apply (sane_value_ty never). Qed.
#[global] Instance up_bb_params_ty f v : Up (bb_params_ty f v).
Proof. eapply sane_up. intros. apply (sane_bb_params_ty never). Qed.
#[global] Instance up_symbol bb sym : Up (gen_symbol bb sym).
Proof. eapply sane_up. intros. apply sane_symbol. Qed.
#[global] Instance up_sym_value f bb t sym : Up (gen_sym_value f bb t sym).
Proof. eapply sane_up. intros. apply sane_sym_value. Qed.
#[global] Instance up_value f bb t v : Up (gen_value f bb t v).
Proof. eapply sane_up. intros. apply sane_value. Qed.
#[global] Instance up_store_value f bb t v : Up (gen_store_value f bb t v).
Proof. eapply sane_up. intros. apply sane_store_value. Qed.
#[global] Instance up_gen_bb n : Up (gen_bb n).
Proof. eapply sane_up. intros. apply sane_bb. Qed.
#[global] Instance up_args f bb a t : Up (gen_args f bb a t).
Proof. eapply sane_up. intros. apply sane_args. Qed.
#[global] Instance up_inst f bb e : Up (gen_inst f bb e).
Proof. eapply sane_up. intros. apply sane_inst. Qed.
#[global] Instance up_stmt f bb r st : Up (gen_stmt f bb r st).
Proof. eapply sane_up. intros. apply sane_stmt'. Qed.
#[global] Instance up_def_symbol n : Up (def_symbol n).
Proof. eapply sane_up. intros. apply (sane_def_symbol never). Qed.
#[global] Instance up_add_def b n v : Up (add_def b n v).
Proof. eapply sane_up. intros. apply (sane_add_def never). Qed.
#[global] Instance up_build_block f r b : Up (build_block f r b).
Proof. eapply sane_up. intros. apply sane_build_block. Qed.
#[global] Instance up_block_list l : Up (get_block_list l).
Proof. eapply sane_up. intros. apply sane_block_list. Qed.
#[global] Instance up_param_defs l d : Up (param_defs l d).
Proof. eapply sane_up. intros. apply sane_param_defs. Qed.
#[global] Instance up_init_bb f b : Up (init_bb f b).
Proof. eapply sane_up. intros. apply sane_init_bb. Qed.
#[global] Instance up_add_pred a b : Up (add_pred a b).
Proof. eapply sane_up. intros. apply sane_add_pred. Qed.
#[global] Instance up_init_local_bbs f a l : Up (init_local_bbs f a l).
Proof. eapply sane_up. intros. apply sane_init_local_bbs. Qed.
#[global] Instance up_arg_map l d : Up (arg_map l d).
Proof. eapply sane_up. intros. apply sane_arg_map. Qed.
#[global] Instance up_def_func n f : Up (def_func n f).
Proof. eapply sane_up. intros. apply sane_def_func. Qed.
#[global] Instance up_def_gvar n f : Up (def_gvar n f).
Proof. eapply sane_up. intros. apply sane_def_gvar. Qed.
#[global] Instance up_upd_bbs f : Up (b_upd (λ s, set_bbs (f s) s)).
Proof. by intros s. Qed.
#[global] Instance up_upd_syms f : Up (b_upd (λ s, set_syms (f s) s)).
Proof. by intros s. Qed.
#[global] Instance up_upd_bbs' m : Up (b_upd (set_bbs m)).
Proof. by intros s. Qed.
#[global] Instance up_upd_syms' m : Up (b_upd (set_syms m)).
Proof. by intros s. Qed.
#[global] Instance up_each {A} (f : A → F unit) l : (∀ x, Up (f x)) → Up (b_each f l).
Proof. intros H. induction l; simpl; apply _. Qed.
#[global] Instance up_map {A B} (f : A → F B) l : (∀ x, Up (f x)) → Up (b_map f l).
Proof. intros H. induction l as [|x l IH]; cbn [b_map]; apply _. Qed.
#[global] Hint Extern 10 (Up (match ?x with _ => _ end)) => destruct x : typeclass_instances.
#[global] Hint Extern 10 (Up (fun s => match _ with _ => _ end)) =>
  let s := fresh in intros s; repeat case_match; simpl; lia : typeclass_instances.

(** ** Clean runs *)
Definition clean {A} (m : F A) (s : bstate) (a : A) (s' : bstate) : Prop :=
  m s = (Rok a, s') ∧ b_errs s' = b_errs s.

Lemma clean_bind {A B} (m : F A) (k : A → F B) s b s' {Um : Up m} {Uk : ∀ a, Up (k a)} :
  clean (mthen m k) s b s' → ∃ a s1, clean m s a s1 ∧ clean (k a) s1 b s'.
Proof.
  intros [H He]. unfold mthen in H. pose proof (up (m := m) s) as U1.
  destruct (m s) as [[a|f| |] s1] eqn:Hm; try done. simpl in U1.
  pose proof (up (m := k a) s1) as U2. rewrite H in U2. simpl in U2.
  exists a, s1. unfold clean. rewrite Hm, H. split_and!; (done || lia).
Qed.
Lemma clean_mok {A} (a b : A) s s' : clean (mok a) s b s' → b = a ∧ s' = s.
Proof. intros [H _]. by injection H as -> ->. Qed.
Lemma clean_mget s b s' : clean mget s b s' → b = s ∧ s' = s.
Proof. intros [H _]. by injection H as -> ->. Qed.
Lemma clean_log s b s' : ¬ clean b_log s b s'.
Proof. intros [H He]. injection H as <- <-. simpl in He. lia. Qed.
Lemma clean_error {A} s b s' : ¬ clean (A:=A) b_error s b s'.
Proof. by intros [H He]. Qed.
Lemma clean_some {A} (o : option A) s b s' : clean (b_some o) s b s' → o = Some b ∧ s' = s.
Proof. intros [H _]. destruct o; [|done]. by injection H as -> ->. Qed.
Lemma clean_prog {A} (f : world → option (A * world)) s a s' : clean (b_prog f) s a s' →
  ∃ w, f (b_world s) = Some (a, w) ∧ s' = set_world w s.
Proof. intros [H _]. unfold b_prog in H. destruct (f (b_world s)) as [[]|]; simplify_eq. eauto. Qed.
Lemma clean_prog_ (f : world → option world) s a s' : clean (b_prog_ f) s a s' →
  ∃ w, f (b_world s) = Some w ∧ s' = set_world w s.
Proof. intros [H _]. unfold b_prog_ in H. destruct (f (b_world s)); simplify_eq. eauto. Qed.
Lemma clean_upd f s a s' : clean (b_upd f) s a s' → s' = f s.
Proof. intros [H _]. by injection H as <- <-. Qed.
Lemma clean_value_ty f v s t s' : clean (value_ty f v) s t s' →
  s' = s ∧ (if is_global_id v then v_ty <$> p_values (w_prog (b_world s)) !! v
     else fd ← p_funcs (w_prog (b_world s)) !! f; v_ty <$> d_values (f_dfg fd) !! v) = Some t.
Proof. intros H. by apply clean_some in H as [? ->]. Qed.
Lemma clean_bb_params_ty f b s t s' : clean (bb_params_ty f b) s t s' →
  s' = s ∧ (fd ← p_funcs (w_prog (b_world s)) !! f;
     bd ← d_bbs (f_dfg fd) !! b;
     mapM (λ p, v_ty <$> d_values (f_dfg fd) !! p) (bb_params bd)) = Some t.
Proof. intros H. by apply clean_some in H as [? ->]. Qed.
Lemma clean_symbol bb sym s v s' : clean (gen_symbol bb sym) s v s' →
  s' = s ∧ (b_gvars s !! sym = Some v ∨
    b_gvars s !! sym = None ∧ ∃ V, local_symbol (S (base.size (b_bbs s))) (b_bbs s) ∅ bb sym = Rok (Some v, V)).
Proof.
  intros [H _]. unfold gen_symbol in H. destruct (b_gvars s !! sym); [simplify_eq; auto|].
  destruct (local_symbol _ _ _ _ _) as [[[]]|f| |] eqn:E; try done. simplify_eq. eauto 10.
Qed.
Lemma clean_gen_bb n s b s' : clean (gen_bb n) s b s' →
  s' = s ∧ ∃ info, b_bbs s !! n = Some info ∧ b = bi_bb info.
Proof.
  intros [H _]. unfold gen_bb in H. destruct (b_bbs s !! n) as [info|] eqn:E; [|done].
  simplify_eq. eauto.
Qed.
Lemma clean_def_symbol n s b s' : clean (def_symbol n) s b s' →
  b_gvars s !! n = None ∧ n ∉ b_syms s ∧ s' = set_syms ({[n]} ∪ b_syms s) s.
Proof.
  intros H. unfold clean, def_symbol in H. repeat case_decide; try by apply clean_log in H.
  destruct H as [[= <- <-] _]. split; [by apply eq_None_not_Some|done].
Qed.
Lemma clean_add_def bb n v s b s' : clean (add_def bb n v) s b s' →
  ∃ info, b_bbs s !! bb = Some info ∧
    s' = set_bbs (<[bb := BbInfo (bi_bb info) (bi_preds info) (<[n := v]> (bi_defs info))]> (b_bbs s)) s.
Proof.
  intros [H _]. unfold add_def in H. destruct (b_bbs s !! bb) as [info|]; [|done]. simplify_eq. eauto.
Qed.
Lemma clean_b_ok {A} (m : F A) k s b s' : (∀ s, sane counted s (m s)) → (∀ a, Up (k a)) →
  clean (b_ok m k) s b s' → ∃ a s1, clean m s a s1 ∧ clean (k a) s1 b s'.
Proof.
  intros Hm Hk [H He]. unfold b_ok in H. destruct (Hm s) as [_ S1 S2].
  destruct (m s) as [[a|f| |] s1] eqn:E; simpl in *; try done.
  - pose proof (Hk a s1) as U2. rewrite H in U2. simpl in U2.
    exists a, s1. unfold clean. rewrite E, H. split_and!; (done || lia).
  - specialize (S2 f eq_refl). unfold counted in S2. simplify_eq. lia.
Qed.

(** Only the program is changed. *)
Definition wo (s s' : bstate) : Prop := ∃ w, s' = set_world w s.
Lemma wo_refl s : wo s s.
Proof. exists (b_world s). by destruct s. Qed.
Lemma wo_trans a b c : wo a b → wo b c → wo a c.
Proof. intros [w ->] [w' ->]. by exists w'. Qed.
Definition framed {A} (m : F A) : Prop := ∀ s a s', clean m s a s' → wo s s'.

Lemma framed_ok {A} (a : A) : framed (mok a).
Proof. intros s b s' [_ ->]%clean_mok. apply wo_refl. Qed.
Lemma framed_error {A} : framed (A:=A) b_error.
Proof. by intros s b s' ?%clean_error. Qed.
Lemma framed_log : framed b_log.
Proof. by intros s b s' ?%clean_log. Qed.
Lemma framed_some {A} (o : option A) : framed (b_some o).
Proof. intros s b s' [_ ->]%clean_some. apply wo_refl. Qed.
Lemma framed_prog {A} (f : world → option (A * world)) : framed (b_prog f).
Proof. intros s b s' (w & _ & ->)%clean_prog. by exists w. Qed.
Lemma framed_prog_ f : framed (b_prog_ f).
Proof. intros s b s' (w & _ & ->)%clean_prog_. by exists w. Qed.
Lemma framed_bind {A B} (m : F A) (k : A → F B) {Um : Up m} {Uk : ∀ a, Up (k a)} :
  framed m → (∀ a, framed (k a)) → framed (mthen m k).
Proof.
  intros Hm Hk s b s' H. destruct (clean_bind m k s b s' H) as (a & s1 & H1 & H2).
  eapply wo_trans; [by eapply Hm|by eapply Hk].
Qed.
Lemma framed_map {A B} (f : A → F B) l {Uf : ∀ a, Up (f a)} :
  (∀ x, x ∈ l → framed (f x)) → framed (b_map f l).
Proof.
  induction l as [|x l IH]; intros H; cbn [b_map]; [apply framed_ok|].
  apply framed_bind; [apply _|apply _|apply H; by left|]. intros y.
  apply framed_bind; [apply _|apply _|apply IH; intros; apply H; by right|]. intros; apply framed_ok.
Qed.
Lemma framed_value_ty f v : framed (value_ty f v).
Proof. intros s b s' [-> _]%clean_value_ty. apply wo_refl. Qed.
Lemma framed_bb_params_ty f v : framed (bb_params_ty f v).
Proof. intros s b s' [-> _]%clean_bb_params_ty. apply wo_refl. Qed.
Lemma framed_symbol bb sym : framed (gen_symbol bb sym).
Proof. intros s b s' [-> _]%clean_symbol. apply wo_refl. Qed.
Lemma framed_gen_bb n : framed (gen_bb n).
Proof. intros s b s' [-> _]%clean_gen_bb. apply wo_refl. Qed.
Lemma framed_init new t i : (∀ r, Up (new r)) → (∀ r, framed (new r)) → framed (gen_init new t i).
Proof.
  intros Hu Hn. revert i t. fix IH 1. intros [z| | |l] t; cbn [gen_init].
  1: case_match; [apply Hn|apply framed_error].
  1-2: apply Hn.
  assert (Hl : ∀ b, framed (b_map (gen_init new b) l)).
  { intros b. induction l as [|x l IHl]; cbn [b_map]; [apply framed_ok|].
    apply framed_bind; [apply _|apply _|apply IH|]. intros.
    apply framed_bind; [apply _|apply _|apply IHl|]. intros; apply framed_ok. }
  clear IH. destruct t; try apply framed_error.
  - apply framed_bind; [apply _..| |].
    { case_match; [apply framed_ok|apply framed_log]. }
    intros _. apply framed_bind; [apply _..|apply Hl|]. intros; apply Hn.
  - apply framed_bind; [apply _..|apply Hl|]. intros; apply Hn.
Qed.
Lemma framed_local_init f t i : framed (gen_local_init f t i).
Proof. apply framed_init; [apply _|]. intros; apply framed_prog. Qed.
Lemma framed_global_init t i : framed (gen_global_init t i).
Proof. apply framed_init; [apply _|]. intros; apply framed_prog. Qed.
Ltac framed_go := first
  [ apply framed_ok | apply framed_error | apply framed_log | apply framed_some | apply framed_prog
  | apply framed_prog_ | apply framed_value_ty | apply framed_bb_params_ty | apply framed_symbol
  | apply framed_gen_bb | apply framed_local_init
  | (apply framed_bind; [apply _|apply _| |intros]) | case_match ].
Lemma framed_sym_value f bb t sym : framed (gen_sym_value f bb t sym).
Proof. unfold gen_sym_value. repeat framed_go. Qed.
Lemma framed_value f bb t v : framed (gen_value f bb t v).
Proof. destruct v; [apply framed_sym_value|apply framed_local_init..]. Qed.
Lemma framed_store_value f bb t v : framed (gen_store_value f bb t v).
Proof. destruct v; [apply framed_sym_value|apply framed_local_init]. Qed.
Lemma framed_args f bb a t : framed (gen_args f bb a t).
Proof. apply framed_map; [apply _|]. intros; apply framed_value. Qed.
