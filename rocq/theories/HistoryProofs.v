(** The front end only changes a program through the calls of the programming interface:
    apart from layouts, what it builds is the result of a history of such calls. *)
From Coq Require Import Lia ZifyBool ZifyNat ZifyN.
From Verif Require Import Base IdModel TypeModel IrModel LayoutModel BuilderModel WorldModel
  LexerModel ParserModel ParserSpec FrontModel FrontProofs FlowSpec FlowProofs BlockListProofs
  CleanProofs BuildCleanProofs FunCleanProofs DriverModel DriverSpec DriverProofs UsesSpec DfgSpec
  WorldSpec WorldProofs TypingSpec TypingHistory.

(** ** Programs without layouts *)
Definition er_fd (fd : fdata) : fdata := set_layout fd layout0.
Definition er_prog (p : program) : program :=
  Program (p_values p) (p_inst_layout p) (er_fd <$> p_funcs p) (p_func_tys p) (p_func_layout p).
Definition er (w : world) : world := World (w_ids w) (er_prog (w_prog w)).

(** The calls that the front end makes *)
Definition fe_op (o : op) : Prop :=
  match o with
  | ONewLocal _ r => local_req r = true
  | ONewGlobal r => global_req r = true
  | ONameLocal _ _ _ | ONewBB _ _ _ | ONameGlobal _ _
  | ONewFuncDef _ _ _ | ONewFuncDecl _ _ _ => True
  | _ => False
  end.

Lemma er_on_dfg {A} w f (k : ids → gmap N vdata → dfg → option (A * ids * gmap N vdata * dfg)) a w' :
  on_dfg w f k = Some (a, w') → on_dfg (er w) f k = Some (a, er w').
Proof.
  unfold on_dfg. intros H. apply bind_Some in H as (fd & Hf & H).
  apply bind_Some in H as ([[[a1 i1] gs1] g1] & H1 & H). injection H as <- <-.
  simpl. rewrite lookup_fmap, Hf. simpl. rewrite H1. simpl. do 2 f_equal.
  unfold er. simpl. f_equal. unfold er_prog, set_func, set_values. simpl. f_equal. by rewrite fmap_insert.
Qed.
Lemma er_step o w w' : fe_op o → step o w = Some w' → step o (er w) = Some (er w').
Proof.
  destruct o; try done; intros _ H; cbn [step] in *.
  - apply fmap_Some in H as ([v w1] & H & ->). apply er_on_dfg in H. simpl. unfold w_new_local. simpl.
    rewrite H. done.
  - unfold w_name_local in *. apply bind_Some in H as ([[] w1] & H & E). injection E as ->.
    apply er_on_dfg in H. by rewrite H.
  - apply fmap_Some in H as ([v w1] & H & ->). apply er_on_dfg in H. unfold w_new_bb. by rewrite H.
  - apply fmap_Some in H as ([v1 w1] & H & ->). unfold w_new_global, w_new_global_data, global_insert_value, prog_new_value_data in *.
    change (build (global_querier (w_prog (er w))) r) with (build (global_querier (w_prog w)) r).
    apply bind_Some in H as (d & -> & H). simpl. apply bind_Some in H as ([[v i1] p1] & H & E). injection E as <- <-.
    apply bind_Some in H as ([[v' i'] p'] & H & E). injection E as -> -> <-.
    apply bind_Some in H as ([v' i'] & -> & H). apply bind_Some in H as (gs & Hg & E). injection E as -> -> <-.
    simpl. rewrite Hg. simpl. f_equal. unfold er. simpl. f_equal. by destruct (is_global_alloc (v_kind d)).
  - unfold w_name_global, prog_set_value_name in *. apply bind_Some in H as (p1 & H & E). injection E as <-.
    apply bind_Some in H as (d & Hd & H). apply bind_Some in H as (d' & Hd' & E). injection E as <-.
    simpl. rewrite Hd. simpl. rewrite Hd'. done.
  - apply fmap_Some in H as ([v1 w1] & H & ->). unfold w_new_func_def, prog_new_func_def, prog_new_func in *.
    apply bind_Some in H as ([[f i1] p1] & H & E). injection E as <- <-.
    apply bind_Some in H as ([d i2] & H1 & H). apply bind_Some in H as ([f' i3] & H2 & E). injection E as <- <- <-.
    simpl. rewrite H1. simpl. rewrite H2. simpl. f_equal. unfold er. simpl. f_equal. unfold er_prog. simpl. f_equal.
    rewrite fmap_insert. f_equal. unfold fdata_with_param_names in H1.
    apply bind_Some in H1 as (? & _ & H1). apply bind_Some in H1 as ([[? ?] ?] & _ & E). by injection E as <- _.
  - apply fmap_Some in H as ([v1 w1] & H & ->). unfold w_new_func_decl, prog_new_func_decl, prog_new_func in *.
    apply bind_Some in H as ([[f i1] p1] & H & E). injection E as <- <-.
    apply bind_Some in H as (d & H1 & H). apply bind_Some in H as ([f' i3] & H2 & E). injection E as <- <- <-.
    simpl. rewrite H1. simpl. rewrite H2. simpl. f_equal. unfold er. simpl. f_equal. unfold er_prog. simpl. f_equal.
    rewrite fmap_insert. f_equal. unfold fdata_new_decl in H1.
    apply bind_Some in H1 as (? & _ & E). by injection E as <-.
Qed.
Lemma er_set_layout w f fd l : p_funcs (w_prog w) !! f = Some fd →
  er (World (w_ids w) (set_func (w_prog w) f (set_layout fd l))) = er w.
Proof.
  intros H. unfold er. simpl. f_equal. unfold er_prog, set_func. simpl. f_equal.
  rewrite fmap_insert. apply insert_id. by rewrite lookup_fmap, H.
Qed.
Lemma er_push_bb f b w w' : w_push_bb f b w = Some w' → er w' = er w.
Proof.
  unfold w_push_bb. intros H. apply bind_Some in H as (fd & Hf & H).
  apply bind_Some in H as ([l|] & _ & H); [|done]. injection H as <-. by apply er_set_layout.
Qed.
Lemma er_push_inst f b v w w' : w_push_inst f b v w = Some w' → er w' = er w.
Proof.
  unfold w_push_inst. intros H. apply bind_Some in H as (fd & Hf & H).
  apply bind_Some in H as ([l|] & _ & H); [|done]. injection H as <-. by apply er_set_layout.
Qed.

(** ** Histories *)
Lemma run_app os1 os2 w : run (os1 ++ os2) w = run os1 w ≫= run os2.
Proof.
  revert w. induction os1 as [|o os1 IH]; intros w; simpl; [done|].
  destruct (step o w); simpl; [apply IH|done].
Qed.
Definition evolves_by (k : N) (w w' : world) : Prop :=
  ∃ os, Forall fe_op os ∧ run os (er w) = Some (er w') ∧ (globals_created os ≤ k)%N.
Notation evolves := (evolves_by 0).
Lemma globals_created_app a b : globals_created (a ++ b) = (globals_created a + globals_created b)%N.
Proof. unfold globals_created. rewrite list.filter_app, app_length. lia. Qed.
Lemma evolves_by_trans j k w w1 w2 : evolves_by j w w1 → evolves_by k w1 w2 → evolves_by (j + k) w w2.
Proof.
  intros (o1 & F1 & R1 & G1) (o2 & F2 & R2 & G2). exists (o1 ++ o2). split_and!; [by apply list.Forall_app| |].
  - rewrite run_app, R1. done.
  - rewrite globals_created_app. lia.
Qed.
Lemma evolves_refl w : evolves w w.
Proof. by exists []. Qed.
Lemma evolves_trans w w1 w2 : evolves w w1 → evolves w1 w2 → evolves w w2.
Proof. apply evolves_by_trans. Qed.
Lemma evolves_mono j k w w' : (j ≤ k)%N → evolves_by j w w' → evolves_by k w w'.
Proof. intros H (os & F & R & G). exists os. split_and!; [done..|lia]. Qed.
Lemma evolves_op o w w' : fe_op o → creates_global o = false → step o w = Some w' → evolves w w'.
Proof.
  intros Ho Hc H. exists [o]. split_and!; [by constructor| |].
  - simpl. rewrite (er_step _ _ _ Ho H). done.
  - unfold globals_created. rewrite filter_cons_False by (by rewrite Hc). done.
Qed.

Class Ev {A} (m : F A) : Prop := ev : ∀ s, evolves (b_world s) (b_world (m s).2).
#[global] Instance ev_bind {A B} (m : F A) (k : A → F B) : Ev m → (∀ a, Ev (k a)) → Ev (mthen m k).
Proof.
  intros Hm Hk s. unfold mthen. specialize (Hm s). destruct (m s) as [[a|f| |] s1]; simpl in *; try done.
  eapply evolves_trans; [done|]. apply Hk.
Qed.
Lemma ev_still {A} (m : F A) : (∀ s, b_world (m s).2 = b_world s) → Ev m.
Proof. intros H s. rewrite H. apply evolves_refl. Qed.
#[global] Instance ev_ok {A} (a : A) : Ev (mok a).
Proof. by apply ev_still. Qed.
#[global] Instance ev_get : Ev (mget (S:=bstate)).
Proof. by apply ev_still. Qed.
#[global] Instance ev_log : Ev b_log.
Proof. by apply ev_still. Qed.
#[global] Instance ev_error {A} : Ev (b_error (A:=A)).
Proof. by apply ev_still. Qed.
#[global] Instance ev_warn n : Ev (b_warn n).
Proof. by apply ev_still. Qed.
#[global] Instance ev_some {A} (o : option A) : Ev (b_some o).
Proof. apply ev_still. intros s. by destruct o. Qed.
#[global] Instance ev_panic {A} : Ev (A:=A) (λ s, (Rpanic, s)).
Proof. by apply ev_still. Qed.
#[global] Instance ev_upd_bbs f : Ev (b_upd (λ s, set_bbs (f s) s)).
Proof. by apply ev_still. Qed.
#[global] Instance ev_upd_syms f : Ev (b_upd (λ s, set_syms (f s) s)).
Proof. by apply ev_still. Qed.
#[global] Instance ev_upd_bbs' m : Ev (b_upd (set_bbs m)).
Proof. by apply ev_still. Qed.
#[global] Instance ev_upd_syms' m : Ev (b_upd (set_syms m)).
Proof. by apply ev_still. Qed.
Lemma ev_prog {A} (f : world → option (A * world)) :
  (∀ w a w', f w = Some (a, w') → evolves w w') → Ev (b_prog f).
Proof.
  intros H s. unfold b_prog. destruct (f (b_world s)) as [[a w]|] eqn:E; simpl; [by eapply H|apply evolves_refl].
Qed.
Lemma ev_prog_ (f : world → option world) :
  (∀ w w', f w = Some w' → evolves w w') → Ev (b_prog_ f).
Proof.
  intros H s. unfold b_prog_. destruct (f (b_world s)) as [w|] eqn:E; simpl; [by eapply H|apply evolves_refl].
Qed.
Class LReq (r : breq) : Prop := lreq : local_req r = true.
#[global] Hint Extern 0 (LReq _) => reflexivity : typeclass_instances.
#[global] Instance ev_new_local f r : LReq r → Ev (new_local f r).
Proof. intros Hr. apply ev_prog. intros w a w' H. apply (evolves_op (ONewLocal f r)); [done..|]. cbn [step]. by rewrite H. Qed.
#[global] Instance ev_new_bb f n ps : Ev (b_prog (w_new_bb f n ps)).
Proof. apply ev_prog. intros w a w' H. apply (evolves_op (ONewBB f n ps)); [done..|]. cbn [step]. by rewrite H. Qed.
#[global] Instance ev_new_def n ps r : Ev (b_prog (w_new_func_def n ps r)).
Proof. apply ev_prog. intros w a w' H. apply (evolves_op (ONewFuncDef n ps r)); [done..|]. cbn [step]. by rewrite H. Qed.
#[global] Instance ev_new_decl n ps r : Ev (b_prog (w_new_func_decl n ps r)).
Proof. apply ev_prog. intros w a w' H. apply (evolves_op (ONewFuncDecl n ps r)); [done..|]. cbn [step]. by rewrite H. Qed.
#[global] Instance ev_name_local f v n : Ev (b_prog_ (w_name_local f v n)).
Proof. apply ev_prog_. intros w w' H. by apply (evolves_op (ONameLocal f v n)). Qed.
#[global] Instance ev_name_global v n : Ev (b_prog_ (w_name_global v n)).
Proof. apply ev_prog_. intros w w' H. by apply (evolves_op (ONameGlobal v n)). Qed.
#[global] Instance ev_push_bb f b : Ev (b_prog_ (w_push_bb f b)).
Proof. apply ev_prog_. intros w w' H%er_push_bb. exists []. simpl. by rewrite H. Qed.
#[global] Instance ev_push_inst f b v : Ev (b_prog_ (w_push_inst f b v)).
Proof. apply ev_prog_. intros w w' H%er_push_inst. exists []. simpl. by rewrite H. Qed.
#[global] Instance ev_ite {A} (b : bool) (m n : F A) : Ev m → Ev n → Ev (if b then m else n).
Proof. by destruct b. Qed.
#[global] Instance ev_dec {A} P `{Decision P} (m n : F A) : Ev m → Ev n → Ev (if decide P then m else n).
Proof. by case_decide. Qed.
#[global] Instance ev_map {A B} (f : A → F B) l : (∀ a, Ev (f a)) → Ev (b_map f l).
Proof. intros H. induction l; cbn [b_map]; apply _. Qed.
#[global] Instance ev_each {A} (f : A → F unit) l : (∀ a, Ev (f a)) → Ev (b_each f l).
Proof. intros H. induction l; cbn [b_each]; apply _. Qed.
#[global] Instance ev_b_ok {A} (m : F A) (k : A → F unit) : Ev m → (∀ a, Ev (k a)) → Ev (b_ok m k).
Proof.
  intros Um Uk s. unfold b_ok. pose proof (Um s) as U.
  destruct (m s) as [[v|x| |] s1]; simpl in *; try done. eapply evolves_trans; [done|]. apply Uk.
Qed.
#[global] Instance ev_init new t i : (∀ r, LReq r → Ev (new r)) → Ev (gen_init new t i).
Proof.
  intros Hn. revert i t. fix IH 1. intros [z| | |l] t; cbn [gen_init].
  1: case_match; [by apply Hn|apply ev_error].
  1-2: by apply Hn.
  assert (Hl : ∀ b, Ev (b_map (gen_init new b) l)).
  { intros b. induction l as [|x l IHl]; cbn [b_map]; [apply ev_ok|].
    apply ev_bind; [apply IH|]. intros. apply ev_bind; [apply IHl|]. intros; apply ev_ok. }
  clear IH. destruct t; apply _.
Qed.
#[global] Instance ev_local_init f t i : Ev (gen_local_init f t i).
Proof. apply ev_init. apply _. Qed.
#[global] Instance ev_value_ty f v : Ev (value_ty f v).
Proof. intros s. unfold value_ty. by apply ev_some. Qed.
#[global] Instance ev_bb_params_ty f v : Ev (bb_params_ty f v).
Proof. intros s. unfold bb_params_ty. by apply ev_some. Qed.
#[global] Instance ev_symbol bb sym : Ev (gen_symbol bb sym).
Proof. apply ev_still. intros s. unfold gen_symbol. by repeat case_match. Qed.
#[global] Instance ev_gen_bb n : Ev (gen_bb n).
Proof. apply ev_still. intros s. unfold gen_bb. by repeat case_match. Qed.
Ltac ev_go := repeat first [case_match | apply _].
#[global] Instance ev_sym_value f bb t sym : Ev (gen_sym_value f bb t sym).
Proof. apply _. Qed.
#[global] Instance ev_value f bb t v : Ev (gen_value f bb t v).
Proof. destruct v; apply _. Qed.
#[global] Instance ev_store_value f bb t v : Ev (gen_store_value f bb t v).
Proof. destruct v; apply _. Qed.
#[global] Instance ev_args f bb a t : Ev (gen_args f bb a t).
Proof. apply _. Qed.
Lemma ev_match_ty {A} (m : ty → F A) t : (∀ t, Ev (m t)) → Ev (m t).
Proof. done. Qed.
#[global] Instance ev_call f bb c args : Ev (gen_call f bb c args).
Proof.
  intros s. unfold gen_call. destruct (b_gfuncs s !! c); [|apply ev_error].
  match goal with |- evolves _ (b_world (?m s).2) => change (evolves (b_world s) (b_world (m s).2)); enough (Ev m) by auto end.
  apply _.
Qed.
#[global] Instance ev_inst f bb e : Ev (gen_inst f bb e).
Proof.
  destruct e; cbn [gen_inst]; try apply _.
  - unfold gen_load. repeat (apply ev_bind; [apply _|]; intros). case_match; apply _.
  - unfold gen_get_ptr. repeat (apply ev_bind; [apply _|]; intros). case_match; apply _.
  - unfold gen_get_elem_ptr. repeat (apply ev_bind; [apply _|]; intros). repeat case_match; apply _.
Qed.
#[global] Instance ev_def_symbol n : Ev (def_symbol n).
Proof. apply ev_still. intros s. unfold def_symbol. by repeat case_decide. Qed.
#[global] Instance ev_add_def b n v : Ev (add_def b n v).
Proof. apply ev_still. intros s. unfold add_def. by case_match. Qed.
#[global] Instance ev_stmt f bb r st : Ev (gen_stmt f bb r st).
Proof.
  destruct st; cbn [gen_stmt]; try apply _.
  - unfold gen_store. repeat (apply ev_bind; [apply _|]; intros). case_match; apply _.
  - unfold gen_return. repeat case_match; apply _.
  - by apply ev_still.
Qed.
#[global] Instance ev_push_step f n v : Ev (push_step f n v).
Proof. intros s. unfold push_step. case_match; [|apply evolves_refl]. apply ev_push_inst. Qed.
#[global] Instance ev_build_block f r b : Ev (build_block f r b).
Proof. rewrite build_block_eq. apply _. Qed.
#[global] Instance ev_param_defs l d : Ev (param_defs l d).
Proof. revert d. induction l as [|[n v] l IH]; intros d; cbn; apply _. Qed.
#[global] Instance ev_init_bb f b : Ev (init_bb f b).
Proof. unfold init_bb. apply _. Qed.
#[global] Instance ev_add_pred a b : Ev (add_pred a b).
Proof. apply ev_still. intros s. unfold add_pred. by case_match. Qed.
#[global] Instance ev_entry_step e a : Ev (entry_step e a).
Proof. apply ev_still. intros s. unfold entry_step. by case_match. Qed.
#[global] Instance ev_link_step b : Ev (link_step b).
Proof. unfold link_step. repeat case_match; apply _. Qed.
#[global] Instance ev_init_local f a l : Ev (init_local_bbs f a l).
Proof. rewrite init_local_eq. apply _. Qed.
#[global] Instance ev_arg_map l d : Ev (arg_map l d).
Proof. revert d. induction l as [|[n v] l IH]; intros d; cbn; apply _. Qed.
#[global] Instance ev_def_func n f : Ev (def_func n f).
Proof. apply ev_still. intros s. unfold def_func. by repeat case_decide. Qed.
#[global] Instance ev_def_gvar n f : Ev (def_gvar n f).
Proof. apply ev_still. intros s. unfold def_gvar. by repeat case_decide. Qed.
#[global] Instance ev_block_map l m : Ev (block_map l m).
Proof. revert m. induction l as [|b l IH]; intros m; cbn; apply _. Qed.
#[global] Instance ev_add_targets e m l : Ev (add_targets e m l).
Proof. induction l as [|b l IH]; cbn [add_targets]; apply _. Qed.
#[global] Instance ev_bfs n e m q V : Ev (bfs n e m q V).
Proof.
  revert q V. induction n as [|n IH]; intros q V; cbn [bfs]; [by apply ev_still|].
  destruct q as [|x q]; [apply _|]. apply ev_dec; [apply _|].
  repeat (apply ev_bind; [apply _|]; intros). case_match; apply _.
Qed.
#[global] Instance ev_block_list l : Ev (get_block_list l).
Proof.
  unfold get_block_list. repeat (apply ev_bind; [apply _|]; intros). case_match; apply _.
Qed.
#[global] Instance ev_fun_def n ps r l : Ev (build_fun_def n ps r l).
Proof. unfold build_fun_def. apply _. Qed.
#[global] Instance ev_fun_decl n ps r : Ev (build_fun_decl n ps r).
Proof. unfold build_fun_decl. apply _. Qed.

(** ** Global variables *)
Lemma by_new_global r s : global_req r = true → evolves_by 1 (b_world s) (b_world (new_global r s).2).
Proof.
  intros Hr. unfold new_global, b_prog. destruct (w_new_global r (b_world s)) as [[v w]|] eqn:E; simpl.
  - exists [ONewGlobal r]. split_and!; [by constructor| |done]. cbn [run].
    rewrite (er_step (ONewGlobal r) (b_world s) w); [done|done|]. cbn [step]. by rewrite E.
  - eapply evolves_mono; [|apply evolves_refl]. lia.
Qed.
Lemma by_bind {A B} j k (m : F A) (f : A → F B) s :
  evolves_by j (b_world s) (b_world (m s).2) →
  (∀ a s, evolves_by k (b_world s) (b_world (f a s).2)) →
  evolves_by (j + k) (b_world s) (b_world (mthen m f s).2).
Proof.
  intros H1 H2. unfold mthen. destruct (m s) as [[a|f'| |] s1]; simpl in *.
  1: by eapply evolves_by_trans.
  all: eapply evolves_mono; [|exact H1]; lia.
Qed.
Lemma by_error k {A} s : evolves_by k (b_world s) (b_world (b_error (A:=A) s).2).
Proof. eapply (evolves_mono 0); [lia|]. apply ev_error. Qed.
Lemma by_global_init i : ∀ t s, evolves_by (init_nodes i) (b_world s) (b_world (gen_global_init t i s).2).
Proof.
  unfold gen_global_init. revert i. fix IH 1. intros i t s.
  destruct i as [z| | |l]; cbn [gen_init init_nodes].
  1: { destruct (is_i32 t); [by apply by_new_global|apply by_error]. }
  1-2: by apply by_new_global.
  assert (Hl : ∀ b s, evolves_by (foldr (λ i n, init_nodes i + n)%N 0%N l) (b_world s)
     (b_world (b_map (gen_init new_global b) l s).2)).
  { intros b. clear s. induction l as [|x l IHl]; intros s; cbn [b_map foldr]; [apply ev_ok|].
    apply by_bind; [apply IH|]. intros a s1. eapply evolves_mono; [|apply by_bind; [apply IHl|]; intros; apply ev_ok].
    clear IH IHl. lia. }
  clear IH. destruct t as [| |b n|b|]; try apply by_error.
  - eapply evolves_mono; [|apply (by_bind 0 (foldr (λ i n, init_nodes i + n)%N 0%N l + 1))].
    + lia.
    + case_match; [apply ev_ok|apply ev_log].
    + intros _ s1. apply by_bind; [apply Hl|]. intros; by apply by_new_global.
  - eapply evolves_mono; [|apply (by_bind (foldr (λ i n, init_nodes i + n)%N 0%N l) 1)].
    + lia.
    + apply Hl.
    + intros; by apply by_new_global.
Qed.
Lemma by_build_on t s : evolves_by (globals_in t) (b_world s) (b_world (build_on t s).2).
Proof.
  destruct t; cbn [build_on globals_in]; try apply ev.
  unfold build_global. eapply evolves_mono; [|apply (by_bind 0 (init_nodes i + 1))]; [lia|apply ev|].
  intros t' s1. unfold b_ok. pose proof (by_global_init i t' s1) as H.
  destruct (gen_global_init t' i s1) as [[v|x| |] s2]; simpl in H |- *.
  2-4: eapply evolves_mono; [|exact H]; lia.
  eapply evolves_by_trans; [exact H|]. eapply evolves_mono; [|apply (by_bind 1 0)]; [lia|by apply by_new_global|].
  intros. apply ev.
Qed.
Lemma builds_evolves ts : ∀ s b, builds s ts b →
  evolves_by (foldr (λ t n, globals_in t + n)%N 0%N ts) (b_world s) (b_world b).
Proof.
  induction ts as [|t ts IH]; intros s b H; inversion H as [|? ? s1 ? ? H1 H2 H3]; subst; [apply evolves_refl|].
  cbn [foldr]. eapply evolves_by_trans; [|by apply IH].
  pose proof (by_build_on t s) as E. by rewrite H1 in E.
Qed.

(** ** Consequences *)
Lemma fe_tidy os : Forall fe_op os → ∀ w, throughout tidy os w.
Proof. induction 1 as [|o os Ho _ IH]; intros w; simpl; [done|]. split; [by destruct o|auto]. Qed.
Lemma fe_releases os : Forall fe_op os → ∀ w, throughout releases_globals os w.
Proof. induction 1 as [|o os Ho _ IH]; intros w; simpl; [done|]. split; [by destruct o|auto]. Qed.
Lemma fe_builders os : Forall fe_op os → ∀ w, throughout builders_only os w.
Proof. induction 1 as [|o os Ho _ IH]; intros w; simpl; [done|]. split; [by destruct o|auto]. Qed.
Lemma er_exact p : use_lists_exact (er_prog p) → use_lists_exact p.
Proof.
  intros (H1 & H2 & H3).
  assert (Hl : ∀ f fd, p_funcs p !! f = Some fd → p_funcs (er_prog p) !! f = Some (er_fd fd)).
  { intros f fd H. simpl. by rewrite lookup_fmap, H. }
  split_and!.
  - intros v d Hv u. rewrite (H1 v d Hv u). unfold global_user. simpl. split; intros [H|(f & fd & Hf & H)]; eauto.
    + rewrite lookup_fmap in Hf. apply fmap_Some in Hf as (fd' & Hf & ->). right. by exists f, fd'.
    + right. exists f, (er_fd fd). split; [|done]. by rewrite lookup_fmap, Hf.
  - intros f fd v d Hf Hv u. by apply (H2 f (er_fd fd) v d (Hl _ _ Hf)).
  - intros f fd v d Hf Hv u. by apply (H3 f (er_fd fd) v d (Hl _ _ Hf)).
Qed.
Lemma er_no_dangling p : no_dangling (er_prog p) → no_dangling p.
Proof.
  intros (H1 & H2 & H3).
  assert (Hl : ∀ f fd, p_funcs p !! f = Some fd → p_funcs (er_prog p) !! f = Some (er_fd fd)).
  { intros f fd H. simpl. by rewrite lookup_fmap, H. }
  split_and!; [done| |].
  - intros f fd u v Hf. apply (H2 f (er_fd fd) u v (Hl _ _ Hf)).
  - intros f fd u v Hf. apply (H3 f (er_fd fd) u v (Hl _ _ Hf)).
Qed.
Lemma er_well_typed p : well_typed (er_prog p) → well_typed p.
Proof.
  intros (H1 & H2). split; [done|]. intros f fd v d Hf Hv.
  assert (H : p_funcs (er_prog p) !! f = Some (er_fd fd)) by (simpl; by rewrite lookup_fmap, Hf).
  specialize (H2 f (er_fd fd) v d H Hv). destruct (is_param (v_kind d)); [done|].
  revert H2. apply has_type_ext; try done. simpl. intros x. rewrite lookup_fmap. by destruct (p_funcs p !! x).
Qed.
Lemma parses_det s ts s1 : parses s ts s1 → ∀ ts' s1', parses s ts' s1' → ts' = ts.
Proof.
  intros H. induction H as [s s1 H|s t s1 ts s2 H Hne Hp IH]; intros ts' s1' H';
    inversion H' as [? ? G|? ? ? ? ? G Gne Gp]; subst; [done|congruence|congruence|].
  rewrite H in G. injection G as -> ->. f_equal. by eapply IH.
Qed.
Lemma builds_consistent ts b : builds (bstate0 ids0 0 0) ts b →
  (foldr (λ t n, globals_in t + n) 0 ts < local_value_id_starts_from)%N →
  use_lists_exact (w_prog (b_world b)) ∧ no_dangling (w_prog (b_world b)) ∧ well_typed (w_prog (b_world b)).
Proof.
  intros Hb Hg. destruct (builds_evolves _ _ _ Hb) as (os & F & R & G).
  assert (E : er (b_world (bstate0 ids0 0 0)) = world0).
  { unfold er, er_prog. simpl. by rewrite fmap_empty. }
  rewrite E in R.
  assert (G' : (globals_created os < local_value_id_starts_from)%N) by lia.
  split_and!.
  - apply er_exact. apply (reach_exact os _ R); [by apply fe_tidy|by apply fe_releases|done].
  - apply er_no_dangling. apply (reach_no_dangling os _ R); [by apply fe_tidy|done].
  - apply er_well_typed. apply (reach_well_typed os _ R); [by apply fe_tidy|by apply fe_builders|done].
Qed.
Lemma read_consistent r p n b s ts s' :
  read_program r = (Rok p, n, b) → driver_new r = (Rok s, 0%N) → parses s ts s' →
  (foldr (λ t n, globals_in t + n) 0 ts < local_value_id_starts_from)%N →
  use_lists_exact p ∧ no_dangling p ∧ well_typed p.
Proof.
  intros Hr Hd Hp Hg. unfold read_program in Hr. rewrite Hd in Hr.
  destruct (generate_ok _ _ _ _ _ _ _ _ _ Hd Hr) as (_ & _ & s1 & ts' & s2 & E & Hp' & _ & _ & _ & Hb & _ & ->).
  injection E as <-. assert (ts' = ts) as -> by (by eapply parses_det). by eapply builds_consistent.
Qed.
