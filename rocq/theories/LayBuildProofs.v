(** The front end puts every instruction into one block, once: the layouts that it makes
    know the block of each instruction. *)
From Coq Require Import Lia ZifyBool ZifyNat ZifyN.
From Verif Require Import Base IdModel TypeModel IrModel LayoutModel BuilderModel WorldModel
  LexerModel ParserModel ParserSpec FrontModel FrontProofs FlowSpec FlowProofs BlockListProofs
  CleanProofs BuildCleanProofs FunCleanProofs DriverModel DriverSpec DriverProofs UsesSpec DfgSpec
  WorldSpec DfgProofs WorldProofs EqHistory TypingSpec TypingHistory HistoryProofs ParamProofs
  LayoutSpec LayoutProofs LlvmSpec.

Notation nlv w := (next_lv (w_ids w)).

(** [w'] has the layouts of [w], and newer identifiers. *)
Definition still (w w' : world) : Prop :=
  (nlv w < two32)%N → (nlv w' < two32)%N ∧ (ub (nlv w) ≤ ub (nlv w'))%N ∧
  ∀ f fd', p_funcs (w_prog w') !! f = Some fd' →
    f_layout fd' = layout0 ∨
    ∃ fd, p_funcs (w_prog w) !! f = Some fd ∧ f_layout fd' = f_layout fd.
Lemma still_refl w : still w w.
Proof. intros H. split_and!; [done|lia|]. intros f fd' Hf. right. by exists fd'. Qed.
Lemma still_trans w w1 w2 : still w w1 → still w1 w2 → still w w2.
Proof.
  intros H1 H2 H. destruct (H1 H) as (A1 & A2 & A3). destruct (H2 A1) as (B1 & B2 & B3).
  split_and!; [done|lia|]. intros f fd' Hf. destruct (B3 f fd' Hf) as [?|(fd & Hf1 & E)]; [by left|].
  rewrite E. by apply A3.
Qed.

Class St {A} (m : F A) : Prop := st : ∀ s, still (b_world s) (b_world (m s).2).
#[global] Instance st_bind {A B} (m : F A) (k : A → F B) : St m → (∀ a, St (k a)) → St (mthen m k).
Proof.
  intros Hm Hk s. unfold mthen. specialize (Hm s). destruct (m s) as [[a|f| |] s1]; simpl in *; try done.
  eapply still_trans; [done|]. apply Hk.
Qed.
Lemma st_still {A} (m : F A) : (∀ s, b_world (m s).2 = b_world s) → St m.
Proof. intros H s. rewrite H. apply still_refl. Qed.
#[global] Instance st_ok {A} (a : A) : St (mok a).
Proof. by apply st_still. Qed.
#[global] Instance st_get : St (mget (S:=bstate)).
Proof. by apply st_still. Qed.
#[global] Instance st_log : St b_log.
Proof. by apply st_still. Qed.
#[global] Instance st_error {A} : St (b_error (A:=A)).
Proof. by apply st_still. Qed.
#[global] Instance st_warn n : St (b_warn n).
Proof. by apply st_still. Qed.
#[global] Instance st_some {A} (o : option A) : St (b_some o).
Proof. apply st_still. intros s. by destruct o. Qed.
#[global] Instance st_panic {A} : St (A:=A) (λ s, (Rpanic, s)).
Proof. by apply st_still. Qed.
#[global] Instance st_upd_bbs f : St (b_upd (λ s, set_bbs (f s) s)).
Proof. by apply st_still. Qed.
#[global] Instance st_upd_syms f : St (b_upd (λ s, set_syms (f s) s)).
Proof. by apply st_still. Qed.
#[global] Instance st_upd_bbs' m : St (b_upd (set_bbs m)).
Proof. by apply st_still. Qed.
#[global] Instance st_upd_syms' m : St (b_upd (set_syms m)).
Proof. by apply st_still. Qed.
Lemma st_prog {A} (f : world → option (A * world)) :
  (∀ w a w', f w = Some (a, w') → still w w') → St (b_prog f).
Proof.
  intros H s. unfold b_prog. destruct (f (b_world s)) as [[a w]|] eqn:E; simpl; [by eapply H|apply still_refl].
Qed.
Lemma st_prog_ (f : world → option world) :
  (∀ w w', f w = Some w' → still w w') → St (b_prog_ f).
Proof.
  intros H s. unfold b_prog_. destruct (f (b_world s)) as [w|] eqn:E; simpl; [by eapply H|apply still_refl].
Qed.

(** ** The calls *)
Lemma still_dfg w f fd i' gs' g' : p_funcs (w_prog w) !! f = Some fd →
  ((nlv w < two32)%N → (next_lv i' < two32)%N ∧ (ub (nlv w) ≤ ub (next_lv i'))%N) →
  still w (World i' (set_func (set_values (w_prog w) gs') f (set_dfg fd g'))).
Proof.
  intros Hf Hi H. destruct (Hi H) as [H1 H2]. split_and!; [done..|]. simpl. intros x fd' Hx. right.
  apply lookup_insert_Some in Hx as [[<- <-]|[_ Hx]]; [by exists fd|by exists fd'].
Qed.
Lemma new_local_fresh f r w v w' : w_new_local f r w = Some (v, w') →
  still w w' ∧ ((nlv w < two32)%N → (ub (nlv w) ≤ v < ub (nlv w'))%N).
Proof.
  intros H. apply on_dfg_inv in H as (fd & i' & gs' & g' & Hf & H & ->).
  apply bind_Some in H as (d & _ & H). unfold dfg_new_value_data in H.
  apply bind_Some in H as ([v1 i1] & Hi & H). apply bind_Some in H as ([gs1 vs1] & _ & H).
  apply bind_Some in H as (bs1 & _ & H). injection H as <- <- _ _.
  apply next_local_spec in Hi as (-> & Hne & ->).
  assert (E : ub (nlv w) = nlv w) by (unfold ub; by destruct (N.eqb_spec (nlv w) 0)).
  split.
  - apply still_dfg; [done|]. simpl. intros Hlt. split; [by apply N.mod_lt|]. rewrite ub_next by done. lia.
  - simpl. intros Hlt. rewrite ub_next by done. lia.
Qed.
#[global] Instance st_new_local f r : St (new_local f r).
Proof. apply st_prog. intros w a w' H. by apply new_local_fresh in H as [? _]. Qed.
#[global] Instance st_new_bb f n ps : St (b_prog (w_new_bb f n ps)).
Proof.
  apply st_prog. intros w a w' H.
  apply on_dfg_inv in H as (fd & i' & gs' & g' & Hf & H & ->).
  unfold basic_block_with_param_names in H.
  apply bind_Some in H as ([] & _ & H). apply bind_Some in H as ([] & _ & H).
  apply bind_Some in H as ([[[vs i1] gs1] g1] & Ha & H).
  apply bind_Some in H as ([[b1 i2] g2] & Hb & H). injection H as <- <- <- <-.
  apply still_dfg; [done|]. intros Hlt.
  apply new_block_args_exact in Ha as (_ & _ & _ & (R1 & R2 & _) & _); [|done].
  unfold dfg_new_bb_data in Hb. apply bind_Some in Hb as ([b2 i3] & Hid & Hb).
  injection Hb as _ <- _. by apply next_bb_spec in Hid as (_ & _ & ->).
Qed.
Lemma still_func w f fd i' p' : f_layout fd = layout0 → p_funcs p' = <[f := fd]> (p_funcs (w_prog w)) →
  ((nlv w < two32)%N → (next_lv i' < two32)%N ∧ (ub (nlv w) ≤ ub (next_lv i'))%N) →
  still w (World i' p').
Proof.
  intros Hl Hp Hi H. destruct (Hi H) as [H1 H2]. split_and!; [done..|]. simpl. rewrite Hp. intros x fd' Hx.
  apply lookup_insert_Some in Hx as [[<- <-]|[_ Hx]]; [by left|right; by exists fd'].
Qed.
#[global] Instance st_new_def n ps r : St (b_prog (w_new_func_def n ps r)).
Proof.
  apply st_prog. intros w a w' H. unfold w_new_func_def, prog_new_func_def, prog_new_func in H.
  apply bind_Some in H as ([[f i1] p1] & H & E). injection E as <- <-.
  apply bind_Some in H as ([d i2] & H1 & H). apply bind_Some in H as ([f' i3] & H2 & E). injection E as <- <- <-.
  unfold fdata_with_param_names in H1.
  apply bind_Some in H1 as ([] & _ & H1). apply bind_Some in H1 as ([[vs i4] g4] & Ha & E). injection E as <- <-.
  eapply still_func; [|done|]; [done|]. intros Hlt.
  apply new_func_args_exact in Ha as (_ & (R1 & R2 & _) & _); [|done].
  by apply next_func_spec in H2 as (_ & _ & ->).
Qed.
#[global] Instance st_new_decl n ps r : St (b_prog (w_new_func_decl n ps r)).
Proof.
  apply st_prog. intros w a w' H. unfold w_new_func_decl, prog_new_func_decl, prog_new_func in H.
  apply bind_Some in H as ([[f i1] p1] & H & E). injection E as <- <-.
  apply bind_Some in H as (d & H1 & H). apply bind_Some in H as ([f' i3] & H2 & E). injection E as <- <- <-.
  unfold fdata_new_decl in H1. apply bind_Some in H1 as ([] & _ & E). injection E as <-.
  eapply still_func; [|done|]; [done|]. intros Hlt.
  apply next_func_spec in H2 as (_ & _ & ->). simpl. split; [done|lia].
Qed.
#[global] Instance st_name_local f v n : St (b_prog_ (w_name_local f v n)).
Proof.
  apply st_prog_. intros w w' H. unfold w_name_local in H.
  apply bind_Some in H as ([[] w1] & H & E). injection E as ->.
  apply on_dfg_inv in H as (fd & i' & gs' & g' & Hf & H & ->).
  apply bind_Some in H as (g1 & _ & E). injection E as <- <- <-.
  apply still_dfg; [done|]. intros ?; split; [done|lia].
Qed.
Lemma still_funcs w i' p' : next_lv i' = nlv w → p_funcs p' = p_funcs (w_prog w) → still w (World i' p').
Proof.
  intros E1 E2 H. simpl. rewrite E1, E2. split_and!; [done|lia|]. intros f fd' Hf. right. by exists fd'.
Qed.
#[global] Instance st_name_global v n : St (b_prog_ (w_name_global v n)).
Proof.
  apply st_prog_. intros w w' H. unfold w_name_global, prog_set_value_name in H.
  apply bind_Some in H as (p1 & H & E). injection E as <-.
  apply bind_Some in H as (d & Hd & H). apply bind_Some in H as (d' & Hd' & E). injection E as <-.
  by apply still_funcs.
Qed.
#[global] Instance st_new_global r : St (new_global r).
Proof.
  apply st_prog. intros w a w' H.
  unfold w_new_global, w_new_global_data, global_insert_value, prog_new_value_data in H.
  apply bind_Some in H as (d & _ & H). apply bind_Some in H as ([[v i1] p1] & H & E). injection E as <- <-.
  apply bind_Some in H as ([[v' i'] p'] & H & E). injection E as -> -> <-.
  apply bind_Some in H as ([v' i'] & Hi & H). apply bind_Some in H as (gs & Hg & E). injection E as -> -> <-.
  unfold next_global_value_id in Hi. destruct (fetch_add1 (next_gv (w_ids w))) as [id c].
  apply bind_Some in Hi as (? & _ & E). injection E as _ <-.
  apply still_funcs; [done|]. by destruct (is_global_alloc (v_kind d)).
Qed.

(** ** The functions of the front end that leave layouts alone *)
#[global] Instance st_ite {A} (b : bool) (m n : F A) : St m → St n → St (if b then m else n).
Proof. by destruct b. Qed.
#[global] Instance st_dec {A} P `{Decision P} (m n : F A) : St m → St n → St (if decide P then m else n).
Proof. by case_decide. Qed.
#[global] Instance st_map {A B} (f : A → F B) l : (∀ a, St (f a)) → St (b_map f l).
Proof. intros H. induction l; cbn [b_map]; apply _. Qed.
#[global] Instance st_each {A} (f : A → F unit) l : (∀ a, St (f a)) → St (b_each f l).
Proof. intros H. induction l; cbn [b_each]; apply _. Qed.
#[global] Instance st_b_ok {A} (m : F A) (k : A → F unit) : St m → (∀ a, St (k a)) → St (b_ok m k).
Proof.
  intros Um Uk s. unfold b_ok. pose proof (Um s) as U.
  destruct (m s) as [[v|x| |] s1]; simpl in *; try done. eapply still_trans; [done|]. apply Uk.
Qed.
#[global] Instance st_init new t i : (∀ r, St (new r)) → St (gen_init new t i).
Proof.
  intros Hn. revert i t. fix IH 1. intros [z| | |l] t; cbn [gen_init].
  1: case_match; [by apply Hn|apply st_error].
  1-2: by apply Hn.
  assert (Hl : ∀ b, St (b_map (gen_init new b) l)).
  { intros b. induction l as [|x l IHl]; cbn [b_map]; [apply st_ok|].
    apply st_bind; [apply IH|]. intros. apply st_bind; [apply IHl|]. intros; apply st_ok. }
  clear IH. destruct t; apply _.
Qed.
#[global] Instance st_local_init f t i : St (gen_local_init f t i).
Proof. apply st_init. apply _. Qed.
#[global] Instance st_global_init t i : St (gen_global_init t i).
Proof. apply st_init. apply _. Qed.
#[global] Instance st_value_ty f v : St (value_ty f v).
Proof. intros s. unfold value_ty. by apply st_some. Qed.
#[global] Instance st_bb_params_ty f v : St (bb_params_ty f v).
Proof. intros s. unfold bb_params_ty. by apply st_some. Qed.
#[global] Instance st_symbol bb sym : St (gen_symbol bb sym).
Proof. apply st_still. intros s. unfold gen_symbol. by repeat case_match. Qed.
#[global] Instance st_gen_bb n : St (gen_bb n).
Proof. apply st_still. intros s. unfold gen_bb. by repeat case_match. Qed.
#[global] Instance st_sym_value f bb t sym : St (gen_sym_value f bb t sym).
Proof. apply _. Qed.
#[global] Instance st_value f bb t v : St (gen_value f bb t v).
Proof. destruct v; apply _. Qed.
#[global] Instance st_store_value f bb t v : St (gen_store_value f bb t v).
Proof. destruct v; apply _. Qed.
#[global] Instance st_args f bb a t : St (gen_args f bb a t).
Proof. apply _. Qed.
#[global] Instance st_def_symbol n : St (def_symbol n).
Proof. apply st_still. intros s. unfold def_symbol. by repeat case_decide. Qed.
#[global] Instance st_add_def b n v : St (add_def b n v).
Proof. apply st_still. intros s. unfold add_def. by case_match. Qed.
#[global] Instance st_param_defs l d : St (param_defs l d).
Proof. revert d. induction l as [|[n v] l IH]; intros d; cbn; apply _. Qed.
#[global] Instance st_add_pred a b : St (add_pred a b).
Proof. apply st_still. intros s. unfold add_pred. by case_match. Qed.
#[global] Instance st_entry_step e a : St (entry_step e a).
Proof. apply st_still. intros s. unfold entry_step. by case_match. Qed.
#[global] Instance st_link_step b : St (link_step b).
Proof. unfold link_step. repeat case_match; apply _. Qed.
#[global] Instance st_arg_map l d : St (arg_map l d).
Proof. revert d. induction l as [|[n v] l IH]; intros d; cbn; apply _. Qed.
#[global] Instance st_def_func n f : St (def_func n f).
Proof. apply st_still. intros s. unfold def_func. by repeat case_decide. Qed.
#[global] Instance st_def_gvar n f : St (def_gvar n f).
Proof. apply st_still. intros s. unfold def_gvar. by repeat case_decide. Qed.
#[global] Instance st_block_map l m : St (block_map l m).
Proof. revert m. induction l as [|b l IH]; intros m; cbn; apply _. Qed.
#[global] Instance st_add_targets e m l : St (add_targets e m l).
Proof. induction l as [|b l IH]; cbn [add_targets]; apply _. Qed.
#[global] Instance st_bfs n e m q V : St (bfs n e m q V).
Proof.
  revert q V. induction n as [|n IH]; intros q V; cbn [bfs]; [by apply st_still|].
  destruct q as [|x q]; [apply _|]. apply st_dec; [apply _|].
  repeat (apply st_bind; [apply _|]; intros). case_match; apply _.
Qed.
#[global] Instance st_block_list l : St (get_block_list l).
Proof.
  unfold get_block_list. repeat (apply st_bind; [apply _|]; intros). case_match; apply _.
Qed.
#[global] Instance st_fun_decl n ps r : St (build_fun_decl n ps r).
Proof. unfold build_fun_decl. apply _. Qed.
#[global] Instance st_build_global n t i : St (build_global n t i).
Proof. unfold build_global. apply _. Qed.

(** ** A statement makes a new instruction *)
Class Fresh (m : F value) : Prop := fresh_st : ∀ s, still (b_world s) (b_world (m s).2) ∧
  ∀ v s', m s = (Rok v, s') → (nlv (b_world s) < two32)%N →
    (ub (nlv (b_world s)) ≤ v < ub (nlv (b_world s')))%N.
#[global] Instance fresh_bind {A} (m : F A) (k : A → F value) :
  St m → (∀ a, Fresh (k a)) → Fresh (mthen m k).
Proof.
  intros Hm Hk s. unfold mthen. pose proof (Hm s) as H. destruct (m s) as [[a|f| |] s1] eqn:E; simpl in *; try done.
  destruct (Hk a s1) as [K1 K2]. split; [by eapply still_trans|].
  intros v s' Hv Hlt. destruct (H Hlt) as (H1 & H2 & _). specialize (K2 v s' Hv H1). lia.
Qed.
Lemma fresh_none (m : F value) : St m → (∀ s v s', m s ≠ (Rok v, s')) → Fresh m.
Proof. intros Hm H s. split; [apply Hm|]. intros v s' Hv. by apply H in Hv. Qed.
#[global] Instance fresh_error : Fresh b_error.
Proof. by apply fresh_none; [apply _|]. Qed.
#[global] Instance fresh_new f r : Fresh (new_local f r).
Proof.
  intros s. split; [apply st_new_local|]. unfold new_local, b_prog. intros v s' H.
  destruct (w_new_local f r (b_world s)) as [[v1 w1]|] eqn:E; [|done]. injection H as <- <-.
  by apply new_local_fresh in E as [_ ?].
Qed.
#[global] Instance fresh_ite (b : bool) m n : Fresh m → Fresh n → Fresh (if b then m else n).
Proof. by destruct b. Qed.
#[global] Instance fresh_call f bb c args : Fresh (gen_call f bb c args).
Proof.
  intros s. unfold gen_call. destruct (b_gfuncs s !! c); [|apply fresh_error].
  match goal with |- still _ (b_world (?m s).2) ∧ _ => enough (Fresh m) as H by apply H end.
  apply _.
Qed.
#[global] Instance fresh_inst f bb e : Fresh (gen_inst f bb e).
Proof.
  destruct e; cbn [gen_inst]; try apply _.
  - unfold gen_load. repeat (apply fresh_bind; [apply _|]; intros). case_match; apply _.
  - unfold gen_get_ptr. repeat (apply fresh_bind; [apply _|]; intros). case_match; apply _.
  - unfold gen_get_elem_ptr. repeat (apply fresh_bind; [apply _|]; intros). repeat case_match; apply _.
Qed.
Lemma fresh_keep (m : F value) (k : value → F value) :
  Fresh m → (∀ a, St (k a)) → (∀ a s v s', k a s = (Rok v, s') → v = a) → Fresh (mthen m k).
Proof.
  intros Hm Hk Hv s. unfold mthen. destruct (Hm s) as [H1 H2].
  destruct (m s) as [[a|f| |] s1] eqn:E; simpl in *; try done.
  pose proof (Hk a s1) as K. split; [by eapply still_trans|].
  intros v s' E' Hlt. pose proof (Hv _ _ _ _ E') as ->. rewrite E' in K. simpl in K.
  specialize (H2 a s1 eq_refl Hlt). destruct (H1 Hlt) as (A1 & A2 & _). destruct (K A1) as (B1 & B2 & _).
  lia.
Qed.
#[global] Instance fresh_stmt f bb r st : Fresh (gen_stmt f bb r st).
Proof.
  destruct st; cbn [gen_stmt]; try apply _.
  - apply fresh_bind; [apply _|]. intros _. apply fresh_keep; [apply _|apply _|].
    intros a s v s' H. unfold mthen in H. destruct (value_ty f a s) as [[t| | |] s1]; try done.
    destruct (is_unit t); [done|]. match type of H with context [match ?m s1 with _ => _ end] => destruct (m s1) as [[[]| | |] s2]; try done end.
    match type of H with context [match ?m s2 with _ => _ end] => destruct (m s2) as [[[]| | |] s3]; try done end. by injection H as -> _.
  - unfold gen_store. repeat (apply fresh_bind; [apply _|]; intros). case_match; apply _.
  - unfold gen_return. repeat case_match; apply _.
  - apply fresh_none; [by apply st_still|done].
Qed.

(** ** Layouts *)
Definition lok (w : world) : Prop :=
  (nlv w < two32)%N ∧
  ∀ f fd, p_funcs (w_prog w) !! f = Some fd →
    linv (f_layout fd) ∧ ∀ u b, in_block (f_layout fd) u b → (u < ub (nlv w))%N.
Lemma lok_still w w' : still w w' → lok w → lok w'.
Proof.
  intros H [H1 H2]. destruct (H H1) as (A1 & A2 & A3). split; [done|].
  intros f fd' Hf. destruct (A3 f fd' Hf) as [->|(fd & Hf' & ->)].
  - split; [apply linv0|]. intros u b (is & Hb & _). inversion Hb.
  - destruct (H2 f fd Hf') as [L1 L2]. split; [done|]. intros u b Hb. apply L2 in Hb. lia.
Qed.
Class Lk {A} (m : F A) : Prop := lk : ∀ s, lok (b_world s) → lok (b_world (m s).2).
#[global] Instance lk_st {A} (m : F A) : St m → Lk m | 10.
Proof. intros H s. by apply lok_still. Qed.
#[global] Instance lk_bind {A B} (m : F A) (k : A → F B) : Lk m → (∀ a, Lk (k a)) → Lk (mthen m k).
Proof.
  intros Hm Hk s Hs. unfold mthen. specialize (Hm s Hs). destruct (m s) as [[a|f| |] s1]; simpl in *; try done.
  by apply Hk.
Qed.
#[global] Instance lk_each {A} (f : A → F unit) l : (∀ a, Lk (f a)) → Lk (b_each f l).
Proof. intros H. induction l; cbn [b_each]; apply _. Qed.
Lemma lok_layout w f fd l : lok w → p_funcs (w_prog w) !! f = Some fd → linv l →
  (∀ u b, in_block l u b → (u < ub (nlv w))%N) →
  lok (World (w_ids w) (set_func (w_prog w) f (set_layout fd l))).
Proof.
  intros [H1 H2] Hf Hl Hu. split; [done|]. simpl. intros x fd' Hx.
  apply lookup_insert_Some in Hx as [[<- <-]|[_ Hx]]; [by split|by apply (H2 x)].
Qed.
#[global] Instance lk_push_bb f b : Lk (b_prog_ (w_push_bb f b)).
Proof.
  intros s Hs. unfold b_prog_. destruct (w_push_bb f b (b_world s)) as [w|] eqn:E; simpl; [|done].
  unfold w_push_bb in E. apply bind_Some in E as (fd & Hf & E). apply bind_Some in E as ([l|] & Hl & E); [|done].
  injection E as <-. destruct (proj2 Hs f fd Hf) as [L1 L2]. apply (lok_layout _ f fd); [done..| |].
  - apply (lstep_linv (LBbInsert Back b) _ _ L1 I). simpl. by rewrite Hl.
  - intros u c (is & Hc & Hu). unfold bb_insert in Hl. destruct (has_key fst b (l_bbs (f_layout fd))); [done|].
    simpl in Hl. injection Hl as <-. simpl in Hc. apply elem_of_app in Hc as [Hc|Hc].
    + apply (L2 u c). by exists is.
    + apply elem_of_list_singleton in Hc. injection Hc as -> ->. inversion Hu.
Qed.
Lemma push_inst_lok f b v w w' : lok w → w_push_inst f b v w = Some w' →
  (v < ub (nlv w))%N →
  (∀ fd c, p_funcs (w_prog w) !! f = Some fd → ¬ in_block (f_layout fd) v c) → lok w'.
Proof.
  intros Hs E Hv Hd. unfold w_push_inst in E. apply bind_Some in E as (fd & Hf & E).
  apply bind_Some in E as ([l|] & Hl & E); [|done].
  injection E as <-. destruct (proj2 Hs f fd Hf) as [L1 L2]. apply (lok_layout _ f fd); [done..| |].
  - apply (lstep_linv (LInsert Back b v) _ _ L1); [intros c; by apply Hd|]. simpl. by rewrite Hl.
  - intros u c (is & Hc & Hu). unfold inst_insert in Hl.
    destruct (find_bb b (l_bbs (f_layout fd))) as [is1|] eqn:Hb; [|done].
    simpl in Hl. destruct (has_key id v is1); [done|]. simpl in Hl. injection Hl as <-. simpl in Hc.
    apply elem_set_bb in Hc as [[-> ->]|[_ Hc]].
    + apply elem_of_app in Hu as [Hu|Hu%elem_of_list_singleton].
      * apply (L2 u b). exists is1. split; [by apply find_bb_elem|done].
      * by subst.
    + apply (L2 u c). by exists is.
    + apply L1.
    + by exists is1.
Qed.
#[global] Instance lk_step f name r st :
  Lk (b_ok (gen_stmt f name r st) (push_step f name)).
Proof.
  intros s Hs. unfold b_ok. destruct (fresh_stmt f name r st s) as [H1 H2].
  pose proof (lok_still _ _ H1 Hs) as Hs1.
  destruct (gen_stmt f name r st s) as [[v|x| |] s1] eqn:E; simpl in *; try done.
  specialize (H2 v s1 eq_refl (proj1 Hs)). destruct (H1 (proj1 Hs)) as (_ & _ & A3).
  unfold push_step. destruct (b_bbs s1 !! name) as [info|]; [|done].
  unfold b_prog_. destruct (w_push_inst f (bi_bb info) v (b_world s1)) as [w|] eqn:Ew; [|done]. simpl.
  eapply push_inst_lok; [exact Hs1|exact Ew|lia|].
  intros fd c Hf Hc. destruct (A3 f fd Hf) as [El|(fd0 & Hf0 & El)]; rewrite El in Hc.
  - destruct Hc as (is & Hc & _). inversion Hc.
  - apply (proj2 (proj2 Hs f fd0 Hf0)) in Hc. lia.
Qed.
#[global] Instance lk_build_block f r b : Lk (build_block f r b).
Proof. rewrite build_block_eq. apply _. Qed.
#[global] Instance lk_init_bb f b : Lk (init_bb f b).
Proof. unfold init_bb. apply _. Qed.
#[global] Instance lk_init_local f a l : Lk (init_local_bbs f a l).
Proof. rewrite init_local_eq. apply _. Qed.
#[global] Instance lk_fun_def n ps r l : Lk (build_fun_def n ps r l).
Proof. unfold build_fun_def. apply _. Qed.
#[global] Instance lk_build_on t : Lk (build_on t).
Proof. destruct t; cbn [build_on]; apply _. Qed.
Lemma builds_lok ts : ∀ s b, builds s ts b → lok (b_world s) → lok (b_world b).
Proof.
  induction ts as [|t ts IH]; intros s b H Hs; inversion H as [|? ? s1 ? ? H1 H2 H3]; subst; [done|].
  eapply IH; [done|]. pose proof (lk_build_on t s Hs) as E. by rewrite H1 in E.
Qed.
Lemma read_parents r p n b : read_program r = (Rok p, n, b) → parents_exact p.
Proof.
  intros Hr. unfold read_program in Hr. destruct (driver_new r) as [d e] eqn:Hd.
  destruct (generate_ok _ _ _ _ _ _ _ _ _ Hd Hr) as (-> & _ & s1 & ts' & s2 & -> & Hp' & _ & _ & _ & Hb & _ & ->).
  apply builds_lok in Hb as [_ H].
  - intros f fd u c Hf. by apply (H f fd Hf).
  - split; [done|]. simpl. intros f fd. by rewrite lookup_empty.
Qed.
