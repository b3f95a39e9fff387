(** Invariants of the front end: what the calls of the programming interface keep, the
    functions of the front end keep. *)
From Coq Require Import Lia ZifyBool ZifyNat ZifyN.
From Verif Require Import Base IdModel TypeModel IrModel LayoutModel BuilderModel WorldModel
  LexerModel ParserModel ParserSpec FrontModel FrontProofs FlowSpec FlowProofs BlockListProofs
  CleanProofs BuildCleanProofs FunCleanProofs DriverModel DriverSpec DriverProofs WorldSpec
  HistoryProofs.

Class Pres {A} (P : world → Prop) (m : F A) : Prop :=
  pres : ∀ s, P (b_world s) → P (b_world (m s).2).

Section general.
Context (P : world → Prop).
#[global] Instance pr_bind {A B} (m : F A) (k : A → F B) : Pres P m → (∀ a, Pres P (k a)) → Pres P (mthen m k).
Proof.
  intros Hm Hk s Hs. unfold mthen. specialize (Hm s Hs). destruct (m s) as [[a|f| |] s1]; simpl in *; try done.
  by apply Hk.
Qed.
Lemma pr_still {A} (m : F A) : (∀ s, b_world (m s).2 = b_world s) → Pres P m.
Proof. intros H s. by rewrite H. Qed.
#[global] Instance pr_ok {A} (a : A) : Pres P (mok a).
Proof. by apply pr_still. Qed.
#[global] Instance pr_get : Pres P (mget (S:=bstate)).
Proof. by apply pr_still. Qed.
#[global] Instance pr_log : Pres P b_log.
Proof. by apply pr_still. Qed.
#[global] Instance pr_error {A} : Pres P (b_error (A:=A)).
Proof. by apply pr_still. Qed.
#[global] Instance pr_warn n : Pres P (b_warn n).
Proof. by apply pr_still. Qed.
#[global] Instance pr_some {A} (o : option A) : Pres P (b_some o).
Proof. apply pr_still. intros s. by destruct o. Qed.
#[global] Instance pr_panic {A} : Pres (A:=A) P (λ s, (Rpanic, s)).
Proof. by apply pr_still. Qed.
#[global] Instance pr_upd_bbs f : Pres P (b_upd (λ s, set_bbs (f s) s)).
Proof. by apply pr_still. Qed.
#[global] Instance pr_upd_syms f : Pres P (b_upd (λ s, set_syms (f s) s)).
Proof. by apply pr_still. Qed.
#[global] Instance pr_upd_bbs' m : Pres P (b_upd (set_bbs m)).
Proof. by apply pr_still. Qed.
#[global] Instance pr_upd_syms' m : Pres P (b_upd (set_syms m)).
Proof. by apply pr_still. Qed.
Lemma pr_prog {A} (f : world → option (A * world)) :
  (∀ w a w', f w = Some (a, w') → P w → P w') → Pres P (b_prog f).
Proof.
  intros H s. unfold b_prog. destruct (f (b_world s)) as [[a w]|] eqn:E; simpl; [by eapply H|done].
Qed.
Lemma pr_prog_ (f : world → option world) :
  (∀ w w', f w = Some w' → P w → P w') → Pres P (b_prog_ f).
Proof.
  intros H s. unfold b_prog_. destruct (f (b_world s)) as [w|] eqn:E; simpl; [by eapply H|done].
Qed.
#[global] Instance pr_ite {A} (b : bool) (m n : F A) : Pres P m → Pres P n → Pres P (if b then m else n).
Proof. by destruct b. Qed.
#[global] Instance pr_dec {A} Q `{Decision Q} (m n : F A) : Pres P m → Pres P n → Pres P (if decide Q then m else n).
Proof. by case_decide. Qed.
#[global] Instance pr_map {A B} (f : A → F B) l : (∀ a, Pres P (f a)) → Pres P (b_map f l).
Proof. intros H. induction l; cbn [b_map]; apply _. Qed.
#[global] Instance pr_each {A} (f : A → F unit) l : (∀ a, Pres P (f a)) → Pres P (b_each f l).
Proof. intros H. induction l; cbn [b_each]; apply _. Qed.
#[global] Instance pr_b_ok {A} (m : F A) (k : A → F unit) : Pres P m → (∀ a, Pres P (k a)) → Pres P (b_ok m k).
Proof.
  intros Um Uk s Hs. unfold b_ok. pose proof (Um s Hs) as U.
  destruct (m s) as [[v|x| |] s1]; simpl in *; try done. by apply Uk.
Qed.
#[global] Instance pr_init (Q : breq → Prop) new t i :
  (∀ z, Q (BInteger z)) → (∀ t, Q (BUndef t)) → (∀ t, Q (BZeroInit t)) → (∀ l, Q (BAggregate l)) →
  (∀ r, Q r → Pres P (new r)) → Pres P (gen_init new t i).
Proof.
  intros Q1 Q2 Q3 Q4 Hn. revert i t. fix IH 1. intros [z| | |l] t; cbn [gen_init].
  1: case_match; [by apply Hn|apply pr_error].
  1-2: by apply Hn.
  assert (Hl : ∀ b, Pres P (b_map (gen_init new b) l)).
  { intros b. induction l as [|x l IHl]; cbn [b_map]; [apply pr_ok|].
    apply pr_bind; [apply IH|]. intros. apply pr_bind; [apply IHl|]. intros; apply pr_ok. }
  clear IH. assert (Hg : ∀ vs, Pres P (new (BAggregate vs))) by auto.
  destruct t; apply _.
Qed.
#[global] Instance pr_value_ty f v : Pres P (value_ty f v).
Proof. intros s. unfold value_ty. by apply pr_some. Qed.
#[global] Instance pr_bb_params_ty f v : Pres P (bb_params_ty f v).
Proof. intros s. unfold bb_params_ty. by apply pr_some. Qed.
#[global] Instance pr_symbol bb sym : Pres P (gen_symbol bb sym).
Proof. apply pr_still. intros s. unfold gen_symbol. by repeat case_match. Qed.
#[global] Instance pr_gen_bb n : Pres P (gen_bb n).
Proof. apply pr_still. intros s. unfold gen_bb. by repeat case_match. Qed.
#[global] Instance pr_sym_value f bb t sym : Pres P (gen_sym_value f bb t sym).
Proof. apply _. Qed.
#[global] Instance pr_def_symbol n : Pres P (def_symbol n).
Proof. apply pr_still. intros s. unfold def_symbol. by repeat case_decide. Qed.
#[global] Instance pr_add_def b n v : Pres P (add_def b n v).
Proof. apply pr_still. intros s. unfold add_def. by case_match. Qed.
#[global] Instance pr_param_defs l d : Pres P (param_defs l d).
Proof. revert d. induction l as [|[n v] l IH]; intros d; cbn; apply _. Qed.
#[global] Instance pr_add_pred a b : Pres P (add_pred a b).
Proof. apply pr_still. intros s. unfold add_pred. by case_match. Qed.
#[global] Instance pr_entry_step e a : Pres P (entry_step e a).
Proof. apply pr_still. intros s. unfold entry_step. by case_match. Qed.
#[global] Instance pr_link_step b : Pres P (link_step b).
Proof. unfold link_step. repeat case_match; apply _. Qed.
#[global] Instance pr_arg_map l d : Pres P (arg_map l d).
Proof. revert d. induction l as [|[n v] l IH]; intros d; cbn; apply _. Qed.
#[global] Instance pr_def_func n f : Pres P (def_func n f).
Proof. apply pr_still. intros s. unfold def_func. by repeat case_decide. Qed.
#[global] Instance pr_def_gvar n f : Pres P (def_gvar n f).
Proof. apply pr_still. intros s. unfold def_gvar. by repeat case_decide. Qed.
#[global] Instance pr_block_map l m : Pres P (block_map l m).
Proof. revert m. induction l as [|b l IH]; intros m; cbn; apply _. Qed.
#[global] Instance pr_add_targets e m l : Pres P (add_targets e m l).
Proof. induction l as [|b l IH]; cbn [add_targets]; apply _. Qed.
#[global] Instance pr_bfs n e m q V : Pres P (bfs n e m q V).
Proof.
  revert q V. induction n as [|n IH]; intros q V; cbn [bfs]; [by apply pr_still|].
  destruct q as [|x q]; [apply _|]. apply pr_dec; [apply _|].
  repeat (apply pr_bind; [apply _|]; intros). case_match; apply _.
Qed.
#[global] Instance pr_block_list l : Pres P (get_block_list l).
Proof.
  unfold get_block_list. repeat (apply pr_bind; [apply _|]; intros). case_match; apply _.
Qed.
End general.

(** ** In a function *)
(** The calls that only concern the function [f] keep [P]. *)
Record kept_in (f : func) (P : world → Prop) : Prop := {
  ki_local : ∀ r w v w', local_req r = true → w_new_local f r w = Some (v, w') → P w → P w';
  ki_bb : ∀ n ps w b w', w_new_bb f n ps w = Some (b, w') → P w → P w';
  ki_name : ∀ v n w w', w_name_local f v n w = Some w' → P w → P w';
  ki_push_bb : ∀ b w w', w_push_bb f b w = Some w' → P w → P w';
  ki_push_inst : ∀ b v w w', w_push_inst f b v w = Some w' → P w → P w';
}.
Section inside.
Context (P : world → Prop) (f : func) (K : kept_in f P).
Lemma in_new_local r : LReq r → Pres P (new_local f r).
Proof. intros Hr. apply pr_prog. intros w a w'. by apply (ki_local _ _ K). Qed.
Lemma in_new_bb n ps : Pres P (b_prog (w_new_bb f n ps)).
Proof. apply pr_prog. intros w a w'. by apply (ki_bb _ _ K). Qed.
Lemma in_name v n : Pres P (b_prog_ (w_name_local f v n)).
Proof. apply pr_prog_. intros w w'. by apply (ki_name _ _ K). Qed.
Lemma in_push_bb b : Pres P (b_prog_ (w_push_bb f b)).
Proof. apply pr_prog_. intros w w'. by apply (ki_push_bb _ _ K). Qed.
Lemma in_push_inst b v : Pres P (b_prog_ (w_push_inst f b v)).
Proof. apply pr_prog_. intros w w'. by apply (ki_push_inst _ _ K). Qed.
Local Existing Instances in_new_local in_new_bb in_name in_push_bb in_push_inst.
Lemma in_local_init t i : Pres P (gen_local_init f t i).
Proof. apply (pr_init P LReq); try done. apply _. Qed.
Local Existing Instance in_local_init.
Lemma in_value bb t v : Pres P (gen_value f bb t v).
Proof. destruct v; apply _. Qed.
Local Existing Instance in_value.
Lemma in_store_value bb t v : Pres P (gen_store_value f bb t v).
Proof. destruct v; apply _. Qed.
Local Existing Instance in_store_value.
Lemma in_args bb a t : Pres P (gen_args f bb a t).
Proof. apply _. Qed.
Local Existing Instance in_args.
Lemma in_call bb c args : Pres P (gen_call f bb c args).
Proof.
  intros s. unfold gen_call. destruct (b_gfuncs s !! c); [|apply pr_error].
  match goal with |- _ → P (b_world (?m s).2) => enough (Pres P m) as H by apply H end.
  apply _.
Qed.
Local Existing Instance in_call.
Lemma in_inst bb e : Pres P (gen_inst f bb e).
Proof.
  destruct e; cbn [gen_inst]; try apply _.
  - unfold gen_load. repeat (apply pr_bind; [apply _|]; intros). case_match; apply _.
  - unfold gen_get_ptr. repeat (apply pr_bind; [apply _|]; intros). case_match; apply _.
  - unfold gen_get_elem_ptr. repeat (apply pr_bind; [apply _|]; intros). repeat case_match; apply _.
Qed.
Local Existing Instance in_inst.
Lemma in_stmt bb r st : Pres P (gen_stmt f bb r st).
Proof.
  destruct st; cbn [gen_stmt]; try apply _.
  - unfold gen_store. repeat (apply pr_bind; [apply _|]; intros). case_match; apply _.
  - unfold gen_return. repeat case_match; apply _.
  - by apply pr_still.
Qed.
Local Existing Instance in_stmt.
Lemma in_push_step n v : Pres P (push_step f n v).
Proof. intros s. unfold push_step. case_match; [|done]. apply in_push_inst. Qed.
Local Existing Instance in_push_step.
Lemma in_build_block r b : Pres P (build_block f r b).
Proof. rewrite build_block_eq. apply _. Qed.
Lemma in_init_bb b : Pres P (init_bb f b).
Proof. unfold init_bb. apply _. Qed.
Local Existing Instance in_init_bb.
Lemma in_init_local a l : Pres P (init_local_bbs f a l).
Proof. rewrite init_local_eq. apply _. Qed.
End inside.

(** ** In a program *)
(** [P] is kept by the calls for global variables and declarations, and by making a function,
    after which [P' f] is kept while the function is built. *)
Record kept (P : world → Prop) (P' : func → world → Prop) : Prop := {
  k_global : ∀ r w v w', global_req r = true → w_new_global r w = Some (v, w') → P w → P w';
  k_name : ∀ v n w w', w_name_global v n w = Some w' → P w → P w';
  k_decl : ∀ n ps r w f w', w_new_func_decl n ps r w = Some (f, w') → P w → P w';
  k_def : ∀ n ps r w f w', w_new_func_def n ps r w = Some (f, w') → P w → P' f w';
  k_in : ∀ f, kept_in f (P' f);
  k_out : ∀ f w, P' f w → P w;
}.
Section outside.
Context (P : world → Prop) (P' : func → world → Prop) (K : kept P P').
Lemma out_global n t i : Pres P (build_global n t i).
Proof.
  assert (Hg : ∀ r, global_req r = true → Pres P (new_global r)).
  { intros r Hr. apply pr_prog. intros w v w'. by apply (k_global _ _ K). }
  assert (Hn : ∀ v n, Pres P (b_prog_ (w_name_global v n))).
  { intros v m. apply pr_prog_. intros w w'. by apply (k_name _ _ K). }
  assert (Hi : ∀ t i, Pres P (gen_global_init t i)).
  { intros. by apply (pr_init P (λ r, global_req r = true)). }
  assert (Ha : ∀ x, Pres P (new_global (BGlobalAlloc x))) by (intros; by apply Hg).
  unfold build_global. apply _.
Qed.
Lemma out_decl n ps r : Pres P (build_fun_decl n ps r).
Proof.
  assert (Hn : ∀ ps r, Pres P (b_prog (w_new_func_decl n ps r))).
  { intros. apply pr_prog. intros w v w'. by apply (k_decl _ _ K). }
  unfold build_fun_decl. apply _.
Qed.
Lemma out_def n ps r l : Pres P (build_fun_def n ps r l).
Proof.
  unfold build_fun_def. apply pr_bind; [apply _|]. intros ret. apply pr_bind; [apply _|]. intros ps'.
  intros s Hs. unfold mthen at 1. unfold b_prog.
  destruct (w_new_func_def n ps' ret (b_world s)) as [[f w]|] eqn:E; [|done].
  apply (k_out _ _ K f). pose proof (k_def _ _ K _ _ _ _ _ _ E Hs) as Hw.
  match goal with |- P' f (b_world (?m (set_world w s)).2) => enough (Pres (P' f) m) as H by by apply H end.
  pose proof (k_in _ _ K f) as Kf.
  assert (Hb : ∀ r b, Pres (P' f) (build_block f r b)) by (intros; by apply in_build_block).
  assert (Hi : ∀ a l, Pres (P' f) (init_local_bbs f a l)) by (intros; by apply in_init_local).
  apply _.
Qed.
Lemma out_build_on t : Pres P (build_on t).
Proof. destruct t; cbn [build_on]; try apply _; [apply out_global|apply out_def|apply out_decl]. Qed.
Lemma builds_kept ts : ∀ s b, builds s ts b → P (b_world s) → P (b_world b).
Proof.
  induction ts as [|t ts IH]; intros s b H Hs; inversion H as [|? ? s1 ? ? H1 H2 H3]; subst; [done|].
  eapply IH; [done|]. pose proof (out_build_on t s Hs) as E. by rewrite H1 in E.
Qed.
Lemma read_kept r p n b : read_program r = (Rok p, n, b) → P world0 → ∃ w, P w ∧ w_prog w = p.
Proof.
  intros Hr. unfold read_program in Hr. destruct (driver_new r) as [d e] eqn:Hd.
  destruct (generate_ok _ _ _ _ _ _ _ _ _ Hd Hr) as (-> & _ & s1 & ts' & s2 & -> & Hp' & _ & _ & _ & Hb & _ & ->).
  intros H0. exists (b_world b). split; [|done]. by eapply builds_kept.
Qed.
End outside.
