(** Parameters are created as requested (C45). *)
From Verif Require Import Base IdModel TypeModel IrModel LayoutModel BuilderModel WorldModel
  UsesSpec DfgSpec WorldSpec WorldProofs WorldChecks ParamSpec ParamProofs CoreProperties
  TypingProperties.

(** A new block of a program built with the API has the requested name and one new value per
    requested parameter, with its name, type and position; all else is as before. *)
Theorem C45_block_parameters os w f fd n ps b w' :
  run os world0 = Some w → throughout tidy os world0 →
  (globals_created os < local_value_id_starts_from)%N →
  p_funcs (w_prog w) !! f = Some fd →
  w_new_bb f n ps w = Some (b, w') →
  ∃ fd' vs, p_funcs (w_prog w') !! f = Some fd' ∧
    blks fd !! b = None ∧ blks fd' = <[b := BBData n vs ∅]> (blks fd) ∧
    params_created (vals fd') KBlockArg ps vs ∧ adds (vals fd) (vals fd') vs.
Proof.
  intros Hr Ht Hg Hf H. destruct (reach_winv os w Hr Ht Hg) as (F & HW & _).
  exact (new_bb_params w F f fd n ps b w' HW Hf H).
Qed.
Print Assumptions C45_block_parameters.

(** A new function has the requested name and type, no blocks, and one new value per
    requested parameter. *)
Theorem C45_function_parameters os w name ps ret f w' :
  run os world0 = Some w → throughout tidy os world0 →
  (globals_created os < local_value_id_starts_from)%N →
  w_new_func_def name ps ret w = Some (f, w') →
  ∃ fd, p_funcs (w_prog w) !! f = None ∧
    p_funcs (w_prog w') = <[f := fd]> (p_funcs (w_prog w)) ∧
    f_name fd = name ∧ f_ty fd = TFun (map snd ps) ret ∧ blks fd = ∅ ∧
    params_created (vals fd) KFuncArg ps (f_params fd) ∧ adds ∅ (vals fd) (f_params fd).
Proof.
  intros Hr Ht Hg H. destruct (reach_winv os w Hr Ht Hg) as (F & HW & _).
  exact (new_func_params w F name ps ret f w' HW H).
Qed.
Print Assumptions C45_function_parameters.

(** A program with values and blocks, to which a block with two parameters and a function
    with two parameters are added. *)
Example C45_example :
  ∃ w fd, run C11_history world0 = Some w ∧ p_funcs (w_prog w) !! 1%N = Some fd ∧
    is_Some (w_new_bb 1 (Some "%m") [(Some "%a", TInt32); (None, TPtr TInt32)] w) ∧
    is_Some (w_new_func_def "@g" [(None, TInt32); (Some "@b", TInt32)] TUnit w).
Proof.
  destruct (run_check C11_history (λ w, someb (p_funcs (w_prog w) !! 1%N) &&
      someb (w_new_bb 1 (Some "%m") [(Some "%a", TInt32); (None, TPtr TInt32)] w) &&
      someb (w_new_func_def "@g" [(None, TInt32); (Some "@b", TInt32)] TUnit w)))
    as (w & E & HP); [vm_compute; reflexivity|].
  rewrite !andb_true_iff in HP. destruct HP as [[H1%someb_true H2%someb_true] H3%someb_true].
  destruct H1 as [fd H1]. exists w, fd. split; [exact E|]. split; [exact H1|]. split; assumption.
Qed.
