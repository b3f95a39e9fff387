(** Builders build well-typed values only (C11). *)
From Verif Require Import Base IdModel TypeModel IrModel LayoutModel BuilderModel WorldModel
  UsesSpec DfgSpec WorldSpec TypingSpec TypeProofs TypingProofs SkelProofs TypingHistory
  ProgLayoutProofs WorldProofs WorldChecks CoreProperties.
From Coq Require Import Lia.

(** A builder method of a local builder succeeds exactly when a rule applies: the
    panics are exactly the violations of the rules (including operands, blocks or
    callees that do not exist). *)
Theorem C11_local_builder_iff os w f fd r :
  run os world0 = Some w → next_lv (w_ids w) ≠ 0%N → p_funcs (w_prog w) !! f = Some fd →
  is_Some (w_new_local f r w) ↔
  ∃ t, has_type (local_env (w_prog w) fd) (requested r) t ∧ requested_ty r t.
Proof.
  intros Hr. apply new_local_iff. by apply run_layouts in Hr as (_ & _ & _ & _ & ?).
Qed.
Print Assumptions C11_local_builder_iff.

(** ... and the value it creates is the requested one, with the type given by the rule. *)
Theorem C11_local_builder_value os w f fd r v w' :
  run os world0 = Some w → p_funcs (w_prog w) !! f = Some fd →
  w_new_local f r w = Some (v, w') →
  ∃ fd' t, p_funcs (w_prog w') !! f = Some fd' ∧
    vals fd' !! v = Some (VData t None (requested r) ∅) ∧
    has_type (local_env (w_prog w) fd) (requested r) t ∧ requested_ty r t.
Proof.
  intros Hr. apply new_local_typed. by apply run_layouts in Hr as (_ & _ & _ & _ & ?).
Qed.
Print Assumptions C11_local_builder_value.

(** What global builders compute. *)
Theorem C11_global_builder w r d :
  build (global_querier (w_prog w)) r = Some d ↔
  d = VData (v_ty d) None (requested r) ∅ ∧
  has_type (global_env (w_prog w)) (requested r) (v_ty d) ∧ requested_ty r (v_ty d).
Proof.
  split.
  - intros H. apply build_sound in H as (H1 & H2 & H3). split; [exact H1|].
    split; [by apply global_querier_env|done].
  - intros (H1 & H2 & H3). rewrite H1. apply build_complete; [apply q_ok_global| |done].
    by apply global_querier_env.
Qed.
Print Assumptions C11_global_builder.

(** Programs built with the builders alone are well typed. *)
Theorem C11_well_typed os w :
  run os world0 = Some w → throughout tidy os world0 → throughout builders_only os world0 →
  (globals_created os < local_value_id_starts_from)%N →
  well_typed (w_prog w).
Proof. exact (reach_well_typed os w). Qed.
Print Assumptions C11_well_typed.

(** ** Example *)

(** A computable sufficient condition for [builders_only]. *)
Definition builders_onlyb (o : op) (w : world) : bool :=
  match o with
  | ONewLocalRaw _ _ _ _ | OReplaceRaw _ _ _ _ _ | OUpdate _ _ _ | ONewGlobalRaw _ _ _ => false
  | ONewLocal _ r => local_req r
  | ONewGlobal r => global_req r
  | OReplace f v r => local_req r &&
      match p_funcs (w_prog w) !! f with
      | Some fd => match vals fd !! v, build (local_querier (p_values (w_prog w))
                            (p_func_tys (w_prog w)) (f_dfg fd)) r with
                   | Some d, Some d' => ty_eqb (v_ty d) (v_ty d') &&
                                        implb (is_const (v_kind d)) (is_const (requested r))
                   | _, _ => false end
      | None => true end
  | ORemoveLocal f v =>
      match p_funcs (w_prog w) !! f with
      | Some fd => forallb (λ p, negb (bool_decide (v ∈ bb_params p.2))) (map_to_list (blks fd))
      | None => true end
  | ORemoveFunc _ => false
  | _ => true
  end.

Lemma builders_onlyb_sound o w :
  pinv (w_ids w) (w_prog w) → builders_onlyb o w = true → builders_only o w.
Proof.
  intros HP. destruct o; simpl; try done.
  - intros [H1 H2]%andb_true_iff. split; [done|]. intros fd d Hf Hd. rewrite Hf, Hd in H2.
    destruct (build _ r) as [d'|] eqn:E; [|done]. apply andb_true_iff in H2 as [H2 H3].
    apply C03_ty_eqb in H2. rewrite H2. apply build_sound in E as (_ & E1 & E2).
    split; [apply local_querier_env; [apply HP|done]|]. split; [done|].
    intros Hc. by rewrite Hc in H3.
  - intros H fd b bd Hf Hb. rewrite Hf, forallb_forall in H. specialize (H (b, bd)).
    rewrite <-elem_of_list_In, elem_of_map_to_list in H. specialize (H Hb). simpl in H.
    by apply negb_true_iff, bool_decide_eq_false in H.
Qed.

Lemma builders_only_check os : ∀ w, pinv (w_ids w) (w_prog w) →
  throughoutb builders_onlyb os w = true → throughout builders_only os w.
Proof.
  induction os as [|o os IH]; intros w HP H; simpl in *; [done|].
  apply andb_true_iff in H as [H1 H2]. split; [by apply builders_onlyb_sound|].
  intros w' Hw. rewrite Hw in H2. apply IH; [by eapply step_pinv|done].
Qed.

Definition C11_history : list op :=
  [ ONewGlobal (BInteger 5); ONewGlobal (BAggregate [1; 1]); ONewGlobal (BGlobalAlloc 2);
    ONewFuncDef "@f" [(Some "@x", TInt32)] TInt32;
    ONewBB 1 (Some "%l") [(None, TInt32)];
    ONewLocal 1 (BInteger 1); ONewLocal 1 (BGetElemPtr 3 (L 2)); ONewLocal 1 (BLoad (L 3));
    ONewLocal 1 (BJumpArgs 1 [L 4]); ONewLocal 1 (BCall 1 [L 1]); ONewLocal 1 (BRet (Some (L 6)));
    OReplace 1 (L 4) (BBinary Mul (L 0) (L 2)); ORemoveLocal 1 (L 7);
    ONewBB 1 None [(None, TPtr TInt32)]; ORemoveBB 1 2 ]%N.

Example C11_example :
  is_Some (run C11_history world0) ∧ throughout tidy C11_history world0 ∧
  throughout builders_only C11_history world0 ∧
  (globals_created C11_history < local_value_id_starts_from)%N.
Proof.
  split; [apply is_Some_check; vm_compute; reflexivity|].
  split; [apply (throughoutb_sound _ tidyb); [apply tidyb_sound|vm_compute; reflexivity]|].
  split; [apply builders_only_check; [exact pinv0|vm_compute; reflexivity]|].
  vm_compute. reflexivity.
Qed.

(** In that program, a load of a non-pointer panics, a load of the element pointer does
    not. *)
Example C11_example_calls :
  ∃ w, run C11_history world0 = Some w ∧ next_lv (w_ids w) ≠ 0%N ∧
    w_new_local 1 (BLoad (L 2)) w = None ∧ is_Some (w_new_local 1 (BLoad (L 3)) w).
Proof.
  destruct (run_check C11_history (λ w, negb (next_lv (w_ids w) =? 0)%N &&
      noneb (w_new_local 1 (BLoad (L 2)) w) && someb (w_new_local 1 (BLoad (L 3)) w)))
    as (w & E & HP); [vm_compute; reflexivity|].
  rewrite !andb_true_iff in HP. destruct HP as [[H1 H2%noneb_true] H3%someb_true].
  exists w. split; [exact E|]. split; [|split; assumption].
  by apply negb_true_iff, N.eqb_neq in H1.
Qed.
