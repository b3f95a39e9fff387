(** Properties of the in-memory IR: handles, types, use lists, removals (C01-C10,
    C15, C16). *)
From Verif Require Import Base IdModel TypeModel IrModel LayoutModel BuilderModel WorldModel
  IdSpec TypeSpec UsesSpec DfgSpec WorldSpec
  IdProofs TypeProofs UsesProofs DfgProofs WorldProofs DfgOps ProgLayoutProofs WorldChecks.
From Coq Require Sorted.

(** ** C01 *)

(** Whatever the interleaving of requests, no handle of a sort is handed out twice,
    as long as no counter is exhausted (the run then succeeds). *)
Theorem C01_handles_unique rs vs i' r :
  serve_all rs ids0 = Some (vs, i') → NoDup (handles_of r vs).
Proof. exact (handles_nodup rs vs i' r). Qed.
Print Assumptions C01_handles_unique.

(** Below exhaustion every request is answered. *)
Theorem C01_requests_succeed rs :
  (N.of_nat (count_req ReqGlobal rs) < two32)%N →
  (N.of_nat (count_req ReqLocal rs) ≤ two32 - local_value_id_starts_from)%N →
  (N.of_nat (count_req ReqBB rs) < two32)%N →
  (N.of_nat (count_req ReqFunc rs) < two32)%N →
  is_Some (serve_all rs ids0).
Proof. exact (serve_all_ok0 rs). Qed.
Print Assumptions C01_requests_succeed.

Example C01_example :
  ∃ i', serve_all [ReqLocal; ReqGlobal; ReqLocal; ReqFunc; ReqBB; ReqLocal] ids0
    = Some ([(ReqLocal, 1073741824%N); (ReqGlobal, 1%N); (ReqLocal, 1073741825%N);
             (ReqFunc, 1%N); (ReqBB, 1%N); (ReqLocal, 1073741826%N)], i').
Proof. eexists. vm_compute. reflexivity. Qed.

(** ** C02 *)

Theorem C02_is_global_exact rs vs i' r v :
  serve_all rs ids0 = Some (vs, i') → (r, v) ∈ vs →
  r = ReqGlobal ∨ r = ReqLocal →
  (N.of_nat (count_req ReqGlobal rs) < local_value_id_starts_from)%N →
  (is_global_id v = true ↔ r = ReqGlobal).
Proof. exact (value_handle_sort rs vs i' r v). Qed.
Print Assumptions C02_is_global_exact.

Theorem C02_ranges_disjoint rs vs i' v :
  serve_all rs ids0 = Some (vs, i') →
  (N.of_nat (count_req ReqGlobal rs) < local_value_id_starts_from)%N →
  (ReqGlobal, v) ∈ vs → (ReqLocal, v) ∈ vs → False.
Proof. exact (value_handles_disjoint rs vs i' v). Qed.
Print Assumptions C02_ranges_disjoint.

(** The bound is tight: with one more global value, a global and a local value get the
    same handle and the global one is taken for a local one. *)
Theorem C02_bound_tight :
  ∃ rs vs i' v,
    N.of_nat (count_req ReqGlobal rs) = local_value_id_starts_from ∧
    serve_all rs ids0 = Some (vs, i') ∧
    (ReqGlobal, v) ∈ vs ∧ (ReqLocal, v) ∈ vs ∧ is_global_id v = false.
Proof. exact global_local_clash. Qed.
Print Assumptions C02_bound_tight.

Example C02_example :
  is_global_id 1 = true ∧ is_global_id 1073741824 = false ∧
  (N.of_nat (count_req ReqGlobal [ReqGlobal; ReqLocal]) < local_value_id_starts_from)%N.
Proof. vm_compute. done. Qed.

(** ** C03 *)

Theorem C03_type_equality_structural rs hs p :
  run_treqs rs [] pool0 = Some (hs, p) →
  ∃ ts, req_tys rs [] = Some ts ∧ length ts = length hs ∧
    ∀ i j a b t u, hs !! i = Some a → hs !! j = Some b → ts !! i = Some t → ts !! j = Some u →
      (a = b ↔ t = u).
Proof. exact (interning_structural rs hs p). Qed.
Print Assumptions C03_type_equality_structural.

Theorem C03_types_stable rs rs' hs p hs' p' ts :
  run_treqs rs [] pool0 = Some (hs, p) →
  req_tys rs [] = Some ts →
  run_treqs rs' hs p = Some (hs', p') →
  ∀ i a t, hs !! i = Some a → ts !! i = Some t →
    denotes (heap p) a t ∧ denotes (heap p') a t ∧ hs' !! i = Some a.
Proof. exact (interning_stable rs rs' hs p hs' p' ts). Qed.
Print Assumptions C03_types_stable.

(** Equality of types in the rest of the model ([ty_eqb]) is structural equality. *)
Theorem C03_ty_eqb t u : ty_eqb t u = true ↔ t = u.
Proof. exact (ty_eqb_eq t u). Qed.
Print Assumptions C03_ty_eqb.

Example C03_example :
  fst <$> run_treqs [RInt32; RArray 0 10; RPtr 1; RInt32; RArray 3 10; RPtr 4; RArray 3 11;
                     RFun [2; 0] 1; RFun [5; 3] 4] [] pool0
  = Some [0; 1; 2; 0; 1; 2; 3; 4; 4]%N.
Proof. vm_compute. reflexivity. Qed.

(** ** C04 *)

Theorem C04_size_mod ps t : (ps < two64)%N → size ps t = (byte_size ps t `mod` two64)%N.
Proof. exact (size_mod ps t). Qed.
Print Assumptions C04_size_mod.

Theorem C04_size_exact ps t :
  (ps < two64)%N → (byte_size ps t < two64)%N → size ps t = byte_size ps t.
Proof. exact (size_exact ps t). Qed.
Print Assumptions C04_size_exact.

Example C04_example :
  (byte_size 8 (TArray (TArray (TPtr TInt32) 3) 5) < two64)%N ∧
  size 8 (TArray (TArray (TPtr TInt32) 3) 5) = 120%N ∧
  size 4 (TArray TInt32 (2 ^ 62)) = 0%N.
Proof. vm_compute. done. Qed.

(** ** C05 *)

(** Draining the iterator yields exactly the operands, in order. *)
Theorem C05_value_uses_complete k : value_uses k = operands k.
Proof. exact (value_uses_operands k). Qed.
Print Assumptions C05_value_uses_complete.

Theorem C05_bb_uses_complete k : bb_uses k = targets k.
Proof. exact (bb_uses_targets k). Qed.
Print Assumptions C05_bb_uses_complete.

(** Call number [i] of [next] yields operand [i]; from the end on it yields nothing,
    for ever. *)
Theorem C05_value_uses_each k i : value_uses_next k i = operands k !! i.
Proof. exact (value_uses_next_lookup k i). Qed.
Print Assumptions C05_value_uses_each.

Theorem C05_bb_uses_each k i : bb_uses_next k i = targets k !! i.
Proof. exact (bb_uses_next_lookup k i). Qed.
Print Assumptions C05_bb_uses_each.

Example C05_example :
  value_uses (KBranch 7 1 2 [8; 9] [10])%N = [7; 8; 9; 10]%N ∧
  bb_uses (KBranch 7 1 2 [8; 9] [10])%N = [1; 2]%N.
Proof. vm_compute. done. Qed.

(** ** A concrete history used in the examples below *)

Definition L (n : N) : N := (1073741824 + n)%N.

Lemma is_Some_check {A} (o : option A) :
  (match o with Some _ => true | None => false end) = true → is_Some o.
Proof. destruct o; [by eauto|done]. Qed.

Lemma run_check os (P : world → bool) :
  match run os world0 with Some w => P w | None => false end = true →
  ∃ w, run os world0 = Some w ∧ P w = true.
Proof. destruct (run os world0) as [w|]; [by eauto|done]. Qed.

Definition someb {A} (o : option A) : bool := match o with Some _ => true | None => false end.
Definition noneb {A} (o : option A) : bool := match o with Some _ => false | None => true end.

Lemma someb_true {A} (o : option A) : someb o = true → is_Some o.
Proof. destruct o; [by eauto|done]. Qed.
Lemma noneb_true {A} (o : option A) : noneb o = true → o = None.
Proof. by destruct o. Qed.

(** [global @g = alloc i32, 5]; [fun @f(@x: i32): i32 { %entry: %2 = load @g;
    %3 = mul %2, %2; jump %l(%3)  %l(%1: i32): ret %1 }], with a replaced, an updated,
    a removed value, and a removed block on the way. *)
Definition ex_history : list op :=
  [ ONewGlobal (BInteger 5); ONewGlobal (BGlobalAlloc 1); ONameGlobal 2 (Some "@g");
    ONewFuncDef "@f" [(Some "@x", TInt32)] TInt32;
    ONewBB 1 (Some "%entry") []; ONewBB 1 (Some "%l") [(None, TInt32)];
    ONewLocal 1 (BLoad 2); ONewLocal 1 (BBinary Add (L 2) (L 0));
    ONewLocal 1 (BJumpArgs 2 [L 3]); ONewLocal 1 (BRet (Some (L 1)));
    OReplace 1 (L 3) (BBinary Mul (L 2) (L 2));
    ONewLocal 1 (BStore (L 3) 2);
    OUpdate 1 (L 6) (λ k, match k with KStore _ d => KStore (L 2) d | _ => k end);
    ORemoveLocal 1 (L 6);
    ONewBB 1 None [(Some "%p", TPtr TInt32)]; ORemoveBB 1 3;
    ONewFuncDecl "@ext" [TInt32; TPtr TInt32] TUnit; ORemoveFunc 2 ]%N.

Example ex_history_ok :
  is_Some (run ex_history world0) ∧ throughout tidy ex_history world0 ∧
  throughout releases_globals ex_history world0 ∧
  (globals_created ex_history < local_value_id_starts_from)%N.
Proof.
  split; [apply is_Some_check; vm_compute; reflexivity|].
  split; [apply (throughoutb_sound _ tidyb); [apply tidyb_sound|vm_compute; reflexivity]|].
  split; [apply (throughoutb_sound _ releasesb); [apply releasesb_sound|vm_compute; reflexivity]|].
  vm_compute. reflexivity.
Qed.

Lemma ex_reach w : run ex_history world0 = Some w → reachable w.
Proof.
  intros E. destruct ex_history_ok as (_ & Ht & _ & Hg). exists ex_history.
  split; [exact E|split; [exact Ht|exact Hg]].
Qed.
Global Opaque ex_history.

(** ** C06 *)

Theorem C06_use_lists_exact os w :
  run os world0 = Some w → throughout tidy os world0 →
  throughout releases_globals os world0 →
  (globals_created os < local_value_id_starts_from)%N →
  use_lists_exact (w_prog w).
Proof. exact (reach_exact os w). Qed.
Print Assumptions C06_use_lists_exact.

(** The hypotheses hold of [ex_history] ([ex_history_ok]); after it the load has the
    multiplication as its only user, and the removed store has disappeared from the
    use list of the global. *)
Example C06_example :
  (λ w, (λ fd, (λ d, elements (v_used_by d)) <$> vals fd !! L 2) <$> p_funcs (w_prog w) !! 1%N)
    <$> run ex_history world0 = Some (Some (Some [L 3])) ∧
  (λ w, (λ d, elements (v_used_by d)) <$> p_values (w_prog w) !! 2%N)
    <$> run ex_history world0 = Some (Some [L 2]).
Proof. vm_compute. done. Qed.

(** The obligation on [remove_bb] is necessary: after a block parameter has been
    replaced by a value with operands, removing the block leaves a stale user. *)
Theorem C06_untidy_remove_bb_refuted :
  ∃ os w, run os world0 = Some w ∧ throughout releases_globals os world0 ∧
    (globals_created os < local_value_id_starts_from)%N ∧ ¬ use_lists_exact (w_prog w).
Proof.
  set (os := [ ONewFuncDef "@f" [(None, TInt32)] TUnit; ONewBB 1 None [(None, TInt32)];
               OReplace 1 (L 1) (BBinary Add (L 0) (L 0)); ORemoveBB 1 1 ]%N).
  destruct (run_check os (λ w,
      match p_funcs (w_prog w) !! 1%N with
      | Some fd => match vals fd !! L 0 with
                   | Some d => bool_decide (L 1 ∈ v_used_by d) && noneb (vals fd !! L 1)
                   | None => false end
      | None => false end)) as (w & E & HP); [vm_compute; reflexivity|].
  exists os, w. split; [done|]. split.
  { apply (throughoutb_sound _ releasesb); [apply releasesb_sound|vm_compute; reflexivity]. }
  split; [vm_compute; reflexivity|]. intros (_ & Hl & _).
  destruct (p_funcs (w_prog w) !! 1%N) as [fd|] eqn:H1; [|done].
  destruct (vals fd !! L 0) as [d|] eqn:H2; [|done].
  apply andb_true_iff in HP as [H3%bool_decide_eq_true H4%noneb_true].
  apply (Hl _ _ _ _ H1 H2) in H3 as (du & Hdu & _). congruence.
Qed.
Print Assumptions C06_untidy_remove_bb_refuted.

(** ** C07 *)

Theorem C07_no_dangling os w :
  run os world0 = Some w → throughout tidy os world0 →
  (globals_created os < local_value_id_starts_from)%N →
  no_dangling (w_prog w).
Proof. exact (reach_no_dangling os w). Qed.
Print Assumptions C07_no_dangling.

Example C07_example : ∃ w, run ex_history world0 = Some w ∧ no_dangling (w_prog w).
Proof.
  destruct ex_history_ok as ([w H] & Ht & _ & Hg). exists w. split; [done|].
  by eapply C07_no_dangling.
Qed.

(** ** C08 *)

Theorem C08_remove_value_iff w f fd v :
  reachable w → p_funcs (w_prog w) !! f = Some fd →
  is_Some (w_remove_local f v w) ↔
  is_Some (vals fd !! v) ∧ ∀ u, ¬ uses (vals fd) u v.
Proof. exact (w_remove_local_iff w f fd v). Qed.
Print Assumptions C08_remove_value_iff.

Theorem C08_remove_value_effect w f fd v d w' :
  reachable w → p_funcs (w_prog w) !! f = Some fd →
  w_remove_local f v w = Some (d, w') →
  ∃ g', vals fd !! v = Some d ∧
    p_funcs (w_prog w') = <[f := set_dfg fd g']> (p_funcs (w_prog w)) ∧
    d_values g' !! v = None ∧
    without_user v (p_values (w_prog w)) (p_values (w_prog w')) ∧
    without_user v (vals fd) (d_values g') ∧
    bb_without_user v (blks fd) (d_bbs g').
Proof. exact (w_remove_local_frame w f fd v d w'). Qed.
Print Assumptions C08_remove_value_effect.

(** In the example program the final [ret] (which nothing uses) can be removed, the
    load (used by the multiplication) cannot. *)
Example C08_example :
  ∃ w, reachable w ∧ is_Some (w_remove_local 1 (L 5) w) ∧ w_remove_local 1 (L 2) w = None.
Proof.
  destruct (run_check ex_history (λ w, someb (w_remove_local 1 (L 5) w) &&
      noneb (w_remove_local 1 (L 2) w))) as (w & E & HP); [vm_compute; reflexivity|].
  apply andb_true_iff in HP as [H1%someb_true H2%noneb_true].
  exists w. split; [exact (ex_reach w E)|split; assumption].
Qed.

(** ** C09 *)

Theorem C09_replace_iff w f fd v data :
  reachable w → p_funcs (w_prog w) !! f = Some fd →
  is_Some (w_replace_data f v data w) ↔
  is_Some (vals fd !! v) ∧
  (∀ u, u ∈ operands (v_kind data) → u ≠ v ∧
     (is_Some (p_values (w_prog w) !! u) ∨ is_Some (vals fd !! u))) ∧
  (∀ b, b ∈ targets (v_kind data) → is_Some (blks fd !! b)).
Proof. exact (w_replace_data_iff w f fd v data). Qed.
Print Assumptions C09_replace_iff.

Theorem C09_replace_effect w f fd v data w' :
  reachable w → p_funcs (w_prog w) !! f = Some fd →
  w_replace_data f v data w = Some w' →
  ∃ g' old, vals fd !! v = Some old ∧
    p_funcs (w_prog w') = <[f := set_dfg fd g']> (p_funcs (w_prog w)) ∧
    d_values g' !! v = Some (with_users data (v_used_by old)) ∧
    moved_user v (operands (v_kind data)) (p_values (w_prog w)) (p_values (w_prog w')) ∧
    moved_user v (operands (v_kind data)) (vals fd) (d_values g') ∧
    bb_moved_user v (targets (v_kind data)) (blks fd) (d_bbs g').
Proof. exact (w_replace_data_frame w f fd v data w'). Qed.
Print Assumptions C09_replace_effect.

(** The same for [update_value] with a closure that edits the kind. *)
Theorem C09_update_effect w f fd v h w' :
  reachable w → p_funcs (w_prog w) !! f = Some fd →
  w_update f v (kind_mut h) w = Some w' →
  ∃ g' old, vals fd !! v = Some old ∧
    p_funcs (w_prog w') = <[f := set_dfg fd g']> (p_funcs (w_prog w)) ∧
    d_values g' !! v = Some (VData (v_ty old) (v_name old) (h (v_kind old)) (v_used_by old)) ∧
    moved_user v (operands (h (v_kind old))) (p_values (w_prog w)) (p_values (w_prog w')) ∧
    moved_user v (operands (h (v_kind old))) (vals fd) (d_values g') ∧
    bb_moved_user v (targets (h (v_kind old))) (blks fd) (d_bbs g').
Proof. exact (w_update_frame w f fd v h w'). Qed.
Print Assumptions C09_update_effect.

Example C09_example :
  ∃ w w', reachable w ∧
    w_replace_data 1 (L 3) (VData TInt32 (Some "%n") (KLoad 2%N) ∅) w = Some w' ∧
    (λ fd, (λ d, elements (v_used_by d)) <$> vals fd !! L 3) <$> p_funcs (w_prog w') !! 1%N
      = Some (Some [L 4]) ∧
    (λ fd, (λ d, elements (v_used_by d)) <$> vals fd !! L 2) <$> p_funcs (w_prog w') !! 1%N
      = Some (Some []).
Proof.
  destruct (run_check ex_history (λ w,
      match w_replace_data 1 (L 3) (VData TInt32 (Some "%n") (KLoad 2%N) ∅) w with
      | Some w' =>
          bool_decide ((λ fd, (λ d, elements (v_used_by d)) <$> vals fd !! L 3)
            <$> p_funcs (w_prog w') !! 1%N = Some (Some [L 4])) &&
          bool_decide ((λ fd, (λ d, elements (v_used_by d)) <$> vals fd !! L 2)
            <$> p_funcs (w_prog w') !! 1%N = Some (Some []))
      | None => false end)) as (w & E & HP); [vm_compute; reflexivity|].
  destruct (w_replace_data 1 _ _ w) as [w'|] eqn:Hw; [|done].
  apply andb_true_iff in HP as [H1%bool_decide_eq_true H2%bool_decide_eq_true].
  exists w, w'. split; [exact (ex_reach w E)|]. split; [exact Hw|split; assumption].
Qed.

(** ** C10 *)

Theorem C10_remove_bb_iff w f fd b bd :
  reachable w → p_funcs (w_prog w) !! f = Some fd → blks fd !! b = Some bd →
  is_Some (w_remove_bb f b w) ↔
  (∀ u, ¬ jumps_to (vals fd) u b) ∧ NoDup (bb_params bd) ∧
  (∀ q, q ∈ bb_params bd → is_Some (vals fd !! q) ∧ ∀ u, ¬ uses (vals fd) u q).
Proof. exact (w_remove_bb_iff w f fd b bd). Qed.
Print Assumptions C10_remove_bb_iff.

Theorem C10_remove_bb_effect w f fd b bd w' :
  reachable w → p_funcs (w_prog w) !! f = Some fd →
  w_remove_bb f b w = Some (bd, w') →
  ∃ g', blks fd !! b = Some bd ∧
    w_prog w' = set_func (w_prog w) f (set_dfg fd g') ∧
    d_bbs g' = delete b (blks fd) ∧
    (∀ x, d_values g' !! x = if decide (x ∈ bb_params bd) then None else vals fd !! x) ∧
    (∀ u x, uses (d_values g') u x → x ∉ bb_params bd) ∧
    (∀ u, ¬ jumps_to (d_values g') u b).
Proof. exact (w_remove_bb_frame w f fd b bd w'). Qed.
Print Assumptions C10_remove_bb_effect.

(** The entry block (no jump to it) can be removed, block [%l] (target of a jump)
    cannot. *)
Example C10_example :
  ∃ w, reachable w ∧ is_Some (w_remove_bb 1 1 w) ∧ w_remove_bb 1 2 w = None.
Proof.
  destruct (run_check ex_history (λ w, someb (w_remove_bb 1 1 w) &&
      noneb (w_remove_bb 1 2 w))) as (w & E & HP); [vm_compute; reflexivity|].
  apply andb_true_iff in HP as [H1%someb_true H2%noneb_true].
  exists w. split; [exact (ex_reach w E)|split; assumption].
Qed.

(** ** C15 *)

Theorem C15_layouts_exact os w : run os world0 = Some w → layouts_exact (w_prog w).
Proof. exact (run_layouts os w). Qed.
Print Assumptions C15_layouts_exact.

Theorem C15_remove_func_iff os w f :
  run os world0 = Some w →
  is_Some (w_remove_func f w) ↔ is_Some (p_funcs (w_prog w) !! f).
Proof. exact (run_remove_func_ok os w f). Qed.
Print Assumptions C15_remove_func_iff.

Example C15_example :
  (λ w, (p_inst_layout (w_prog w), p_func_layout (w_prog w)))
    <$> run (ex_history ++ [ONewGlobal (BGlobalAlloc 1); ORemoveGlobal 3;
                            ONewGlobal (BGlobalAlloc 1); ONewFuncDecl "@h" [] TUnit]%N) world0
  = Some ([2; 4]%N, [1; 3]%N).
Proof. vm_compute. reflexivity. Qed.

(** ** C16 *)

(** Removing a function does not release the globals it used: they keep a user that
    does not exist any more, and can no longer be removed. *)
Theorem C16_remove_func_releases_globals_refuted :
  ∃ os w g d u,
    run os world0 = Some w ∧ throughout tidy os world0 ∧
    p_funcs (w_prog w) = ∅ ∧
    p_values (w_prog w) !! g = Some d ∧ u ∈ v_used_by d ∧ ¬ global_user (w_prog w) g u ∧
    w_remove_global g w = None.
Proof.
  set (os := [ ONewGlobal (BInteger 5); ONewGlobal (BGlobalAlloc 1);
               ONewFuncDef "@f" [] TUnit; ONewLocal 1 (BLoad 2); ORemoveFunc 1 ]%N).
  destruct (run_check os (λ w,
      bool_decide (map_to_list (p_funcs (w_prog w)) = []) && noneb (w_remove_global 2 w) &&
      noneb (p_values (w_prog w) !! L 0) &&
      match p_values (w_prog w) !! 2%N with
      | Some d => bool_decide (L 0 ∈ v_used_by d) | None => false end))
    as (w & E & HP); [vm_compute; reflexivity|].
  apply andb_true_iff in HP as [[[Hf%bool_decide_eq_true Hr%noneb_true]%andb_true_iff
    Hn%noneb_true]%andb_true_iff Hd].
  apply map_to_list_empty_iff in Hf.
  destruct (p_values (w_prog w) !! 2%N) as [d|] eqn:Hg; [|done].
  apply bool_decide_eq_true in Hd.
  exists os, w, 2%N, d, (L 0). split; [done|]. split.
  { apply (throughoutb_sound _ tidyb); [apply tidyb_sound|vm_compute; reflexivity]. }
  split; [done|]. split; [done|]. split; [done|]. split; [|done].
  intros [(du & Hdu & _)|(f & fd & Hff & _)]; [congruence|]. rewrite Hf in Hff. done.
Qed.
Print Assumptions C16_remove_func_releases_globals_refuted.
