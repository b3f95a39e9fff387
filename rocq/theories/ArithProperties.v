(** C41 (constant folding) and C43 (block parameters in the interpreter). *)
From Coq Require Import Lia.
From Verif Require Import Base IdModel TypeModel IrModel LayoutModel LayoutSpec ArithModel
  ArithSpec ArithProofs.

(** C41: the folded constant is what execution yields (both compiled with, or both
    without overflow checks). *)
Theorem C41_fold_agrees : ∀ checks op l r c,
  fold_op checks op l r = Some (Some c) → exec_op checks op l r = Some c.
Proof. exact fold_exec. Qed.
Print Assumptions C41_fold_agrees.

Example C41_fold_agrees_example :
  fold_op false Mul 65537 65537 = Some (Some 131073%Z) ∧
  fold_op true Shr (-1) 28 = Some (Some 15%Z) ∧ fold_op true Mod_ (-7) 3 = Some (Some (-1)%Z).
Proof. by vm_compute. Qed.

(** C41: the folded constant is a 32-bit integer, and the mathematical meaning of the
    operation. *)
Theorem C41_fold_meaning : ∀ checks op l r c,
  i32 l → i32 r → fold_op checks op l r = Some (Some c) → i32 c ∧ meaning op l r c.
Proof. exact fold_meaning. Qed.
Print Assumptions C41_fold_meaning.

Example C41_fold_meaning_example :
  i32 (-7) ∧ i32 3 ∧ fold_op true Div (-7) 3 = Some (Some (-2)%Z).
Proof. unfold i32. by vm_compute. Qed.

(** C41: an instruction is folded to [undef] exactly for a division by zero, which
    execution does not survive. *)
Theorem C41_fold_undef : ∀ checks op l r,
  (fold_op checks op l r = Some None ↔ (op = Div ∨ op = Mod_) ∧ r = 0%Z) ∧
  (fold_op checks op l r = Some None → exec_op checks op l r = None).
Proof.
  intros checks op l r. split; [apply fold_undef|].
  intros H. apply fold_undef in H as [Hop ->]. by apply exec_undef_panics.
Qed.
Print Assumptions C41_fold_undef.

Example C41_fold_undef_example : fold_op true Mod_ 5 0 = Some None.
Proof. done. Qed.

(** C41 for the pass: exactly the binary instructions on integer constants are replaced,
    by what their execution yields (by [undef] for a division by zero); every other value
    keeps its kind and type; the pass reports whether there was anything to do. *)
Theorem C41_pass_replaces : ∀ checks order gs d ch gs' d',
  is_value_order order →
  eval_const checks order gs d = Some (ch, gs', d') →
  (∀ v x, d_values (f_dfg d) !! v = Some x →
    ∃ x', d_values (f_dfg d') !! v = Some x' ∧
      ((v_ty x' = v_ty x ∧ v_kind x' = v_kind x ∧
        ∀ op a b, ¬ foldable (f_dfg d) x op a b) ∨
       (v_ty x' = TInt32 ∧ ∃ op a b, foldable (f_dfg d) x op a b ∧
        ((∃ c, v_kind x' = KInteger c ∧ exec_op checks op a b = Some c) ∨
         (v_kind x' = KUndef ∧ (op = Div ∨ op = Mod_) ∧ b = 0%Z))))) ∧
  (∀ v, is_Some (d_values (f_dfg d') !! v) ↔ is_Some (d_values (f_dfg d) !! v)) ∧
  (ch = false ↔ ∀ v x op a b, d_values (f_dfg d) !! v = Some x → ¬ foldable (f_dfg d) x op a b).
Proof. exact eval_const_spec. Qed.
Print Assumptions C41_pass_replaces.

(** C41 for the pass: the folded instructions, and only these, leave the layout. *)
Theorem C41_pass_layout : ∀ checks order gs d ch gs' d',
  is_value_order order → layout_exact (f_layout d) →
  eval_const checks order gs d = Some (ch, gs', d') →
  layout_exact (f_layout d') ∧
  ∃ folded : list N,
    (∀ v, v ∈ folded ↔ ∃ x op a b,
        d_values (f_dfg d) !! v = Some x ∧ foldable (f_dfg d) x op a b) ∧
    l_bbs (f_layout d') =
      map (λ x, (x.1, filter (λ v, v ∉ folded) x.2)) (l_bbs (f_layout d)).
Proof. exact eval_const_layout. Qed.
Print Assumptions C41_pass_layout.

(** C41 for the pass: repeating it terminates, with nothing left to fold. *)
Theorem C41_pass_terminates : ∀ fuel checks order gs d r,
  is_value_order order → (base.size (binaries (f_dfg d)) < fuel)%nat →
  fold_loop fuel checks order gs d = Some r →
  r.2 = true ∧ ∀ v x op a b, d_values (f_dfg r.1.2) !! v = Some x →
    ¬ foldable (f_dfg r.1.2) x op a b.
Proof. exact fold_loop_terminates. Qed.
Print Assumptions C41_pass_terminates.

Lemma value_order_example : is_value_order (λ m, map fst (map_to_list m)).
Proof.
  intros m. split; [apply NoDup_fst_map_to_list|]. intros f. rewrite elem_of_list_fmap. split.
  - intros ([f' d] & -> & H). apply elem_of_map_to_list in H. by exists d.
  - intros [d H]. exists (f, d). split; [done|]. by apply elem_of_map_to_list.
Qed.

(** [%3 = add 2, 3; %4 = mul %3, %3; ret %4]: two rounds fold both. *)
Definition fold_example : fdata :=
  let d k us := VData TInt32 None k us in
  FData (TFun [] TInt32) "@f" []
    (Dfg {[1%N := d (KInteger 2) {[3%N]}; 2%N := d (KInteger 3) {[3%N]};
           3%N := d (KBinary Add 1 2) {[4%N]}; 4%N := d (KBinary Mul 3 3) {[5%N]};
           5%N := VData TUnit None (KReturn (Some 4%N)) ∅]} ∅)
    (Layout [(7, [3; 4; 5])]%N {[3%N := 7%N; 4%N := 7%N; 5%N := 7%N]}).

Example C41_pass_example :
  is_value_order (λ m, map fst (map_to_list m)) ∧
  layout_exact (f_layout fold_example) ∧
  (base.size (binaries (f_dfg fold_example)) < 3)%nat ∧
  option_map (λ r, (r.2, l_bbs (f_layout r.1.2), v_kind <$> d_values (f_dfg r.1.2) !! 4%N))
    (fold_loop 3 true (λ m, map fst (map_to_list m)) ∅ fold_example)
  = Some (true, [(7, [5])]%N, Some (KInteger 25)).
Proof.
  split; [apply value_order_example|]. split; [split; [split|]|split].
  - apply NoDup_singleton.
  - intros b is H. apply elem_of_list_singleton in H as [= -> ->].
    apply (bool_decide_unpack _). by vm_compute.
  - intros v b. unfold in_block. simpl. split.
    + intros (is & H & Hv). apply elem_of_list_singleton in H as [= -> ->].
      rewrite !elem_of_cons, elem_of_nil in Hv. destruct Hv as [->|[->|[->|[]]]]; by vm_compute.
    + intros H. exists [3; 4; 5]%N.
      apply lookup_insert_Some in H as [[<- <-]|[_ H]]; [split; set_solver|].
      apply lookup_insert_Some in H as [[<- <-]|[_ H]]; [split; set_solver|].
      apply lookup_singleton_Some in H as [<- <-]. split; set_solver.
  - apply Nat.ltb_lt. by vm_compute.
  - by vm_compute.
Qed.

(** C43, where it holds: if no argument is a parameter of the target that is bound
    before it is evaluated, every parameter gets the value its argument had before the
    jump, and nothing else changes.  Missing for the full claim: that hypothesis. *)
Theorem C43_simultaneous_partial : ∀ fuel g gvars ps args vals vals',
  bind_params fuel g gvars ps args vals = Some vals' →
  NoDup ps →
  (∀ i j p, ps !! i = Some p → args !! j = Some p → (j ≤ i)%nat) →
  (∀ i p a, ps !! i = Some p → args !! i = Some a →
    vals' !! p = eval_value fuel g gvars vals a) ∧
  (∀ p, p ∉ ps → vals' !! p = vals !! p).
Proof. exact bind_params_simultaneous. Qed.
Print Assumptions C43_simultaneous_partial.

(** Two parameters of the block and an outside value, all of type i32. *)
Definition params_dfg : dfg :=
  let d k := VData TInt32 None k ∅ in
  Dfg {[1073741824%N := d (KBlockArg 0); 1073741825%N := d (KBlockArg 1);
        1073741826%N := d (KInteger 7); 1073741827%N := d (KFuncArg 0)]}
      {[1%N := BBData None [1073741824; 1073741825]%N ∅]}.

Example C43_example :
  let vals := {[1073741824%N := VInt 1; 1073741825%N := VInt 2; 1073741827%N := VInt 3]} in
  let ps := [1073741824; 1073741825]%N in
  let args := [1073741825; 1073741827]%N in
  NoDup ps ∧
  (∀ i j p, ps !! i = Some p → args !! j = Some p → (j ≤ i)%nat) ∧
  (λ m, (m !! 1073741824%N, m !! 1073741825%N)) <$> bind_params 5 params_dfg ∅ ps args vals
    = Some (Some (VInt 2), Some (VInt 3)).
Proof.
  simpl. split; [|split].
  - apply (bool_decide_unpack _). by vm_compute.
  - intros [|[|i]] [|[|j]] p; simpl; intros H1 H2; try (injection H1 as <-);
      try discriminate H2; lia.
  - by vm_compute.
Qed.

(** C43 is false in general: a jump that swaps the two parameters of its own block
    loses one of the values. *)
Theorem C43_swap_refuted : ∃ fuel g gvars bb args vals vals' b p a,
  update_bb_params fuel g gvars bb args vals = Some vals' ∧
  d_bbs g !! bb = Some b ∧ NoDup (bb_params b) ∧ length args = length (bb_params b) ∧
  (p, a) ∈ zip (bb_params b) args ∧
  vals' !! p ≠ eval_value fuel g gvars vals a.
Proof.
  exists 5%nat, params_dfg, ∅, 1%N, [1073741825; 1073741824]%N,
    {[1073741824%N := VInt 1; 1073741825%N := VInt 2]},
    (<[1073741825%N := VInt 2]> (<[1073741824%N := VInt 2]>
      {[1073741824%N := VInt 1; 1073741825%N := VInt 2]})),
    (BBData None [1073741824; 1073741825]%N ∅), 1073741825%N, 1073741824%N.
  split_and!.
  - reflexivity.
  - vm_compute. reflexivity.
  - apply (bool_decide_unpack _). by vm_compute.
  - done.
  - simpl. set_solver.
  - vm_compute. discriminate.
Qed.
Print Assumptions C43_swap_refuted.
