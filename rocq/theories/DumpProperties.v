(** C36 (pass manager) and C39 (dumping to a buffer). *)
From Verif Require Import Base IdModel TypeModel IrModel PassModel PassSpec PassProofs DumpModel.
From Coq Require Import Lia.

(** C36: for passes that behave arbitrarily, what is called in which order. *)
Theorem C36_pass_order : ∀ S order (ps : list (pass S)) s p s' p',
  is_order order →
  run_passes order (register_all ps) s p = Some (s', p') →
  ∃ calls,
    run_passes order (recording_all 0 ps) (s, []) p = Some (s', calls, p') ∧
    schedule 0 ps p calls p'.
Proof. intros S. exact pass_order. Qed.
Print Assumptions C36_pass_order.

(** Two functions, a function pass that renames, a module pass that adds a function, and
    the renaming pass again. *)
Example C36_example :
  let f n := FData TUnit n [] dfg0 layout0 in
  let rename : pass nat := PFunction (λ s f d,
    Some (S s, FData (f_ty d) (f_name d +:+ "!") (f_params d) (f_dfg d) (f_layout d))) in
  let add : pass nat := PModule (λ s p,
    Some (S s, Program (p_values p) (p_inst_layout p) (<[3%N := f "h"]> (p_funcs p))
      (p_func_tys p) (p_func_layout p))) in
  let p := Program ∅ [] {[1%N := f "f"; 2%N := f "g"]} ∅ [] in
  is_order (λ m, map fst (map_to_list m)) ∧
  option_map (λ r, (r.1, (λ n, f_name <$> p_funcs r.2 !! n) <$> [1; 2; 3]%N))
    (run_passes (λ m, map fst (map_to_list m)) (register_all [rename; add; rename]) 0%nat p)
  = Some (6%nat, [Some "f!!"; Some "g!!"; Some "h!"]).
Proof. split; [apply map_to_list_order|]. vm_compute. reflexivity. Qed.

Lemma copy_into_Some bytes mem :
  (length bytes ≤ length mem)%nat →
  copy_into bytes mem = Some (bytes ++ drop (length bytes) mem).
Proof.
  revert mem. induction bytes as [|b bytes IH]; intros mem H; [done|].
  destruct mem as [|x mem]; simpl in *; [lia|]. rewrite IH by lia. done.
Qed.

Lemma cstring_new_Some t : "000"%char ∉ t → cstring_new t = Some (t ++ ["000"%char]).
Proof.
  intros H. unfold cstring_new. destruct (existsb _ t) eqn:He; [|done].
  apply existsb_exists in He as (x & Hx & Heq). apply Ascii.eqb_eq in Heq. subst.
  destruct H. by apply elem_of_list_In.
Qed.

Lemma cstring_new_None t : "000"%char ∈ t → cstring_new t = None.
Proof.
  intros H. unfold cstring_new. destruct (existsb _ t) eqn:He; [done|].
  assert (Ht : existsb (Ascii.eqb "000"%char) t = true); [|congruence].
  apply existsb_exists. exists "000"%char. split; [by apply elem_of_list_In|done].
Qed.

(** C39: null buffer *)
Theorem C39_null_buffer : ∀ t len, "000"%char ∉ t →
  dump_to_string (Some t) None len = Some (Success, N.of_nat (length t), None).
Proof.
  intros t len H. unfold dump_to_string. rewrite (cstring_new_Some _ H).
  rewrite app_length. simpl. do 3 f_equal. lia.
Qed.
Print Assumptions C39_null_buffer.

(** C39: buffer announced as longer than the text (and really that long): the text, one
    NUL, and the rest of the memory as it was; length unchanged *)
Theorem C39_large_buffer : ∀ t mem len, "000"%char ∉ t →
  (N.of_nat (length t) < len)%N → (len ≤ N.of_nat (length mem))%N →
  dump_to_string (Some t) (Some mem) len
  = Some (Success, len, Some (t ++ ["000"%char] ++ drop (S (length t)) mem)).
Proof.
  intros t mem len H Hlt Hle. unfold dump_to_string. rewrite (cstring_new_Some _ H).
  destruct (N.ltb_spec len (N.of_nat (length (t ++ ["000"%char])))) as [Hl|Hl].
  { rewrite app_length in Hl. simpl in Hl. lia. }
  rewrite copy_into_Some by (rewrite app_length in *; simpl in *; lia).
  simpl. rewrite app_length. simpl. rewrite Nat.add_1_r, <- app_assoc. done.
Qed.
Print Assumptions C39_large_buffer.

(** C39: announced length too small *)
Theorem C39_small_buffer : ∀ t mem len, "000"%char ∉ t → (len ≤ N.of_nat (length t))%N →
  dump_to_string (Some t) (Some mem) len = Some (InsufficientBufferLength, len, Some mem).
Proof.
  intros t mem len H Hle. unfold dump_to_string. rewrite (cstring_new_Some _ H).
  destruct (N.ltb_spec len (N.of_nat (length (t ++ ["000"%char])))) as [Hl|Hl]; [done|].
  rewrite app_length in Hl. simpl in Hl. lia.
Qed.
Print Assumptions C39_small_buffer.

(** C39: whatever the outcome, nothing at or beyond the announced length is written, and
    there is no access outside memory that is at least as long as announced *)
Theorem C39_in_bounds : ∀ text mem len, (len ≤ N.of_nat (length mem))%N →
  ∃ code len' mem', dump_to_string text (Some mem) len = Some (code, len', Some mem') ∧
    length mem' = length mem ∧ drop (N.to_nat len) mem' = drop (N.to_nat len) mem ∧
    (code ≠ Success → len' = len ∧ mem' = mem).
Proof.
  intros [t|] mem len Hle; [|by eexists _, _, _].
  destruct (decide ("000"%char ∈ t)) as [H|H].
  { unfold dump_to_string. rewrite (cstring_new_None _ H). by eexists _, _, _. }
  destruct (decide (N.of_nat (length t) < len)%N) as [Hlt|Hlt].
  - rewrite C39_large_buffer by done. eexists _, _, _. split; [done|]. split_and!.
    + rewrite !app_length, drop_length. simpl. lia.
    + rewrite app_assoc, drop_app_ge by (rewrite app_length; simpl; lia).
      rewrite drop_drop, app_length. simpl. f_equal. lia.
    + done.
  - rewrite C39_small_buffer; [|done|lia]. by eexists _, _, _.
Qed.
Print Assumptions C39_in_bounds.

Example C39_example :
  let t := ["f"; "u"; "n"]%char in
  "000"%char ∉ t ∧
  dump_to_string (Some t) None 7 = Some (Success, 3%N, None) ∧
  dump_to_string (Some t) (Some ["x"; "x"; "x"; "x"; "x"]%char) 5
    = Some (Success, 5%N, Some ["f"; "u"; "n"; "000"; "x"]%char) ∧
  dump_to_string (Some t) (Some ["x"; "x"; "x"]%char) 3
    = Some (InsufficientBufferLength, 3%N, Some ["x"; "x"; "x"]%char).
Proof. simpl. split; [|done]. rewrite !elem_of_cons, elem_of_nil. intros H. naive_solver. Qed.
