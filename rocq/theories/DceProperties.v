(** C42, C47: dead code elimination keeps what matters, and when it panics. *)
From Coq Require Import Lia.
From Verif Require Import Base IdModel TypeModel IrModel LayoutModel WorldModel LexerModel LexerProofs
  ParserModel ParserSpec ParserProofs FrontModel DriverModel DriverSpec UsesSpec DfgSpec WorldSpec
  TypingSpec FlowSpec HistoryProofs DriverProperties FrontProperties DceModel DceSpec DceSweepProofs
  DceProofs DceTotalProofs DcePassProofs DceFrontProofs KoopaModel.

(** [p] is the program that the driver returns for the text [r]; the initializers of the text
    do not have as many values as there are identifiers of global values. *)
Definition returned (r : list revent) (p : program) : Prop :=
  ∃ n b s ts s', read_program r = (Rok p, n, b) ∧ driver_new r = (Rok s, 0%N) ∧ parses s ts s' ∧
    (foldr (λ t n, globals_in t + n) 0 ts < local_value_id_starts_from)%N.
Lemma returned_ok r p : returned r p →
  use_lists_exact p ∧ no_dangling p ∧ separated p ∧ shapes_ok p ∧ well_typed p.
Proof.
  intros (n & b & s & ts & s' & H1 & H2 & H3 & H4).
  destruct (read_consistent _ _ _ _ _ _ _ H1 H2 H3 H4) as (HU & HD & HT).
  split_and!; [exact HU|exact HD|exact (read_separated _ _ _ _ _ _ _ H1 H2 H3 H4)| |exact HT].
  exact (read_shapes _ _ _ _ H1 HT).
Qed.
(** Orders of iteration for the examples *)
Definition some_orders : dce_orders :=
  DceOrders (λ m, (map_to_list m).*1) (λ m, (map_to_list m).*1) id id id elements.
Lemma some_orders_fair : fair some_orders.
Proof.
  constructor; simpl; try done.
  - intros m. split; [apply NoDup_fst_map_to_list|]. intros v. rewrite elem_of_list_fmap. split.
    + intros ([v' d] & -> & H). apply elem_of_map_to_list in H. by eauto.
    + intros [d H]. exists (v, d). split; [done|]. by apply elem_of_map_to_list.
  - intros m. split; [apply NoDup_fst_map_to_list|]. intros v. rewrite elem_of_list_fmap. split.
    + intros ([v' d] & -> & H). apply elem_of_map_to_list in H. by eauto.
    + intros [d H]. exists (v, d). split; [done|]. by apply elem_of_map_to_list.
  - intros s. split; [apply NoDup_elements|]. intros v. apply elem_of_elements.
Qed.
Definition dce_text : string :=
  "decl @p(i32) fun @f(@n: i32): i32 {
   %entry: %d = add @n, 1 %x = alloc i32 store @n, %x jump %loop(0, %d)
   %loop(%i: i32, %u: i32): %w = mul %i, 3 %e = mul %w, 2 %c = lt %i, @n br %c, %body, %end
   %body: %j = add %i, 1 %l = load %x %k = sub %l, %l call @p(%j) jump %loop(%j, %d)
   %end: %q = load %x ret %q
   }".
Definition after_dce (t : string) : option string :=
  match read_program (RByte <$> String.list_ascii_of_string t) with
  | (Rok p, _, _) =>
      match dce_pass some_orders (p_func_layout p) ∅ p with
      | Dok (_, p') => match print_program p' with Rok s => Some s | _ => None end
      | _ => None
      end
  | _ => None
  end.

(** C42, one function: within any program whose use lists are exact ([graph_ok]), for every
    function of a sensible shape, whatever the marks left by other functions and in whatever
    order hash tables are visited: what is left is the function without values that nothing
    with an effect depends on; the use lists are exact again. *)
Theorem C42_function : ∀ E o live gs d live' gs' d', fair o →
  graph_ok E gs (vals d) (blks d) → shape_ok (vals d) (blks d) (f_layout d) →
  dce_run_on o live gs d = Dok (live', gs', d') →
  cleaned d d' ∧ graph_ok E gs' (vals d') (blks d') ∧ shape_ok (vals d') (blks d') (f_layout d') ∧
  ∀ v, clone_vdata <$> gs' !! v = clone_vdata <$> gs !! v.
Proof.
  intros E o live gs d live' gs' d' F Hok Hsh H.
  pose proof (rounds_trims _ _ _ F _ _ _ _ _ _ Hok Hsh H) as [T1 T2 T3 T4 T5 T6 T7 T8 T9 T10].
  split_and!; [by constructor|done|done|]. intros v. symmetry. apply T6.
Qed.
Print Assumptions C42_function.
(** C42, all functions of a program, one after the other. *)
Theorem C42_program : ∀ o order live p live' p', fair o →
  use_lists_exact p → no_dangling p → separated p → shapes_ok p →
  dce_pass o order live p = Dok (live', p') →
  use_lists_exact p' ∧ no_dangling p' ∧ separated p' ∧ shapes_ok p' ∧ cleaned_program p p'.
Proof. intros o order live p live' p' F. exact (dce_pass_ok o order F live p live' p'). Qed.
Print Assumptions C42_program.
(** C42: the hypotheses hold of every program that the front end returns. *)
Theorem C42_accepted : ∀ o order live r p live' p', fair o → returned r p →
  dce_pass o order live p = Dok (live', p') →
  use_lists_exact p' ∧ no_dangling p' ∧ separated p' ∧ shapes_ok p' ∧ cleaned_program p p'.
Proof.
  intros o order live r p live' p' F Hr H. destruct (returned_ok _ _ Hr) as (HU & HD & HS & Hsh & _).
  exact (dce_pass_ok o order F live p live' p' HU HD HS Hsh H).
Qed.
Print Assumptions C42_accepted.
(** C42: in particular a store, call, branch, jump or return remains, at its place: it is
    the same instruction, except for arguments of block parameters that are removed; and its
    direct operands (all but block arguments) remain. *)
Theorem C42_effects : ∀ fd fd', cleaned fd fd' → ∀ v x,
  vals fd !! v = Some x → effectful (v_kind x) →
  ∃ x', vals fd' !! v = Some x' ∧ v_ty x' = v_ty x ∧ v_name x' = v_name x ∧
    effectful (v_kind x') ∧ direct (v_kind x') = direct (v_kind x) ∧
    targets (v_kind x') = targets (v_kind x) ∧
    (∀ u, u ∈ direct (v_kind x) → is_Some (vals fd !! u) → is_Some (vals fd' !! u)) ∧
    l_inst_bb (f_layout fd') !! v = l_inst_bb (f_layout fd) !! v.
Proof.
  intros fd fd' [[C1 C2] C3 [C4 C5] _ _ _ _] v x Hx He.
  destruct (C3 v) as [x' Hx']; [by eapply N_effect|].
  destruct (C1 _ _ Hx') as (x0 & H0 & H1 & H2 & H3). rewrite Hx in H0. injection H0 as <-.
  exists x'. split_and!; try done.
  - rewrite H3. by destruct (v_kind x).
  - rewrite H3. by destruct (v_kind x).
  - rewrite H3. by destruct (v_kind x).
  - intros u Hu Hs. apply C3. eapply N_operand; [by eapply N_effect|done..].
  - rewrite C5. rewrite decide_True; [done|]. by eexists.
Qed.
Print Assumptions C42_effects.

(** C47: on a program that the front end returns, if no function uses a global value, the pass
    does not panic and ends, whatever the order in which functions, values and blocks are
    visited. *)
Theorem C47_total : ∀ o order r p, fair o → returned r p → no_globals_used p →
  NoDup order → (∀ f, f ∈ order → is_Some (p_funcs p !! f)) →
  ∃ live' p', dce_pass o order ∅ p = Dok (live', p').
Proof.
  intros o order r p F Hr HN Hn Hin. destruct (returned_ok _ _ Hr) as (HU & HD & HS & Hsh & HT).
  destruct Hr as (n & b & s & ts & s' & H1 & _).
  destruct (dce_pass_total o order F ∅ p Hn Hin HU HD HS Hsh) as [[l' p'] H].
  - exact (read_tame _ _ _ _ H1 HT HS HD HN).
  - intros f fd _ _ v Hv. by apply elem_of_empty in Hv.
  - exists l', p'. exact H.
Qed.
Print Assumptions C47_total.
(** C47: it panics on every program with a store, call, branch, jump or return that has a
    global value as an operand. *)
Theorem C47_global_panics : ∀ o order r p f fd u x v, fair o → returned r p → NoDup order →
  f ∈ order → p_funcs p !! f = Some fd → vals fd !! u = Some x → effectful (v_kind x) →
  v ∈ operands (v_kind x) → is_Some (p_values p !! v) →
  dce_pass o order ∅ p = Dpanic.
Proof.
  intros o order r p f fd u x v F Hr Hn Hin Hf Hx He Hv Hs.
  destruct (returned_ok _ _ Hr) as (HU & HD & HS & Hsh & _).
  apply (dce_pass_globals o order f fd u x v F ∅ p Hn HU HD HS Hsh); [|exact Hin|exact Hf|exact Hx|exact He|exact Hv|exact Hs].
  intros y Hy. by apply elem_of_empty in Hy.
Qed.
Print Assumptions C47_global_panics.

(** ** Examples *)
Lemma returned_check t : match trees_text t with
    | Some ts => (foldr (λ t n, globals_in t + n) 0 ts <? local_value_id_starts_from)%N
    | None => false end = true →
  run_text t = ("program", 0%N)%string →
  ∃ p, returned (RByte <$> String.list_ascii_of_string t) p.
Proof.
  intros H1 H2. destruct (trees_text t) as [ts|] eqn:E; [|discriminate].
  destruct (accepted_check t ts H2 E) as (s & s' & p & b & A1 & A2 & A3 & _).
  exists p, 0%N, b, s, ts, s'. split; [exact A3|]. split; [exact A1|]. split; [exact A2|].
  apply N.ltb_lt. exact H1.
Qed.
Definition no_globals_b (p : program) : bool :=
  forallb (λ x, forallb (λ y, forallb (λ v, match p_values p !! v with Some _ => false | None => true end)
    (operands (v_kind y.2))) (map_to_list (vals x.2))) (map_to_list (p_funcs p)).
Lemma no_globals_b_ok p : no_globals_b p = true → no_globals_used p.
Proof.
  unfold no_globals_b. rewrite forallb_forall. intros H f fd u v Hf (d & Hd & Hv).
  specialize (H (f, fd)). rewrite forallb_forall in H.
  assert (Hin : (f, fd) ∈ map_to_list (p_funcs p)) by by apply elem_of_map_to_list.
  specialize (H (proj1 (elem_of_list_In _ _) Hin) (u, d)). rewrite forallb_forall in H.
  assert (Hin2 : (u, d) ∈ map_to_list (vals fd)) by by apply elem_of_map_to_list.
  specialize (H (proj1 (elem_of_list_In _ _) Hin2) v (proj1 (elem_of_list_In _ _) Hv)).
  by destruct (p_values p !! v).
Qed.
Definition program_of (t : string) : program :=
  match read_program (RByte <$> String.list_ascii_of_string t) with
  | (Rok p, _, _) => p | _ => Program ∅ [] ∅ ∅ [] end.
Lemma program_of_ok r t p : r = RByte <$> String.list_ascii_of_string t → returned r p → p = program_of t.
Proof.
  intros -> (n & b & s & ts & s' & H & _). unfold program_of. rewrite H. reflexivity.
Qed.
(** The pass removes %w, %e, %l, %k, the parameter %u and the arguments passed for it; it
    keeps %d, of which only a removed argument was a use. *)
Example C42_example :
  after_dce dce_text = Some
"decl @p(i32)

fun @f(@n: i32): i32 {
%entry:
  %d = add @n, 1
  %x = alloc i32
  store @n, %x
  jump %loop(0)

%loop(%i: i32):
  %c = lt %i, @n
  br %c, %body, %end

%body:
  %j = add %i, 1
  call @p(%j)
  jump %loop(%j)

%end:
  %q = load %x
  ret %q
}
"%string.
Proof. vm_compute. reflexivity. Qed.
(** The hypotheses of the theorems above, met by that program. *)
Example C42_example_hypotheses : ∃ p live' p',
  returned (RByte <$> String.list_ascii_of_string dce_text) p ∧
  use_lists_exact p ∧ no_dangling p ∧ separated p ∧ shapes_ok p ∧ no_globals_used p ∧
  length (p_func_layout p) = 2 ∧
  (∀ f, f ∈ p_func_layout p → is_Some (p_funcs p !! f)) ∧ NoDup (p_func_layout p) ∧
  dce_pass some_orders (p_func_layout p) ∅ p = Dok (live', p').
Proof.
  destruct (returned_check dce_text) as [p Hr]; [vm_compute; reflexivity..|].
  pose proof (program_of_ok _ _ _ eq_refl Hr) as E.
  assert (HN : no_globals_used p).
  { apply no_globals_b_ok. rewrite E. vm_compute. reflexivity. }
  assert (H3 : forallb (λ f, match p_funcs p !! f with Some _ => true | None => false end) (p_func_layout p) = true).
  { rewrite E. vm_compute. reflexivity. }
  assert (H4 : bool_decide (NoDup (p_func_layout p)) = true).
  { rewrite E. vm_compute. reflexivity. }
  assert (H5 : length (p_func_layout p) = 2).
  { rewrite E. vm_compute. reflexivity. }
  clear E. apply bool_decide_eq_true_1 in H4.
  assert (H6 : ∀ f, f ∈ p_func_layout p → is_Some (p_funcs p !! f)).
  { intros f Hf. rewrite forallb_forall in H3. specialize (H3 f (proj1 (elem_of_list_In _ _) Hf)).
    destruct (p_funcs p !! f); [by eauto|discriminate]. }
  destruct (returned_ok _ _ Hr) as (HU & HD & HS & Hsh & _).
  destruct (C47_total some_orders (p_func_layout p) _ p some_orders_fair Hr HN H4 H6) as (l' & p' & Hp).
  exists p, l', p'. split_and!; [exact Hr|exact HU|exact HD|exact HS|exact Hsh|exact HN|exact H5|exact H6|exact H4|exact Hp].
Qed.
(** ... and one that stores into a global variable. *)
Definition global_text : string :=
  "global @g = alloc i32, 5 fun @f() { %entry: store 1, @g ret
   }".
Definition is_effectful (k : vkind) : bool := is_critical_inst k.
Definition global_operand_b (p : program) : bool :=
  existsb (λ f, match p_funcs p !! f with
    | Some fd => existsb (λ y, is_effectful (v_kind y.2) &&
        existsb (λ v, match p_values p !! v with Some _ => true | None => false end) (operands (v_kind y.2)))
        (map_to_list (vals fd))
    | None => false end) (p_func_layout p).
Lemma global_operand_ok p : global_operand_b p = true →
  ∃ f fd u x v, f ∈ p_func_layout p ∧ p_funcs p !! f = Some fd ∧ vals fd !! u = Some x ∧
    effectful (v_kind x) ∧ v ∈ operands (v_kind x) ∧ is_Some (p_values p !! v).
Proof.
  unfold global_operand_b. rewrite existsb_exists. intros (f & Hf & H).
  destruct (p_funcs p !! f) as [fd|] eqn:Ef; [|discriminate].
  rewrite existsb_exists in H. destruct H as ([u x] & Hu & H). apply andb_true_iff in H as [He H].
  rewrite existsb_exists in H. destruct H as (v & Hv & H).
  exists f, fd, u, x, v. split_and!.
  - by apply elem_of_list_In.
  - done.
  - apply elem_of_list_In, elem_of_map_to_list in Hu. done.
  - revert He. unfold is_effectful. simpl. by destruct (v_kind x).
  - by apply elem_of_list_In.
  - destruct (p_values p !! v); [by eauto|discriminate].
Qed.
(** The pass does not run to completion on every program that the front end returns. *)
Theorem C47_no_panic_refuted : ∃ r p, returned r p ∧ NoDup (p_func_layout p) ∧
  ∀ o, fair o → dce_pass o (p_func_layout p) ∅ p = Dpanic.
Proof.
  destruct (returned_check global_text) as [p Hr]; [vm_compute; reflexivity..|].
  pose proof (program_of_ok _ _ _ eq_refl Hr) as E.
  assert (H4 : bool_decide (NoDup (p_func_layout p)) = true).
  { rewrite E. vm_compute. reflexivity. }
  assert (H5 : global_operand_b p = true).
  { rewrite E. vm_compute. reflexivity. }
  clear E. apply bool_decide_eq_true_1 in H4.
  apply global_operand_ok in H5 as (f & fd & u & x & v & A1 & A2 & A3 & A4 & A5 & A6).
  exists (RByte <$> String.list_ascii_of_string global_text), p. split; [exact Hr|]. split; [exact H4|].
  intros o F. exact (C47_global_panics o _ _ p f fd u x v F Hr H4 A1 A2 A3 A4 A5 A6).
Qed.
Print Assumptions C47_no_panic_refuted.
