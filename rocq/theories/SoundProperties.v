(** C65: programs of the front end do not go wrong in the interpreter. *)
From Coq Require Import Lia.
From stdpp Require Import list gmap.
From Verif Require Import Base IdModel TypeModel IrModel LayoutModel LexerModel LexerProofs ParserModel ParserSpec FrontModel DriverModel DriverSpec
  ArithModel InterpModel DfgSpec UsesSpec TypingSpec ScopeSpec ScopeProofs DominSpec FaithSpec FaithTopProofs TreeWfProofs DceProperties InterpProperties RegularProofs
  DominCheckProofs DominProperties SoundSpec SoundTopProofs.

(** Every accepted text of ASCII characters in which definitions dominate uses, nothing is
    undefined and only data is allocated; with operators that cannot fail, and with a [@main]
    that takes no arguments: the interpreter does not panic, however long it runs, whatever
    foreign functions do, and in whatever order functions are visited.  So it does not meet
    values that are missing or of the wrong type, blocks or functions that are missing, blocks
    without end, or calls with the wrong number of arguments.  What is left are results, errors
    that it reports, and memory that is no longer there. *)
Theorem C65_no_panic : ∀ E (C : xconfig E) r p fuel order e,
  returned r p → (∀ c, RByte c ∈ r → is_ascii c) →
  (∀ f fd, p_funcs p !! f = Some fd → dominated fd) →
  no_undef p → only_data p → no_traps (c_checks C) p → plain_main p →
  interpret C fuel order p e ≠ XPanic.
Proof.
  intros E C r p fuel order e (n & b & s & ts & s' & H1 & H2 & H3 & H4) Ha HD HU HO HN HM.
  apply (front_safe C p ts fuel order e); [by eapply read_front|by eapply read_faithful| |exact HD|by eapply read_returns|exact HU|exact HO|exact HN|exact HM].
  unfold driver_new in H2. destruct (parser_new (lex_new r 0)) as [[] l] eqn:En; try discriminate. injection H2 as -> _.
  apply new_good in En; [|exact Ha]. exact (proj1 (parses_good _ _ _ H3 En)).
Qed.
Print Assumptions C65_no_panic.

(** Checks of the hypotheses *)
Fixpoint data_ty_b (t : ty) : bool :=
  match t with TInt32 | TPtr _ => true | TArray base _ => data_ty_b base | _ => false end.
Definition every_value_b (p : program) (P : vdata → bool) : bool :=
  forallb (λ e : N * vdata, P e.2) (map_to_list (p_values p)) &&
  forallb (λ e : N * fdata, forallb (λ e : N * vdata, P e.2) (map_to_list (vals e.2))) (map_to_list (p_funcs p)).
Lemma every_value_ok p (P : vdata → Prop) (B : vdata → bool) : (∀ d, B d = true → P d) → every_value_b p B = true → every_value p P.
Proof.
  unfold every_value_b. rewrite andb_true_iff, !forallb_forall. intros HB [H1 H2]. split.
  - intros v d Hv. apply HB, (H1 (v, d)), elem_of_list_In, elem_of_map_to_list, Hv.
  - intros f fd v d Hf Hv. specialize (H2 (f, fd)). rewrite forallb_forall in H2.
    apply HB, (H2 ltac:(by apply elem_of_list_In, elem_of_map_to_list) (v, d)), elem_of_list_In, elem_of_map_to_list, Hv.
Qed.
Definition sound_b (p : program) : bool :=
  every_value_b p (λ d, match v_kind d with KUndef => false | _ => true end) &&
  every_value_b p (λ d, match v_kind d with
                        | KZeroInit => data_ty_b (v_ty d)
                        | KAlloc => match v_ty d with TPtr t => data_ty_b t | _ => true end
                        | _ => true end) &&
  every_value_b p (λ d, match v_kind d with KBinary Div _ _ | KBinary Mod_ _ _ => false | _ => true end) &&
  forallb (λ e : N * fdata, match f_ty e.2 with TFun [] _ => true | _ => negb (String.eqb (f_name e.2) "@main") end) (map_to_list (p_funcs p)).
Lemma sound_b_ok p : sound_b p = true → no_undef p ∧ only_data p ∧ no_traps false p ∧ plain_main p.
Proof.
  assert (HT : ∀ t, data_ty_b t = true → data_ty t) by (induction t; simpl; auto; discriminate).
  unfold sound_b. rewrite !andb_true_iff. intros [[[H1 H2] H3] H4]. split; [|split; [|split]].
  - eapply every_value_ok; [|exact H1]. intros d. cbn beta. by destruct (v_kind d).
  - eapply every_value_ok; [|exact H2]. intros d. cbn beta. destruct (v_kind d); try done; [apply HT|]. destruct (v_ty d); try done. apply HT.
  - eapply every_value_ok; [|exact H3]. intros d. cbn beta. intros H op l r E. rewrite E in H. by destruct op.
  - rewrite forallb_forall in H4. intros f fd Hf Hn. specialize (H4 (f, fd) ltac:(by apply elem_of_list_In, elem_of_map_to_list)). simpl in H4.
    rewrite Hn in H4. destruct (f_ty fd) as [| | | |[|? ?] t]; try done. by exists t.
Qed.
(** The foreign function [@p] records its arguments; arithmetic wraps around. *)
Definition wrapping : xconfig (list N) :=
  XConfig (list N) false 8 (λ n, if String.eqb n "p" then Some (λ ws e, (e ++ ws, 0%N)) else None).

(** A loop over an array of arrays, pointers in memory, a recursive function, foreign calls. *)
Definition sound_text : string :=
  "global @g = alloc [[i32, 2], 2], {{1, 2}, zeroinit}
   decl @p(i32)
   fun @sum(@q: *i32, @n: i32): i32 {
   %e: br @n, %more, %end(0)
   %more: %k = sub @n, 1 %x = getptr @q, %k %v = load %x %s = call @sum(@q, %k) %t = add %s, %v jump %end(%t)
   %end(%r: i32): ret %r
   }
   fun @main(): i32 {
   %entry: %row = getelemptr @g, 0 %a = alloc *[i32, 2] store %row, %a jump %loop(0)
   %loop(%i: i32): %c = lt %i, 2 br %c, %body, %end
   %body: %w = load %a %y = getelemptr %w, 0 %z = call @sum(%y, 2) call @p(%z) store %z, %y %j = add %i, 1 jump %loop(%j)
   %end: %b = load %a %d = getelemptr %b, 0 %f = load %d ret %f
   }".
Definition outcome_is (r : xres (Z * list N)) (z : Z) (l : list N) : bool :=
  match r with XOk (z', l') => (z' =? z)%Z && bool_decide (l' = l) | _ => false end.
Lemma outcome_is_ok r z l : outcome_is r z l = true → r = XOk (z, l).
Proof.
  destruct r as [[z' l']| | | |]; try discriminate. simpl. rewrite andb_true_iff. intros [H1 H2].
  apply Z.eqb_eq in H1 as ->. apply bool_decide_eq_true in H2 as ->. reflexivity.
Qed.
Example C65_example : ∃ p,
  returned (RByte <$> String.list_ascii_of_string sound_text) p ∧
  (∀ c, RByte c ∈ RByte <$> String.list_ascii_of_string sound_text → is_ascii c) ∧
  (∀ f fd, p_funcs p !! f = Some fd → dominated fd) ∧
  no_undef p ∧ only_data p ∧ no_traps (c_checks wrapping) p ∧ plain_main p ∧
  interpret wrapping 40 (p_func_layout p) p [] = XOk (5%Z, [3; 5]%N).
Proof.
  destruct (returned_check sound_text) as [p Hr]; [vm_compute; reflexivity..|].
  pose proof (program_of_ok _ _ _ eq_refl Hr) as E.
  assert (H1 : dominated_all p = true) by (rewrite E; vm_compute; reflexivity).
  assert (H2 : sound_b p = true) by (rewrite E; vm_compute; reflexivity).
  assert (H3 : outcome_is (interpret wrapping 40 (p_func_layout p) p []) 5 [3; 5]%N = true) by (rewrite E; vm_compute; reflexivity).
  assert (H4 : ∀ c, RByte c ∈ RByte <$> String.list_ascii_of_string sound_text → is_ascii c) by (apply ascii_check; vm_compute; reflexivity).
  clear E. destruct (sound_b_ok _ H2) as (S1 & S2 & S3 & S4). exists p. split; [exact Hr|]. split; [exact H4|]. split; [exact (dominated_all_ok _ H1)|].
  split; [exact S1|]. split; [exact S2|]. split; [exact S3|]. split; [exact S4|]. exact (outcome_is_ok _ _ _ H3).
Qed.

(** None of this holds without domination: [%p] need not have a value when it is returned. *)
Definition panics_b (p : program) : bool :=
  match interpret wrapping 40 (p_func_layout p) p [] with XPanic => true | _ => false end.
Lemma panics_ok p : panics_b p = true → interpret wrapping 40 (p_func_layout p) p [] = XPanic.
Proof. unfold panics_b. by destruct (interpret _ _ _ _ _). Qed.
Definition missing_text : string :=
  "fun @main(): i32 {
   %entry: br 1, %a, %b(2)
   %b(%p: i32): jump %a
   %a: ret %p
   }".
Theorem C65_any_text_refuted : ∃ r p,
  returned r p ∧ (∀ c, RByte c ∈ r → is_ascii c) ∧ no_undef p ∧ only_data p ∧ no_traps (c_checks wrapping) p ∧ plain_main p ∧
  interpret wrapping 40 (p_func_layout p) p [] = XPanic.
Proof.
  destruct (returned_check missing_text) as [p Hr]; [vm_compute; reflexivity..|].
  pose proof (program_of_ok _ _ _ eq_refl Hr) as E.
  assert (H2 : sound_b p = true) by (rewrite E; vm_compute; reflexivity).
  assert (H3 : panics_b p = true) by (rewrite E; vm_compute; reflexivity).
  assert (H4 : ∀ c, RByte c ∈ RByte <$> String.list_ascii_of_string missing_text → is_ascii c) by (apply ascii_check; vm_compute; reflexivity).
  clear E. destruct (sound_b_ok _ H2) as (S1 & S2 & S3 & S4). eexists _, p. split; [exact Hr|]. split; [exact H4|].
  split; [exact S1|]. split; [exact S2|]. split; [exact S3|]. split; [exact S4|]. exact (panics_ok _ H3).
Qed.
Print Assumptions C65_any_text_refuted.
