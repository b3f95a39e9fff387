(** C68: programs without loops and recursion end. *)
From Coq Require Import Lia.
From stdpp Require Import list gmap.
From Verif Require Import Base IdModel TypeModel IrModel LayoutModel LexerModel LexerProofs ParserModel ParserSpec FrontModel DriverModel DriverSpec
  ArithModel InterpModel DfgSpec UsesSpec TypingSpec ScopeSpec ScopeProofs DominSpec FaithSpec FaithTopProofs TreeWfProofs DceProperties InterpProperties InterpFuelProofs
  RegularProofs DominCheckProofs DominProperties SoundSpec SoundTopProofs SoundProperties KeepSpec KeepProperties FallSpec FallProofs.

(** Every accepted text whose program has neither loops nor recursion: there is a depth of the
    recursion of the interpreter that is enough whatever the foreign functions are and do, and
    in whatever order functions are visited; greater depths do not change the outcome. *)
Theorem C68_ends : ∀ r p rank, returned r p → falls p rank →
  ∃ n, ∀ E (C : xconfig E) fuel order e, (n ≤ fuel)%nat →
    interpret C fuel order p e ≠ XDeep ∧ interpret C fuel order p e = interpret C n order p e.
Proof.
  intros r p rank (n & b & s & ts & s' & H1 & H2 & H3 & H4) HF.
  destruct (front_ends_all p rank) as [k Hk]; [by eapply read_front|done|eapply front_allocs; by eapply read_faithful|].
  exists k. intros E C fuel order e Hf. split; [by apply Hk|].
  replace fuel with (k + (fuel - k))%nat by lia. apply interpret_more; [done|]. by apply Hk.
Qed.
Print Assumptions C68_ends.
(** With the conditions of C65 and C66 as well, such a program gives a result or reports an
    error. *)
Theorem C68_total : ∀ r p rank, returned r p → (∀ c, RByte c ∈ r → is_ascii c) → falls p rank →
  (∀ f fd, p_funcs p !! f = Some fd → dominated fd) →
  no_undef p → only_data p → plain_main p → keeping p →
  ∃ n, ∀ E (C : xconfig E) order e, no_traps (c_checks C) p →
    (∃ z e', ∀ fuel, (n ≤ fuel)%nat → interpret C fuel order p e = XOk (z, e')) ∨
    ∀ fuel, (n ≤ fuel)%nat → interpret C fuel order p e = XErr.
Proof.
  intros r p rank Hr Ha HF HD HU HO HM HT. destruct (C68_ends r p rank Hr HF) as [n Hn]. exists n. intros E C order e HN.
  destruct (C66_safe E C r p n order e Hr Ha HD HU HO HN HM HT) as [(z & e' & H)|[H|H]].
  - left. exists z, e'. intros fuel Hf. destruct (Hn E C fuel order e Hf) as [_ ->]. exact H.
  - right. intros fuel Hf. destruct (Hn E C fuel order e Hf) as [_ ->]. exact H.
  - destruct (Hn E C n order e (le_n n)) as [Hd _]. by destruct (Hd H).
Qed.
Print Assumptions C68_total.

(** A check of [falls] *)
Definition falls_b (p : program) (rank : func → bblock → nat) : bool :=
  forallb (λ e : N * fdata,
    forallb (λ b : bblock * list value,
      forallb (λ v,
        match d_values (f_dfg e.2) !! v with
        | Some d =>
            forallb (λ c, rank e.1 c <? rank e.1 b.1)%nat (targets (v_kind d)) &&
            match v_kind d with
            | KCall g _ =>
                match p_funcs p !! g with
                | Some gd => match l_bbs (f_layout gd) with (c, _) :: _ => (rank g c <? rank e.1 b.1)%nat | [] => true end
                | None => true
                end
            | _ => true
            end
        | None => true
        end) b.2) (l_bbs (f_layout e.2))) (map_to_list (p_funcs p)).
Lemma falls_b_ok p rank : falls_b p rank = true → falls p rank.
Proof.
  unfold falls_b. rewrite forallb_forall. intros H f fd b is v d Hf Hb Hv Hd.
  specialize (H (f, fd) ltac:(by apply elem_of_list_In, elem_of_map_to_list)). rewrite forallb_forall in H.
  specialize (H (b, is) ltac:(by apply elem_of_list_In)). rewrite forallb_forall in H. specialize (H v ltac:(by apply elem_of_list_In)). cbn [fst snd] in H.
  rewrite Hd in H. apply andb_true_iff in H as [H1 H2]. split.
  - rewrite forallb_forall in H1. intros c Hc. apply Nat.ltb_lt, H1. by apply elem_of_list_In.
  - intros g args gd c is' bs Hk Hg Hl. rewrite Hk, Hg, Hl in H2. by apply Nat.ltb_lt.
Qed.
(** Functions call those before them, and blocks jump to those after them. *)
Fixpoint place (x : N) (l : list N) : nat :=
  match l with [] => 0 | y :: l' => if (x =? y)%N then 0 else S (place x l') end.
Definition in_order (p : program) (f : func) (b : bblock) : nat :=
  match p_funcs p !! f with
  | Some fd => 10 * place f (p_func_layout p) + (9 - place b ((l_bbs (f_layout fd)).*1))
  | None => 0
  end.
Definition fall_text : string :=
  "global @g = alloc [i32, 2], {7, 3}
   decl @p(i32)
   fun @max(@x: i32, @y: i32): i32 {
   %e: %c = lt @x, @y br %c, %other, %end(@x)
   %other: jump %end(@y)
   %end(%r: i32): ret %r
   }
   fun @main(): i32 {
   %e: %v = alloc *i32 %a = getelemptr @g, 0 store %a, %v %u = load %v %i = getptr %u, 1 %m = load %u %n = load %i
     %k = call @max(%m, %n) call @p(%k) store %n, %u %o = load %u %q = call @max(%o, %n) ret %q
   }".
Example C68_example : ∃ p,
  returned (RByte <$> String.list_ascii_of_string fall_text) p ∧
  (∀ c, RByte c ∈ RByte <$> String.list_ascii_of_string fall_text → is_ascii c) ∧
  falls p (in_order p) ∧
  (∀ f fd, p_funcs p !! f = Some fd → dominated fd) ∧
  no_undef p ∧ only_data p ∧ no_traps (c_checks wrapping) p ∧ plain_main p ∧ keeping p ∧
  interpret wrapping 9 (p_func_layout p) p [] = XOk (3%Z, [7]%N).
Proof.
  destruct (returned_check fall_text) as [p Hr]; [vm_compute; reflexivity..|].
  pose proof (program_of_ok _ _ _ eq_refl Hr) as E.
  assert (H1 : dominated_all p = true) by (rewrite E; vm_compute; reflexivity).
  assert (H2 : sound_b p = true) by (rewrite E; vm_compute; reflexivity).
  assert (H3 : outcome_is (interpret wrapping 9 (p_func_layout p) p []) 3 [7]%N = true) by (rewrite E; vm_compute; reflexivity).
  assert (H4 : ∀ c, RByte c ∈ RByte <$> String.list_ascii_of_string fall_text → is_ascii c) by (apply ascii_check; vm_compute; reflexivity).
  assert (H5 : keeping_b p = true) by (rewrite E; vm_compute; reflexivity).
  assert (H6 : falls_b p (in_order p) = true) by (rewrite E; vm_compute; reflexivity).
  clear E. destruct (sound_b_ok _ H2) as (S1 & S2 & S3 & S4). exists p. split; [exact Hr|]. split; [exact H4|]. split; [exact (falls_b_ok _ _ H6)|].
  split; [exact (dominated_all_ok _ H1)|]. split; [exact S1|]. split; [exact S2|]. split; [exact S3|]. split; [exact S4|].
  split; [exact (keeping_b_ok _ H5)|]. exact (outcome_is_ok _ _ _ H3).
Qed.

(** Without a rank this is false: two blocks, the second of which jumps to itself.  No depth is
    enough. *)
Definition loop_text : string := "fun @main(): i32 {
   %e: jump %l
   %l: jump %l
   }".
Definition jumps (fd : fdata) (j : value) (b : bblock) : bool :=
  match d_values (f_dfg fd) !! j with
  | Some d => match v_kind d with KJump t [] => (t =? b)%N | _ => false end
  | None => false
  end.
Definition loops_b (p : program) : bool :=
  match p_inst_layout p, x_main p (p_func_layout p) with
  | [], Some fd =>
      match f_ty fd, l_bbs (f_layout fd) with
      | TFun [] _, [(_, [i]); (l, [j])] =>
          params_exist fd && jumps fd i l && jumps fd j l && bool_decide (find_bb l (l_bbs (f_layout fd)) = Some [j]) &&
          match d_bbs (f_dfg fd) !! l with Some bd => match bb_params bd with [] => true | _ => false end | None => false end
      | _, _ => false
      end
  | _, _ => false
  end.
Lemma jump_on E (C : xconfig E) p vars fd j l is bd k W F : jumps fd j l = true → d_bbs (f_dfg fd) !! l = Some bd → bb_params bd = [] →
  find_bb l (l_bbs (f_layout fd)) = Some is → x_bb C p vars (S k) fd [j] W F = x_bb C p vars k fd is W F.
Proof.
  unfold jumps. destruct (d_values (f_dfg fd) !! j) as [d|] eqn:Ed; [|done]. intros Hj Hb Hp Hf. cbn [x_bb x_insts]. rewrite Ed. cbn [xneed mbind xres_bind].
  destruct (v_kind d); try done. destruct args; [|done]. apply N.eqb_eq in Hj as ->. unfold x_goto. rewrite Hb. cbn [xneed mbind xres_bind]. rewrite Hp.
  cbn [x_params mbind xres_bind]. by rewrite Hf.
Qed.
Theorem C68_loop_refuted : ∃ r p, returned r p ∧ (∀ c, RByte c ∈ r → is_ascii c) ∧
  ∀ E (C : xconfig E) fuel e, interpret C fuel (p_func_layout p) p e = XDeep.
Proof.
  destruct (returned_check loop_text) as [p Hr]; [vm_compute; reflexivity..|].
  pose proof (program_of_ok _ _ _ eq_refl Hr) as E0.
  assert (H : loops_b p = true) by (rewrite E0; vm_compute; reflexivity). clear E0.
  exists (RByte <$> String.list_ascii_of_string loop_text), p. split; [exact Hr|]. split; [apply ascii_check; vm_compute; reflexivity|].
  intros E C fuel e. unfold loops_b in H. unfold interpret. destruct (p_inst_layout p) as [|]; [|discriminate]. cbn [x_globals mbind xres_bind].
  destruct (x_main p (p_func_layout p)) as [fd|]; [|discriminate]. unfold x_func.
  destruct (f_ty fd) as [| | | |[|] ret]; try discriminate. cbn [length Nat.eqb negb].
  destruct (l_bbs (f_layout fd)) as [|[b [|i [|]]] [|[l [|j [|]]] [|]]] eqn:El; try discriminate.
  apply andb_true_iff in H as [[[[H1 H2]%andb_true_iff H3]%andb_true_iff H4]%andb_true_iff H5]. rewrite H1. apply bool_decide_eq_true in H4. rewrite <- El in H4.
  destruct (d_bbs (f_dfg fd) !! l) as [bd|] eqn:Eb; [|discriminate]. destruct (bb_params bd) as [|] eqn:Ep; [|discriminate].
  assert (HL : ∀ k W F, x_bb C p ∅ k fd [j] W F = XDeep).
  { intros k. induction k as [|k IH]; intros W F; [reflexivity|]. rewrite (jump_on E C p ∅ fd j l [j] bd k W F H3 Eb Ep H4). apply IH. }
  destruct fuel as [|k]; [reflexivity|]. rewrite (jump_on E C p ∅ fd i l [j] bd k _ _ H2 Eb Ep H4), HL. reflexivity.
Qed.
Print Assumptions C68_loop_refuted.
