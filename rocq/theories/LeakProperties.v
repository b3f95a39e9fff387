(** C67: calls drop the variables they allocate, and no others. *)
From Coq Require Import Lia.
From stdpp Require Import list gmap.
From Verif Require Import Base IdModel TypeModel IrModel LayoutModel LexerModel DriverModel DriverSpec ArithModel InterpModel
  DceProperties SoundProperties LeakSpec LeakProofs.

(** Every function of every program, called in a state in which the numbers of the boxes are
    used up: when it returns, exactly the boxes are there that were there before, whatever it
    allocated and called; those of its callers and the global variables are not dropped, and
    its own are not left behind. *)
Theorem C67_calls : ∀ E (C : xconfig E) p vars fuel fd args W x W',
  numbered W → x_func C (x_bb C p vars fuel) fd args W = XOk (x, W') → same_boxes W W' ∧ numbered W'.
Proof.
  intros E C p vars fuel fd args W x W' Hn Hx.
  pose proof (func_boxes C (x_bb C p vars fuel) fd args W (bb_grows C p vars fuel) Hn) as H. rewrite Hx in H. by destruct H as (H1 & H2 & _).
Qed.
Print Assumptions C67_calls.
(** A whole run: there is a box for each global variable when [@main] is called, and these are
    the boxes when it returns. *)
Theorem C67_run : ∀ E (C : xconfig E) p fuel fd e vars W x W',
  x_globals fuel p (p_inst_layout p) ∅ (XWorld ∅ 0 e) = XOk (vars, W) →
  x_func C (x_bb C p vars fuel) fd [] W = XOk (x, W') →
  same_boxes W W' ∧ base.size (x_mem W') = length (p_inst_layout p).
Proof.
  intros E C p fuel fd e vars W x W' Hg Hx.
  assert (H0 : numbered (XWorld ∅ 0 e)) by (intros b; simpl; by intros []%lookup_empty_is_Some).
  pose proof (globals_numbered fuel p (p_inst_layout p) ∅ _ H0) as H. rewrite Hg in H. cbn [okp fst snd x_mem] in H. destruct H as (H1 & _ & H2).
  rewrite map_size_empty in H2. cbn [Nat.add] in H2. destruct (C67_calls _ _ _ _ _ _ _ _ _ _ H1 Hx) as [H3 _]. split; [exact H3|].
  rewrite <- H2. rewrite <- !size_dom. f_equal. apply set_eq. intros b. rewrite !elem_of_dom. apply H3.
Qed.
Print Assumptions C67_run.

(** The program of C65: [@main] allocates a variable and calls functions. *)
Definition drops_b (p : program) : bool :=
  match x_globals 40 p (p_inst_layout p) ∅ (XWorld ∅ 0 []) with
  | XOk (vars, W) =>
      match x_main p (p_func_layout p) with
      | Some fd =>
          match x_func wrapping (x_bb wrapping p vars 40) fd [] W with
          | XOk (x, W') => (x_next W <? x_next W')%N && (base.size (x_mem W') =? 1)%nat && negb (bool_decide (x_extern W' = []))
          | _ => false
          end
      | None => false
      end
  | _ => false
  end.
Example C67_example : ∃ p vars W fd x W',
  returned (RByte <$> String.list_ascii_of_string sound_text) p ∧
  x_globals 40 p (p_inst_layout p) ∅ (XWorld ∅ 0 []) = XOk (vars, W) ∧
  x_main p (p_func_layout p) = Some fd ∧
  x_func wrapping (x_bb wrapping p vars 40) fd [] W = XOk (x, W') ∧
  (x_next W < x_next W')%N ∧ base.size (x_mem W') = 1 ∧ x_extern W' ≠ [].
Proof.
  destruct (returned_check sound_text) as [p Hr]; [vm_compute; reflexivity..|].
  pose proof (program_of_ok _ _ _ eq_refl Hr) as E.
  assert (H : drops_b p = true) by (rewrite E; vm_compute; reflexivity). clear E. unfold drops_b in H.
  destruct (x_globals 40 p (p_inst_layout p) ∅ (XWorld ∅ 0 [])) as [[vars W]| | | |] eqn:E1; try discriminate.
  destruct (x_main p (p_func_layout p)) as [fd|] eqn:E2; try discriminate.
  destruct (x_func wrapping (x_bb wrapping p vars 40) fd [] W) as [[x W']| | | |] eqn:E3; try discriminate.
  apply andb_true_iff in H as [[H1 H2]%andb_true_iff H3]. apply N.ltb_lt in H1. apply Nat.eqb_eq in H2. apply negb_true_iff, bool_decide_eq_false in H3.
  exists p, vars, W, fd, x, W'. split; [exact Hr|]. split; [exact E1|]. split; [exact E2|]. split; [exact E3|]. split; [exact H1|]. split; [exact H2|exact H3].
Qed.
