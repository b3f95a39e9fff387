(** C69: loads give what was stored, and stores change nothing else. *)
From Coq Require Import String Lia.
From stdpp Require Import list gmap.
From Verif Require Import Base IdModel TypeModel IrModel LayoutModel LexerModel DriverModel DriverSpec ArithModel InterpModel
  DceProperties SoundProperties LeakSpec StoreSpec StoreProofs.

(** Whatever the program, the function, the state and the pointer: after a store, a load
    through the same operand gives a copy of what was stored, which shares no buffer with it. *)
Theorem C69_load_store : ∀ E p vars fuel fd v val dest (W : xworld E) F W1 F1 W2 F2,
  x_store p vars fuel fd val dest W F = XOk (W1, F1) → x_load p vars fuel fd v dest W1 F1 = XOk (W2, F2) →
  ∃ x Wx y, x_eval p vars fuel fd F val W = XOk (x, Wx) ∧ copy (x_next W1) x y ∧ F2 = x_insert v y F.
Proof. intros E. apply load_store. Qed.
Print Assumptions C69_load_store.
(** What is at any other place is as before, if neither place is in the other. *)
Theorem C69_others : ∀ E p vars fuel fd val dest (W : xworld E) F W1 F1 q i n k q',
  x_store p vars fuel fd val dest W F = XOk (W1, F1) →
  x_value p vars fuel fd (xf_vals F) dest (x_next W) = XOk (XPtr (Some q) i n, k) →
  apart q q' →
  x_read (x_mem W1) q' = x_read (x_mem W) q'.
Proof. intros E. apply load_other. Qed.
Print Assumptions C69_others.
(** Allocations give new variables, which are zero, and change no other variable. *)
Theorem C69_alloc : ∀ E v d (W : xworld E) F W1 F1, numbered W → x_alloc v d W F = XOk (W1, F1) →
  ∃ t x b, v_ty d = TPtr t ∧ zero_of t x ∧ xf_vals F1 !! v = Some (XPtr (Some (Ptr b [])) 0 0) ∧
    x_mem W !! b = None ∧ x_read (x_mem W1) (Ptr b []) = XOk x ∧ ∀ q, pt_box q ≠ b → x_read (x_mem W1) q = x_read (x_mem W) q.
Proof. intros E. apply alloc_new. Qed.
Print Assumptions C69_alloc.

(** Two elements of an array in an array: an allocation, a store to one and a load from it. *)
Definition store_text : string :=
  "fun @main(): i32 {
   %e: %a = alloc [[i32, 2], 3] %r = getelemptr %a, 2 %x = getelemptr %r, 0 %y = getelemptr %r, 1 store 7, %x %l = load %x ret %l
   }".
Definition store_step (p : program) (fd : fdata) (v : value) (s : xworld (list N) * xframe) : xres (xworld (list N) * xframe) :=
  d ← xneed (d_values (f_dfg fd) !! v); x_inst wrapping p ∅ (λ _ _ _ _, XDeep) 5 fd v d s.1 s.2.
Definition store_start : xworld (list N) * xframe := (XWorld ∅ 0 [], XFrame ∅ []).
(** The instructions of the first block *)
Definition store_insts (p : program) : option (fdata * list value) :=
  fd ← x_main p (p_func_layout p); b ← head (l_bbs (f_layout fd)); Some (fd, b.2).
Definition stores_b (p : program) : bool :=
  match store_insts p with
  | Some (fd, [a; r; x; y; s; l; _]) =>
      match d_values (f_dfg fd) !! a, d_values (f_dfg fd) !! s with
      | Some da, Some ds =>
          match v_kind ds, x_alloc a da store_start.1 store_start.2 with
          | KStore c dest, XOk S1 =>
              match (R1 ← store_step p fd r S1; R2 ← store_step p fd x R1; store_step p fd y R2) with
              | XOk R =>
                  match x_store p ∅ 5 fd c dest R.1 R.2, x_value p ∅ 5 fd (xf_vals R.2) dest (x_next R.1), x_value p ∅ 5 fd (xf_vals R.2) y (x_next R.1) with
                  | XOk T, XOk (XPtr (Some (Ptr b [i; (j, 0)])) _ _, _), XOk (XPtr (Some (Ptr b' [i'; (j', 1)])) _ _, _) =>
                      bool_decide (b = b') && bool_decide (i = i') && bool_decide (j = j') &&
                      match x_load p ∅ 5 fd l dest T.1 T.2 with
                      | XOk U => match xf_vals U.2 !! l with Some (XInt z) => (z =? 7)%Z | _ => false end
                      | _ => false
                      end
                  | _, _, _ => false
                  end
              | _ => false
              end
          | _, _ => false
          end
      | _, _ => false
      end
  | _ => false
  end.
Example C69_example : ∃ p fd a da l c dest y S1 (R T U : xworld (list N) * xframe) q i n k q' i' n' k',
  returned (RByte <$> String.list_ascii_of_string store_text) p ∧
  numbered store_start.1 ∧ x_alloc a da store_start.1 store_start.2 = XOk S1 ∧
  x_store p ∅ 5 fd c dest R.1 R.2 = XOk (T.1, T.2) ∧
  x_value p ∅ 5 fd (xf_vals R.2) dest (x_next R.1) = XOk (XPtr (Some q) i n, k) ∧
  x_value p ∅ 5 fd (xf_vals R.2) y (x_next R.1) = XOk (XPtr (Some q') i' n', k') ∧ apart q q' ∧ pt_box q = pt_box q' ∧
  x_load p ∅ 5 fd l dest T.1 T.2 = XOk (U.1, U.2) ∧ xf_vals U.2 !! l = Some (XInt 7).
Proof.
  destruct (returned_check store_text) as [p Hr]; [vm_compute; reflexivity..|].
  pose proof (program_of_ok _ _ _ eq_refl Hr) as E.
  assert (H : stores_b p = true) by (rewrite E; vm_compute; reflexivity). clear E. unfold stores_b in H.
  destruct (store_insts p) as [[fd [|a [|r [|x [|y [|s [|l [|e [|]]]]]]]]]|]; try discriminate.
  destruct (d_values (f_dfg fd) !! a) as [da|]; [|discriminate]. destruct (d_values (f_dfg fd) !! s) as [ds|]; [|discriminate].
  destruct (v_kind ds) as [ ] eqn:Ek; try discriminate. match type of Ek with _ = KStore ?u ?w => rename u into c; try rename w into dest end.
  destruct (x_alloc a da store_start.1 store_start.2) as [S1| | | |] eqn:E1; try discriminate.
  destruct ((R1 ← store_step p fd r S1; R2 ← store_step p fd x R1; store_step p fd y R2)) as [R| | | |]; try discriminate.
  destruct (x_store p ∅ 5 fd c dest R.1 R.2) as [T| | | |] eqn:E2; try discriminate.
  destruct (x_value p ∅ 5 fd (xf_vals R.2) dest (x_next R.1)) as [[[| | |[[b [|f1 [|[j [|]] [|]]]]|] i n|] k]| | | |] eqn:E3; try discriminate.
  destruct (x_value p ∅ 5 fd (xf_vals R.2) y (x_next R.1)) as [[[| | |[[b' [|f2 [|[j' [|[|]]] [|]]]]|] i' n'|] k']| | | |] eqn:E4; try discriminate.
  apply andb_true_iff in H as [[[H1 H2]%andb_true_iff H3]%andb_true_iff H4].
  apply bool_decide_eq_true in H1 as <-. apply bool_decide_eq_true in H2 as <-. apply bool_decide_eq_true in H3 as <-.
  destruct (x_load p ∅ 5 fd l dest T.1 T.2) as [U| | | |] eqn:E5; try discriminate.
  destruct (xf_vals U.2 !! l) as [[|z| | |]|] eqn:E6; try discriminate. apply Z.eqb_eq in H4 as ->.
  exists p, fd, a, da, l, c, dest, y, S1, R, T, U, (Ptr b [f1; (j, 0)]), i, n, k, (Ptr b [f1; (j, 1)]), i', n', k'.
  split; [exact Hr|]. split; [intros z; simpl; by intros []%lookup_empty_is_Some|]. split; [exact E1|]. split; [by destruct T|]. split; [done|]. split; [exact E4|].
  split; [right; by exists [f1], (j, 0), (j, 1), [], []|]. split; [done|]. split; [by destruct U|done].
Qed.
