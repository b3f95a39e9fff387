(** C70: pointers to elements of arrays lead to these elements. *)
From Coq Require Import String Lia.
From stdpp Require Import list gmap.
From Verif Require Import Base IdModel TypeModel IrModel LayoutModel LexerModel DriverModel DriverSpec ArithModel InterpModel
  DceProperties SoundProperties ElemSpec ElemProofs StoreProperties.

(** [getelemptr] on a pointer to an array gives a pointer to the element with this index, and
    reports an error if the array has no such element. *)
Theorem C70_getelemptr : ∀ E (C : xconfig E) p vars fuel fd v d t src index W F off W1 a n len W2 i l,
  v_ty d = TPtr t → x_eval p vars fuel fd F index W = XOk (XInt off, W1) → x_eval p vars fuel fd F src W1 = XOk (XPtr (Some a) n len, W2) →
  x_read (x_mem W) a = XOk (XArr i l) →
  ((0 ≤ off < Z.of_nat (length l))%Z ∧
     ∃ y, x_getelemptr C p vars fuel fd v d src index W F = XOk (W2, x_insert v y F) ∧ elem_ptr (x_mem W2) a i l (Z.to_nat off) y) ∨
  (¬ (0 ≤ off < Z.of_nat (length l))%Z ∧ x_getelemptr C p vars fuel fd v d src index W F = XErr).
Proof. intros E C. apply getelemptr_elem. Qed.
Print Assumptions C70_getelemptr.
(** [getptr] on a pointer to an element gives a pointer to the element so many places further
    on in the same array, and reports an error if there is none. *)
Theorem C70_getptr : ∀ E (C : xconfig E) p vars fuel fd v d t src index W F off W1 s W2 a i l k,
  v_ty d = TPtr t → x_eval p vars fuel fd F index W = XOk (XInt off, W1) → x_eval p vars fuel fd F src W1 = XOk (s, W2) →
  elem_ptr (x_mem W) a i l k s →
  ((0 ≤ Z.of_nat k + off < Z.of_nat (length l))%Z ∧
     ∃ y, x_getptr C p vars fuel fd v d src index W F = XOk (W2, x_insert v y F) ∧ elem_ptr (x_mem W2) a i l (Z.to_nat (Z.of_nat k + off)) y) ∨
  (¬ (0 ≤ Z.of_nat k + off < Z.of_nat (length l))%Z ∧ x_getptr C p vars fuel fd v d src index W F = XErr).
Proof. intros E C. apply getptr_elem. Qed.
Print Assumptions C70_getptr.
(** Reading through a pointer to an element gives the element; writing through it gives the
    array with this element replaced. *)
Theorem C70_access : ∀ mem a i l k q n len, elem_ptr mem a i l k (XPtr (Some q) n len) →
  (∃ x, l !! k = Some x ∧ x_read mem q = XOk x) ∧
  ∀ x, ∃ mem', x_write mem q x = XOk mem' ∧ x_read mem' a = XOk (XArr i (<[k := x]> l)).
Proof. intros mem a i l k q n len H. split; [by eapply elem_reads|]. intros x. by eapply elem_writes. Qed.
Print Assumptions C70_access.
(** Pointers to whole variables cannot be moved, not even by nothing: they have index and
    length zero. *)
Theorem C70_variables : ∀ E (C : xconfig E) p vars fuel fd v d t src index W F off W1 q W2,
  v_ty d = TPtr t → x_eval p vars fuel fd F index W = XOk (XInt off, W1) → x_eval p vars fuel fd F src W1 = XOk (XPtr q 0 0, W2) →
  x_getptr C p vars fuel fd v d src index W F = XErr.
Proof. intros E C. apply getptr_var. Qed.
Print Assumptions C70_variables.

(** An array of arrays is allocated, and the third array in it is the source of [getptr]. *)
Definition elem_text : string :=
  "fun @main(): i32 {
   %e: %a = alloc [[i32, 2], 3] %r = getelemptr %a, 2 %s = getptr %r, -1 %x = getelemptr %s, 0 %l = load %x ret %l
   }".
Definition elems_b (p : program) : bool :=
  match store_insts p with
  | Some (fd, [a; r; s; _; _; _]) =>
      match d_values (f_dfg fd) !! r, d_values (f_dfg fd) !! s, store_step p fd a store_start with
      | Some dr, Some ds, XOk R =>
          match v_kind dr, v_kind ds, v_ty dr, v_ty ds with
          | KGetElemPtr src index, KGetPtr src' index', TPtr _, TPtr _ =>
              match x_eval p ∅ 5 fd R.2 index R.1 with
              | XOk (XInt 2, W1) =>
                  match x_eval p ∅ 5 fd R.2 src W1 with
                  | XOk (XPtr (Some q) _ _, _) =>
                      match x_read (x_mem R.1) q with
                      | XOk (XArr i l) =>
                          (length l =? 3)%nat &&
                          match x_getelemptr wrapping p ∅ 5 fd r dr src index R.1 R.2 with
                          | XOk T =>
                              match x_eval p ∅ 5 fd T.2 index' T.1 with
                              | XOk (XInt (-1), W3) =>
                                  match x_eval p ∅ 5 fd T.2 src' W3 with
                                  | XOk (XPtr (Some (Ptr b π)) 2 3, _) =>
                                      match x_read (x_mem T.1) q with
                                      | XOk (XArr j l') => (length l' =? 3)%nat && (b =? pt_box q)%N && bool_decide (π = pt_path q ++ [(j, 2)])
                                      | _ => false
                                      end
                                  | _ => false
                                  end
                              | _ => false
                              end
                          | _ => false
                          end
                      | _ => false
                      end
                  | _ => false
                  end
              | _ => false
              end
          | _, _, _, _ => false
          end
      | _, _, _ => false
      end
  | _ => false
  end.
Example C70_example : ∃ p fd dr ds src index src' index' r (R T : xworld (list N) * xframe) t t' W1 W2 W3 W4 q n len i l j l' s,
  returned (RByte <$> String.list_ascii_of_string elem_text) p ∧
  v_ty dr = TPtr t ∧ x_eval p ∅ 5 fd R.2 index R.1 = XOk (XInt 2, W1) ∧ x_eval p ∅ 5 fd R.2 src W1 = XOk (XPtr (Some q) n len, W2) ∧
  x_read (x_mem R.1) q = XOk (XArr i l) ∧ length l = 3 ∧ x_getelemptr wrapping p ∅ 5 fd r dr src index R.1 R.2 = XOk (T.1, T.2) ∧
  v_ty ds = TPtr t' ∧ x_eval p ∅ 5 fd T.2 index' T.1 = XOk (XInt (-1), W3) ∧ x_eval p ∅ 5 fd T.2 src' W3 = XOk (s, W4) ∧
  elem_ptr (x_mem T.1) q j l' 2 s.
Proof.
  destruct (returned_check elem_text) as [p Hr]; [vm_compute; reflexivity..|].
  pose proof (program_of_ok _ _ _ eq_refl Hr) as E.
  assert (H : elems_b p = true) by (rewrite E; vm_compute; reflexivity). clear E. unfold elems_b in H.
  destruct (store_insts p) as [[fd [|a [|r [|s [|x [|y [|z [|]]]]]]]]|]; try discriminate.
  destruct (d_values (f_dfg fd) !! r) as [dr|]; [|discriminate]. destruct (d_values (f_dfg fd) !! s) as [ds|]; [|discriminate].
  destruct (store_step p fd a store_start) as [R| | | |]; try discriminate.
  destruct (v_kind dr) eqn:Kr; try discriminate. destruct (v_kind ds) eqn:Ks; try discriminate.
  destruct (v_ty dr) as [| | |t|] eqn:Tr; try discriminate. destruct (v_ty ds) as [| | |t'|] eqn:Ts; try discriminate.
  destruct (x_eval p ∅ 5 fd R.2 index R.1) as [[[|[|[|[| |]|]|]| | |] W1]| | | |] eqn:E1; try discriminate.
  destruct (x_eval p ∅ 5 fd R.2 src W1) as [[[| | |[q|] n len|] W2]| | | |] eqn:E2; try discriminate.
  destruct (x_read (x_mem R.1) q) as [[| |i l| |]| | | |] eqn:E3; try discriminate.
  apply andb_true_iff in H as [Hl%Nat.eqb_eq H].
  destruct (x_getelemptr wrapping p ∅ 5 fd r dr src index R.1 R.2) as [T| | | |] eqn:E4; try discriminate.
  destruct (x_eval p ∅ 5 fd T.2 index0 T.1) as [[[|[| |[| |]]| | |] W3]| | | |] eqn:E5; try discriminate.
  destruct (x_eval p ∅ 5 fd T.2 src0 W3) as [[[| | |[[b π]|] [|[|[| |]|]] [|[[| |]| |]]|] W4]| | | |] eqn:E6; try discriminate.
  destruct (x_read (x_mem T.1) q) as [[| |j l'| |]| | | |] eqn:E7; try discriminate.
  apply andb_true_iff in H as [[H1%Nat.eqb_eq H2%N.eqb_eq]%andb_true_iff H3%bool_decide_eq_true]. subst b π.
  exists p, fd, dr, ds, src, index, src0, index0, r, R, T, t, t', W1, W2, W3, W4, q, n, len, i, l, j, l'. eexists.
  split; [exact Hr|]. split; [exact Tr|]. split; [exact E1|]. split; [exact E2|]. split; [exact E3|]. split; [exact Hl|]. split; [by destruct T|].
  split; [exact Ts|]. split; [exact E5|]. split; [exact E6|]. split; [exact E7|]. rewrite H1. split; [lia|reflexivity].
Qed.
