(** Pointers to elements of arrays (C70). *)
From Coq Require Import Lia ZifyBool ZifyNat ZifyN.
From stdpp Require Import list gmap.
From Verif Require Import Base IdModel TypeModel IrModel LayoutModel ArithModel InterpModel StoreProofs ElemSpec.

Lemma at_app v π ρ : at_path v (π ++ ρ) = x ← at_path v π; at_path x ρ.
Proof.
  revert v. induction π as [|[i k] π IH]; intros v; [done|]. simpl. destruct v as [| |j l| |]; try done. destruct (i =? j)%N; [|done].
  destruct (l !! k) as [y|]; [|done]. simpl. apply IH.
Qed.
Lemma set_app v π ρ x y z : at_path v π = Some y → set_path y ρ x = Some z → set_path v (π ++ ρ) x = set_path v π z.
Proof.
  revert v. induction π as [|[i k] π IH]; intros v Hy Hz; simpl in *; [by injection Hy as ->|]. destruct v as [| |j l| |]; try done. destruct (i =? j)%N; [|done].
  destruct (l !! k) as [w|]; [|done]. simpl in *. by rewrite (IH w Hy Hz).
Qed.
Lemma set_some v π x y : at_path v π = Some y → is_Some (set_path v π x).
Proof.
  revert v. induction π as [|[i k] π IH]; intros v Hy; simpl in *; [by eexists|]. destruct v as [| |j l| |]; try done. destruct (i =? j)%N; [|done].
  destruct (l !! k) as [w|]; [|done]. simpl in *. destruct (IH w Hy) as [u Hu]. rewrite Hu. simpl. by eexists.
Qed.
Lemma read_inv m q x : x_read m q = XOk x → ∃ v, m !! pt_box q = Some v ∧ at_path v (pt_path q) = Some x.
Proof.
  unfold x_read. destruct (m !! pt_box q) as [v|]; [|done]. simpl. destruct (at_path v (pt_path q)) as [y|] eqn:Ey; [|done]. simpl. intros [= <-]. by exists v.
Qed.
Lemma elem_reads mem a i l k q n len : elem_ptr mem a i l k (XPtr (Some q) n len) → ∃ x, l !! k = Some x ∧ x_read mem q = XOk x.
Proof.
  intros ((v & Hv & Ha)%read_inv & Hk & Hx). injection Hx as -> -> ->. destruct (lookup_lt_is_Some_2 _ _ Hk) as [x Hlx]. exists x. split; [done|].
  unfold x_read. cbn [pt_box pt_path]. rewrite Hv. simpl. rewrite at_app, Ha. simpl. by rewrite N.eqb_refl, Hlx.
Qed.
Lemma elem_writes mem a i l k q n len x : elem_ptr mem a i l k (XPtr (Some q) n len) →
  ∃ mem', x_write mem q x = XOk mem' ∧ x_read mem' a = XOk (XArr i (<[k := x]> l)).
Proof.
  intros ((v & Hv & Ha)%read_inv & Hk & Hx). injection Hx as -> -> ->. destruct (lookup_lt_is_Some_2 _ _ Hk) as [y Hly].
  destruct (set_some v (pt_path a) (XArr i (<[k := x]> l)) _ Ha) as [v' Hv'].
  assert (Hs : set_path v (pt_path a ++ [(i, k)]) x = Some v').
  { rewrite (set_app _ _ _ _ _ (XArr i (<[k := x]> l)) Ha); [done|]. simpl. by rewrite N.eqb_refl, Hly. }
  exists (<[pt_box a := v']> mem). unfold x_write, x_read. cbn [pt_box pt_path]. rewrite Hv. simpl. rewrite Hs. split; [done|].
  rewrite lookup_insert. simpl. by rewrite (at_set _ _ _ _ Hv').
Qed.
Lemma shift_last π i k off : (0 ≤ Z.of_nat k + off)%Z → shift_path (π ++ [(i, k)]) off = Some (π ++ [(i, Z.to_nat (Z.of_nat k + off))]).
Proof.
  intros H. induction π as [|a π IH]; simpl; [destruct (0 <=? Z.of_nat k + off)%Z eqn:E; [done|lia]|]. rewrite IH.
  destruct a as [a b], (π ++ [(i, k)]) eqn:E; [by destruct π|]. done.
Qed.
Lemma moved mem a i l k x off size : elem_ptr mem a i l k x →
  ((0 ≤ Z.of_nat k + off < Z.of_nat (length l))%Z ∧ ∃ y, x_get_pointer x off size = XOk y ∧ elem_ptr mem a i l (Z.to_nat (Z.of_nat k + off)) y) ∨
  (¬ (0 ≤ Z.of_nat k + off < Z.of_nat (length l))%Z ∧ x_get_pointer x off size = XErr).
Proof.
  intros (Ha & Hk & ->). unfold x_get_pointer. cbn [pt_box pt_path].
  destruct ((0 <=? Z.of_N (N.of_nat k) + off) && (Z.of_N (N.of_nat k) + off <? Z.of_N (N.of_nat (length l))))%Z eqn:E; [left|right; split; [lia|done]].
  split; [lia|]. rewrite shift_last by lia. cbn [xmem mbind xres_bind]. eexists. split; [done|]. split; [done|]. split; [lia|].
  do 2 f_equal; lia.
Qed.
Section run.
Context {E : Type} (C : xconfig E) (p : program) (vars : gmap N xval).
Lemma eval_mem fuel fd F v (W : xworld E) x W1 : x_eval p vars fuel fd F v W = XOk (x, W1) → x_mem W1 = x_mem W.
Proof. by intros (n & _ & ->)%eval_inv. Qed.
Lemma getptr_elem fuel fd v d t src index (W : xworld E) F off W1 s W2 a i l k :
  v_ty d = TPtr t → x_eval p vars fuel fd F index W = XOk (XInt off, W1) → x_eval p vars fuel fd F src W1 = XOk (s, W2) →
  elem_ptr (x_mem W) a i l k s →
  ((0 ≤ Z.of_nat k + off < Z.of_nat (length l))%Z ∧
     ∃ y, x_getptr C p vars fuel fd v d src index W F = XOk (W2, x_insert v y F) ∧ elem_ptr (x_mem W2) a i l (Z.to_nat (Z.of_nat k + off)) y) ∨
  (¬ (0 ≤ Z.of_nat k + off < Z.of_nat (length l))%Z ∧ x_getptr C p vars fuel fd v d src index W F = XErr).
Proof.
  intros Ht Hi Hs He. pose proof (eval_mem _ _ _ _ _ _ _ Hi) as M1. pose proof (eval_mem _ _ _ _ _ _ _ Hs) as M2. rewrite M2, M1.
  unfold x_getptr. rewrite Hi. cbn [mbind xres_bind]. unfold x_base_size. rewrite Ht. cbn [mbind xres_bind]. rewrite Hs. cbn [mbind xres_bind].
  destruct (moved _ _ _ _ _ _ off (size (c_ptr_size C) t) He) as [(H & y & -> & Hy)|[H ->]]; [left|by right]. split; [done|]. by exists y.
Qed.
Lemma getelemptr_elem fuel fd v d t src index (W : xworld E) F off W1 a n len W2 i l :
  v_ty d = TPtr t → x_eval p vars fuel fd F index W = XOk (XInt off, W1) → x_eval p vars fuel fd F src W1 = XOk (XPtr (Some a) n len, W2) →
  x_read (x_mem W) a = XOk (XArr i l) →
  ((0 ≤ off < Z.of_nat (length l))%Z ∧
     ∃ y, x_getelemptr C p vars fuel fd v d src index W F = XOk (W2, x_insert v y F) ∧ elem_ptr (x_mem W2) a i l (Z.to_nat off) y) ∨
  (¬ (0 ≤ off < Z.of_nat (length l))%Z ∧ x_getelemptr C p vars fuel fd v d src index W F = XErr).
Proof.
  intros Ht Hi Hs He. pose proof (eval_mem _ _ _ _ _ _ _ Hi) as M1. pose proof (eval_mem _ _ _ _ _ _ _ Hs) as M2. rewrite M2, M1.
  unfold x_getelemptr. rewrite Hi. cbn [mbind xres_bind]. unfold x_base_size. rewrite Ht. cbn [mbind xres_bind]. rewrite Hs. cbn [mbind xres_bind].
  unfold x_elem_pointer. rewrite M2, M1, He. cbn [mbind xres_bind]. unfold x_get_pointer. cbn [pt_box pt_path].
  destruct ((0 <=? Z.of_N 0 + off) && (Z.of_N 0 + off <? Z.of_N (N.of_nat (length l))))%Z eqn:E1; [left|right; split; [lia|done]].
  split; [lia|]. rewrite shift_last by lia. cbn [xmem mbind xres_bind]. eexists. split; [done|]. split; [done|]. split; [lia|].
  do 2 f_equal; lia.
Qed.
Lemma getptr_var fuel fd v d t src index (W : xworld E) F off W1 q W2 :
  v_ty d = TPtr t → x_eval p vars fuel fd F index W = XOk (XInt off, W1) → x_eval p vars fuel fd F src W1 = XOk (XPtr q 0 0, W2) →
  x_getptr C p vars fuel fd v d src index W F = XErr.
Proof.
  intros Ht Hi Hs. unfold x_getptr. rewrite Hi. cbn [mbind xres_bind]. unfold x_base_size. rewrite Ht. cbn [mbind xres_bind]. rewrite Hs. cbn [mbind xres_bind x_get_pointer].
  destruct ((0 <=? Z.of_N 0 + off) && (Z.of_N 0 + off <? Z.of_N 0))%Z eqn:E1; [lia|done].
Qed.
End run.
