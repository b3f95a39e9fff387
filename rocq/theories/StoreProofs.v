(** Loads, stores and allocations (C69). *)
From Coq Require Import Lia ZifyBool ZifyNat ZifyN.
From stdpp Require Import list gmap.
From Verif Require Import Base IdModel TypeModel IrModel LayoutModel ArithModel InterpModel TypeSpec InterpSimProofs LeakSpec StoreSpec.

Lemma at_set π : ∀ v x v', set_path v π x = Some v' → at_path v' π = Some x.
Proof.
  induction π as [|[i k] π IH]; intros v x v' H; simpl in *; [by injection H as ->|].
  destruct v as [| |j l| |]; try done. destruct (i =? j)%N eqn:Ei; [|done]. destruct (l !! k) as [y|] eqn:Ey; [|done]. simpl in H.
  destruct (set_path y π x) as [y'|] eqn:Es; [|done]. injection H as <-. rewrite Ei, list_lookup_insert by by eapply lookup_lt_Some. simpl. by eapply IH.
Qed.
Lemma at_set_apart π a a' ρ ρ' : a ≠ a' → ∀ v x v', set_path v (π ++ a :: ρ) x = Some v' → at_path v' (π ++ a' :: ρ') = at_path v (π ++ a' :: ρ').
Proof.
  intros Ha. induction π as [|[i k] π IH]; intros v x v' H.
  - destruct a as [i k], a' as [i' k']. simpl in *. destruct v as [| |j l| |]; try done. destruct (i =? j)%N eqn:Ei; [|done]. apply N.eqb_eq in Ei as ->.
    destruct (l !! k) as [y|] eqn:Ey; [|done]. simpl in H. destruct (set_path y ρ x) as [y'|]; [|done]. injection H as <-.
    destruct (i' =? j)%N eqn:Ei'; [|done]. apply N.eqb_eq in Ei' as ->. rewrite list_lookup_insert_ne; [done|]. congruence.
  - simpl in *. destruct v as [| |j l| |]; try done. destruct (i =? j)%N eqn:Ei; [|done]. destruct (l !! k) as [y|] eqn:Ey; [|done]. simpl in H.
    destruct (set_path y (π ++ a :: ρ) x) as [y'|] eqn:Es; [|done]. injection H as <-. rewrite Ei, list_lookup_insert by by eapply lookup_lt_Some. simpl. by eapply IH.
Qed.
Lemma write_inv m q x m' : x_write m q x = XOk m' → ∃ v v', m !! pt_box q = Some v ∧ set_path v (pt_path q) x = Some v' ∧ m' = <[pt_box q := v']> m.
Proof.
  unfold x_write. destruct (m !! pt_box q) as [v|] eqn:Ev; [|done]. simpl. destruct (set_path v (pt_path q) x) as [v'|] eqn:Es; [|done]. simpl.
  intros [= <-]. by exists v, v'.
Qed.
Lemma read_write m q x m' : x_write m q x = XOk m' → x_read m' q = XOk x.
Proof.
  intros (v & v' & Hv & Hs & ->)%write_inv. unfold x_read. rewrite lookup_insert. simpl. by rewrite (at_set _ _ _ _ Hs).
Qed.
Lemma read_apart m q q' x m' : apart q q' → x_write m q x = XOk m' → x_read m' q' = x_read m q'.
Proof.
  intros HA (v & v' & Hv & Hs & ->)%write_inv. unfold x_read. destruct (decide (pt_box q' = pt_box q)) as [Eb|Hne].
  - destruct HA as [HA|(π & a & a' & ρ & ρ' & E1 & E2 & Ha)]; [congruence|]. rewrite Eb, lookup_insert, Hv. simpl. f_equal. rewrite E2. rewrite E1 in Hs.
    by eapply at_set_apart.
  - by rewrite lookup_insert_ne.
Qed.
(** ** Copies *)
Lemma copy_clone b x : ∀ n, (b ≤ n)%N → copy b x (xclone x n).1 ∧ (n ≤ (xclone x n).2)%N.
Proof.
  induction x as [|z|i l IH|q i n|a] using xval_ind'; intros m Hm; try (split; [constructor|simpl; lia]). rewrite xclone_arr. cbn [fst snd].
  assert (H : ∀ k, (b ≤ k)%N → Forall2 (copy b) l (xclones l k).1 ∧ (k ≤ (xclones l k).2)%N).
  { clear m Hm. induction IH as [|x l Hx _ IHl]; intros m Hm; [split; [constructor|simpl; lia]|]. cbn [xclones]. destruct (Hx m Hm) as [H1 H2].
    destruct (xclone x m) as [y n1]. cbn [fst snd] in *. destruct (IHl n1) as [H3 H4]; [lia|]. destruct (xclones l n1) as [ys n2]. cbn [fst snd] in *. split; [by constructor|lia]. }
  destruct (H (m + 1)%N) as [H1 H2]; [lia|]. split; [by constructor|lia].
Qed.
(** ** Zeros *)
Lemma zero_many t k : (∀ n x m, x_zeroinit t n = XOk (x, m) → zero_of t x) →
  ∀ n l m, x_many (x_zeroinit t) k n = XOk (l, m) → length l = k ∧ Forall (zero_of t) l.
Proof.
  intros H. induction k as [|k IH]; intros n l m Hl; cbn [x_many] in Hl; [by injection Hl as <- _|].
  destruct (x_zeroinit t n) as [[y n1]| | | |] eqn:Ey; try done. cbn [mbind xres_bind] in Hl.
  destruct (x_many (x_zeroinit t) k n1) as [[ys n2]| | | |] eqn:Es; try done. injection Hl as <- _. destruct (IH _ _ _ Es) as [H1 H2]. simpl. split; [lia|].
  constructor; [by eapply H|done].
Qed.
Lemma zero_ok t : ∀ n x m, x_zeroinit t n = XOk (x, m) → zero_of t x.
Proof.
  induction t as [| |b len IH|b _|ps r _ _] using ty_ind'; intros n x m H; cbn [x_zeroinit] in H; try done.
  - injection H as <- _. constructor.
  - destruct (x_many _ _ _) as [[l k]| | | |] eqn:El; try done. injection H as <- _. destruct (zero_many _ _ IH _ _ _ El). by constructor.
  - injection H as <- _. constructor.
Qed.
(** ** Instructions *)
Section run.
Context {E : Type} (C : xconfig E) (p : program) (vars : gmap N xval).
Lemma const_ptr fuel m v n n' q i l k : x_const fuel m v n = XOk (XPtr q i l, k) → x_const fuel m v n' = XOk (XPtr q i l, n').
Proof.
  destruct fuel as [|f]; [done|]. cbn [x_const]. destruct (m !! v) as [d|]; [|done]. cbn [xneed mbind xres_bind].
  destruct (v_kind d) as [| | |es| | | | | | | | | | | | |]; try done.
  - destruct (v_ty d) as [| |b j|t|]; try done; cbn [x_zeroinit].
    + destruct (x_many _ _ _) as [[? ?]| | | |]; done.
    + by intros [= <- <- <- <-].
  - destruct (x_each _ _ _) as [[? ?]| | | |]; done.
Qed.
Lemma value_ptr fuel fd vs v n n' q i l k : x_value p vars fuel fd vs v n = XOk (XPtr q i l, k) →
  x_value p vars fuel fd vs v n' = XOk (XPtr q i l, n').
Proof.
  assert (HC : ∀ x, xclone x n = (XPtr q i l, k) → xclone x n' = (XPtr q i l, n')).
  { intros [| |j es|q' i' l'|]; try done; [rewrite xclone_arr; done|]. by intros [= -> -> -> _]. }
  unfold x_value. destruct (is_global_id v).
  - destruct (p_values p !! v) as [d|]; [|done]. cbn [xneed mbind xres_bind]. destruct (is_const (v_kind d)); [done|].
    destruct (vars !! v) as [x|]; [|done]. cbn [xneed mbind xres_bind]. intros [= H]. by rewrite (HC _ H).
  - destruct (d_values (f_dfg fd) !! v) as [d|]; [|done]. cbn [xneed mbind xres_bind]. destruct (is_const (v_kind d)); [apply const_ptr|].
    destruct (match vars !! v with Some x => Some x | None => vs !! v end) as [x|]; [|done]. cbn [xneed mbind xres_bind]. intros [= H]. by rewrite (HC _ H).
Qed.
Lemma eval_inv fuel fd F v (W : xworld E) x W1 : x_eval p vars fuel fd F v W = XOk (x, W1) →
  ∃ n, x_value p vars fuel fd (xf_vals F) v (x_next W) = XOk (x, n) ∧ W1 = x_upto W n.
Proof. unfold x_eval. destruct (x_value _ _ _ _ _ _ _) as [[y n]| | | |]; try done. intros [= <- <-]. by exists n. Qed.
Lemma store_inv fuel fd val dest (W : xworld E) F W1 F1 : x_store p vars fuel fd val dest W F = XOk (W1, F1) →
  F1 = F ∧ ∃ x Wx q i n k m, x_eval p vars fuel fd F val W = XOk (x, Wx) ∧ x_value p vars fuel fd (xf_vals F) dest (x_next Wx) = XOk (XPtr (Some q) i n, k) ∧
    x_write (x_mem W) q x = XOk m ∧ x_mem W1 = m.
Proof.
  unfold x_store. destruct (x_eval p vars fuel fd F val W) as [[x Wx]| | | |] eqn:Ex; try done. cbn [mbind xres_bind].
  destruct (x_eval p vars fuel fd F dest Wx) as [[d Wd]| | | |] eqn:Ed; try done. cbn [mbind xres_bind].
  apply eval_inv in Ed as (k & Hd & ->). destruct (eval_inv _ _ _ _ _ _ _ Ex) as (k' & _ & ->). cbn [x_upto x_mem x_next] in *.
  destruct d as [| | |[q|] i n|[a|]]; try done; [|by destruct x].
  destruct (x_write (x_mem W) q x) as [m| | | |] eqn:Em; try done. cbn [mbind xres_bind]. intros [= <- <-]. split; [done|].
  exists x, (x_upto W k'), q, i, n, k, m. done.
Qed.
Lemma load_inv fuel fd v src (W : xworld E) F W1 F1 : x_load p vars fuel fd v src W F = XOk (W1, F1) →
  ∃ q i n k x y, x_value p vars fuel fd (xf_vals F) src (x_next W) = XOk (XPtr (Some q) i n, k) ∧ x_read (x_mem W) q = XOk x ∧
    copy (x_next W) x y ∧ F1 = x_insert v y F ∧ x_mem W1 = x_mem W.
Proof.
  unfold x_load. destruct (x_eval p vars fuel fd F src W) as [[s Ws]| | | |] eqn:Es; try done. cbn [mbind xres_bind].
  apply eval_inv in Es as (k & Hs & ->). destruct s as [| | |[q|] i n|[a|]]; try done. cbn [x_upto x_mem x_next] in *.
  destruct (x_read (x_mem W) q) as [x| | | |] eqn:Er; try done. cbn [mbind xres_bind]. pose proof (value_ptr _ _ _ _ _ (x_next W) _ _ _ _ Hs) as Hk. rewrite Hs in Hk. injection Hk as ->.
  destruct (copy_clone (x_next W) x (x_next W)) as [Hc _]; [lia|]. destruct (xclone x (x_next W)) as [y n'].
  intros [= <- <-]. exists q, i, n, (x_next W), x, y. done.
Qed.
Lemma load_store fuel fd v val dest (W : xworld E) F W1 F1 W2 F2 :
  x_store p vars fuel fd val dest W F = XOk (W1, F1) → x_load p vars fuel fd v dest W1 F1 = XOk (W2, F2) →
  ∃ x Wx y, x_eval p vars fuel fd F val W = XOk (x, Wx) ∧ copy (x_next W1) x y ∧ F2 = x_insert v y F.
Proof.
  intros (-> & x & Wx & q & i & n & k & m & Hx & Hd & Hw & Hm)%store_inv (q' & i' & n' & k' & x' & y & Hs & Hr & Hc & -> & _)%load_inv.
  apply (value_ptr _ _ _ _ _ (x_next W1)) in Hd. rewrite Hd in Hs. injection Hs as <- <- <- _.
  rewrite Hm, (read_write _ _ _ _ Hw) in Hr. injection Hr as <-. by exists x, Wx, y.
Qed.
Lemma load_other fuel fd val dest (W : xworld E) F W1 F1 q i n k q' :
  x_store p vars fuel fd val dest W F = XOk (W1, F1) →
  x_value p vars fuel fd (xf_vals F) dest (x_next W) = XOk (XPtr (Some q) i n, k) →
  apart q q' →
  x_read (x_mem W1) q' = x_read (x_mem W) q'.
Proof.
  intros (-> & x & Wx & q0 & i0 & n0 & k0 & m & Hx & Hd & Hw & Hm)%store_inv Hq HA. apply (value_ptr _ _ _ _ _ (x_next W)) in Hd.
  rewrite Hq in Hd. injection Hd as <- <- <- _. rewrite Hm. by eapply read_apart.
Qed.
Lemma alloc_new v d (W : xworld E) F W1 F1 : numbered W → x_alloc v d W F = XOk (W1, F1) →
  ∃ t x b, v_ty d = TPtr t ∧ zero_of t x ∧ xf_vals F1 !! v = Some (XPtr (Some (Ptr b [])) 0 0) ∧
    x_mem W !! b = None ∧ x_read (x_mem W1) (Ptr b []) = XOk x ∧ ∀ q, pt_box q ≠ b → x_read (x_mem W1) q = x_read (x_mem W) q.
Proof.
  intros Hn. unfold x_alloc. destruct (v_ty d) as [| | |t|]; try done. destruct (x_zeroinit t (x_next W)) as [[x n]| | | |] eqn:Ez; try done. cbn [mbind xres_bind x_box].
  intros [= <- <-]. pose proof (x_zeroinit_le _ _ _ _ Ez) as Hle. exists t, x, n. cbn [xf_vals x_mem x_next x_upto]. split; [done|]. split; [by eapply zero_ok|].
  split; [apply lookup_insert|]. split; [apply eq_None_not_Some; intros H%Hn; lia|]. split.
  - unfold x_read. cbn [pt_box pt_path]. by rewrite lookup_insert.
  - intros q Hq. unfold x_read. by rewrite lookup_insert_ne.
Qed.
End run.
