(** Two runs of the example interpreter side by side: values, memory, frames (for C54). *)
From Coq Require Import Lia.
From Verif Require Import Base IdModel TypeModel IrModel LayoutModel ArithModel InterpModel TypeSpec UsesSpec DfgSpec DceSpec.

(** ** Results *)
Lemma xbind_ok {A B} (m : xres A) (k : A → xres B) b : (m ≫= k) = XOk b → ∃ a, m = XOk a ∧ k a = XOk b.
Proof. destruct m as [a| | | |]; [|discriminate..]. intros H. by exists a. Qed.
Lemma xneed_ok {A} (o : option A) a : xneed o = XOk a → o = Some a.
Proof. destruct o; [|discriminate]. by intros [= ->]. Qed.
Lemma xmem_ok {A} (o : option A) a : xmem o = XOk a → o = Some a.
Proof. destruct o; [|discriminate]. by intros [= ->]. Qed.

Section xval_ind.
  Context (P : xval → Prop) (H1 : P XUndef) (H2 : ∀ z, P (XInt z))
    (H3 : ∀ i l, Forall P l → P (XArr i l)) (H4 : ∀ p i l, P (XPtr p i l)) (H5 : ∀ a, P (XRaw a)).
  Fixpoint xval_ind' (v : xval) : P v :=
    match v with
    | XUndef => H1
    | XInt z => H2 z
    | XArr i l => H3 i l ((fix go l : Forall P l :=
        match l with [] => @List.Forall_nil xval P | x :: l' => @List.Forall_cons xval P x l' (xval_ind' x) (go l') end) l)
    | XPtr p i l => H4 p i l
    | XRaw a => H5 a
    end.
End xval_ind.

Fixpoint xclones (l : list xval) (n : N) : list xval * N :=
  match l with
  | [] => ([], n)
  | x :: l' => let '(y, n1) := xclone x n in let '(ys, n2) := xclones l' n1 in (y :: ys, n2)
  end.
Lemma xclone_arr i l n : xclone (XArr i l) n = (XArr n (xclones l (n + 1)).1, (xclones l (n + 1)).2).
Proof.
  simpl. assert (∀ l n, (fix go (l : list xval) (n : N) : list xval * N :=
        match l with
        | [] => ([], n)
        | x :: l' => let '(y, n1) := xclone x n in let '(ys, n2) := go l' n1 in (y :: ys, n2)
        end) l n = xclones l n) as ->; [|by destruct (xclones l (n + 1))].
  clear. induction l as [|x l IH]; intros n; [done|]. simpl. destruct (xclone x n). by rewrite IH.
Qed.

(** ** Numbers *)
(** The numbers of boxes and buffers of one run and of the other *)
Record fine (J : gmap N N) (n n' : N) : Prop := {
  fi_inj : ∀ i j k, J !! i = Some k → J !! j = Some k → i = j;
  fi_dom : ∀ i k, J !! i = Some k → (i < n)%N ∧ (k < n')%N;
}.
Record grows (J : gmap N N) (n n' : N) (J2 : gmap N N) (m m' : N) : Prop := {
  gr_sub : J ⊆ J2;
  gr_le : (n ≤ m)%N;
  gr_le' : (n' ≤ m')%N;
  gr_new : ∀ i k, J2 !! i = Some k → J !! i = Some k ∨ (n ≤ i)%N ∧ (n' ≤ k)%N;
  gr_fine : fine J2 m m';
}.
Lemma grows_refl J n n' : fine J n n' → grows J n n' J n n'.
Proof. intros H. constructor; [done|lia|lia|by left|done]. Qed.
Lemma grows_trans J n n' J1 n1 n1' J2 n2 n2' :
  grows J n n' J1 n1 n1' → grows J1 n1 n1' J2 n2 n2' → grows J n n' J2 n2 n2'.
Proof.
  intros [A1 A2 A3 A4 A5] [B1 B2 B3 B4 B5]. constructor; [by etrans|lia|lia| |done].
  intros i k [H|H]%B4; [by apply A4|right; lia].
Qed.
Lemma grows_le J n n' m m' : fine J n n' → (n ≤ m)%N → (n' ≤ m')%N → grows J n n' J m m'.
Proof.
  intros [H1 H2] L L'. constructor; [done|done|done|by left|].
  split; [done|]. intros i k H. apply H2 in H. lia.
Qed.
Lemma grows_new J n n' : fine J n n' → grows J n n' (<[n := n']> J) (n + 1) (n' + 1).
Proof.
  intros [F1 F2].
  assert (J !! n = None) as Hn. { destruct (J !! n) eqn:E; [|done]. apply F2 in E. lia. }
  constructor; [by apply insert_subseteq|lia|lia| |].
  - intros i k [[<- <-]|[? ?]]%lookup_insert_Some; [right; lia|by left].
  - constructor.
    + intros i j k [[<- <-]|[? H]]%lookup_insert_Some [[<- Hk]|[? H']]%lookup_insert_Some; try done.
      * apply F2 in H'. lia.
      * subst k. apply F2 in H. lia.
      * by eapply F1.
    + intros i k [[<- <-]|[? H]]%lookup_insert_Some; [lia|]. apply F2 in H. lia.
Qed.

(** ** Values *)
Definition prel (J : gmap N N) (a b : N * nat) : Prop := J !! a.1 = Some b.1 ∧ a.2 = b.2.
Definition ptrrel (J : gmap N N) (p q : xptr) : Prop :=
  J !! pt_box p = Some (pt_box q) ∧ Forall2 (prel J) (pt_path p) (pt_path q).
Fixpoint vrel (J : gmap N N) (v v' : xval) {struct v} : Prop :=
  match v, v' with
  | XUndef, XUndef => True
  | XInt z, XInt z' => z = z'
  | XArr i l, XArr i' l' => J !! i = Some i' ∧
      (fix go (l l' : list xval) : Prop :=
        match l, l' with
        | [], [] => True
        | x :: m, x' :: m' => vrel J x x' ∧ go m m'
        | _, _ => False
        end) l l'
  | XPtr p i l, XPtr p' i' l' => option_Forall2 (ptrrel J) p p' ∧ i = i' ∧ l = l'
  | XRaw a, XRaw a' => a = a'
  | _, _ => False
  end.
Lemma vrel_arr J i l i' l' : vrel J (XArr i l) (XArr i' l') ↔ J !! i = Some i' ∧ Forall2 (vrel J) l l'.
Proof.
  simpl. assert (∀ l l', (fix go (l l' : list xval) : Prop :=
        match l, l' with
        | [], [] => True
        | x :: m, x' :: m' => vrel J x x' ∧ go m m'
        | _, _ => False
        end) l l' ↔ Forall2 (vrel J) l l') as H; [|by rewrite H].
  clear. induction l as [|x l IH]; intros [|x' l'].
  - split; [constructor|done].
  - split; [done|]. intros H. inversion H.
  - split; [done|]. intros H. inversion H.
  - rewrite IH. split; [intros [? ?]; by constructor|]. intros H. by inversion H.
Qed.
Lemma vrel_arr_inv J i l x' : vrel J (XArr i l) x' → ∃ i' l', x' = XArr i' l' ∧ J !! i = Some i' ∧ Forall2 (vrel J) l l'.
Proof. destruct x'; try done. rewrite vrel_arr. naive_solver. Qed.
Lemma vrel_int_inv J z x' : vrel J (XInt z) x' → x' = XInt z.
Proof. destruct x'; try done. by intros ->. Qed.
Lemma vrel_undef_inv J x' : vrel J XUndef x' → x' = XUndef.
Proof. by destruct x'. Qed.
Lemma vrel_raw_inv J a x' : vrel J (XRaw a) x' → x' = XRaw a.
Proof. destruct x'; try done. by intros ->. Qed.
Lemma vrel_ptr_inv J p i l x' : vrel J (XPtr p i l) x' → ∃ p', x' = XPtr p' i l ∧ option_Forall2 (ptrrel J) p p'.
Proof. destruct x'; try done. intros (H & -> & ->). by eauto. Qed.

Lemma prel_mono J J2 a b : J ⊆ J2 → prel J a b → prel J2 a b.
Proof. intros S [H1 H2]. split; [|done]. by eapply lookup_weaken. Qed.
Lemma ptrrel_mono J J2 p q : J ⊆ J2 → ptrrel J p q → ptrrel J2 p q.
Proof.
  intros S [H1 H2]. split; [by eapply lookup_weaken|].
  eapply list.Forall2_impl; [exact H2|]. intros a b. by apply prel_mono.
Qed.
Lemma vrel_mono J J2 v : J ⊆ J2 → ∀ v', vrel J v v' → vrel J2 v v'.
Proof.
  intros S. induction v as [|z|i l IH|p i l|a] using xval_ind'; intros v' H.
  - by apply vrel_undef_inv in H as ->.
  - by apply vrel_int_inv in H as ->.
  - apply vrel_arr_inv in H as (i' & l' & -> & Hi & Hl). apply vrel_arr.
    split; [by eapply lookup_weaken|]. clear Hi. revert l' Hl.
    induction IH as [|x l Hx _ IH]; intros l' Hl; inversion Hl; subst; constructor; [by apply Hx|by apply IH].
  - apply vrel_ptr_inv in H as (p' & -> & Hp). split; [|done].
    destruct Hp; constructor. by eapply ptrrel_mono.
  - by apply vrel_raw_inv in H as ->.
Qed.
Lemma vrels_mono J J2 l l' : J ⊆ J2 → Forall2 (vrel J) l l' → Forall2 (vrel J2) l l'.
Proof. intros S H. eapply list.Forall2_impl; [exact H|]. intros a b. by apply vrel_mono. Qed.
Lemma ovrel_mono J J2 o o' : J ⊆ J2 → option_Forall2 (vrel J) o o' → option_Forall2 (vrel J2) o o'.
Proof. intros S H. destruct H; constructor. by eapply vrel_mono. Qed.

(** ** Making values *)
Lemma xclones_ok l : Forall (λ v, ∀ J n n' v', fine J n n' → vrel J v v' →
    ∃ J2, grows J n n' J2 (xclone v n).2 (xclone v' n').2 ∧ vrel J2 (xclone v n).1 (xclone v' n').1) l →
  ∀ J n n' l', fine J n n' → Forall2 (vrel J) l l' →
    ∃ J2, grows J n n' J2 (xclones l n).2 (xclones l' n').2 ∧ Forall2 (vrel J2) (xclones l n).1 (xclones l' n').1.
Proof.
  induction 1 as [|x l Hx _ IH]; intros J n n' l' F Hl; inversion Hl as [|? x' ? m' Hxx Hlm]; subst.
  - exists J. split; [by apply grows_refl|constructor].
  - destruct (Hx _ _ _ _ F Hxx) as (J1 & G1 & R1). simpl.
    destruct (xclone x n) as [y n1], (xclone x' n') as [y' n1']. simpl in *.
    destruct (IH J1 n1 n1' m') as (J2 & G2 & R2); [apply G1|by eapply vrels_mono; [apply G1|]|].
    destruct (xclones l n1) as [ys n2], (xclones m' n1') as [ys' n2']. simpl in *.
    exists J2. split; [by eapply grows_trans|]. constructor; [|done].
    eapply vrel_mono; [apply G2|done].
Qed.
Lemma xclone_ok v : ∀ J n n' v', fine J n n' → vrel J v v' →
  ∃ J2, grows J n n' J2 (xclone v n).2 (xclone v' n').2 ∧ vrel J2 (xclone v n).1 (xclone v' n').1.
Proof.
  induction v as [|z|i l IH|p i l|a] using xval_ind'; intros J n n' v' F H.
  - apply vrel_undef_inv in H as ->. exists J. split; [by apply grows_refl|done].
  - apply vrel_int_inv in H as ->. exists J. split; [by apply grows_refl|done].
  - apply vrel_arr_inv in H as (i' & l' & -> & Hi & Hl). rewrite !xclone_arr. simpl fst. simpl snd.
    pose proof (grows_new _ _ _ F) as G0.
    destruct (xclones_ok l IH (<[n := n']> J) (n + 1) (n' + 1) l') as (J2 & G2 & R2).
    + apply G0.
    + eapply vrels_mono; [apply G0|done].
    + exists J2. split; [by eapply grows_trans|]. apply vrel_arr. split; [|done].
      eapply lookup_weaken; [|apply G2]. by rewrite lookup_insert.
  - apply vrel_ptr_inv in H as (p' & -> & Hp). exists J. split; [by apply grows_refl|done].
  - apply vrel_raw_inv in H as ->. exists J. split; [by apply grows_refl|done].
Qed.
(** [r'] makes, from the number [n'], what [r] makes from [n]. *)
Definition makes (J0 : gmap N N) (r r' : N → xres (xval * N)) : Prop := ∀ J n n' x m, J0 ⊆ J → fine J n n' →
  r n = XOk (x, m) → ∃ x' m' J2, r' n' = XOk (x', m') ∧ grows J n n' J2 m m' ∧ vrel J2 x x'.
Definition makes_list (J0 : gmap N N) (r r' : N → xres (list xval * N)) : Prop := ∀ J n n' x m, J0 ⊆ J → fine J n n' →
  r n = XOk (x, m) → ∃ x' m' J2, r' n' = XOk (x', m') ∧ grows J n n' J2 m m' ∧ Forall2 (vrel J2) x x'.
Section makes.
Context (J0 : gmap N N).
Lemma makes_arr r r' : makes_list J0 r r' →
  makes J0 (λ n, '(l, n') ← r (n + 1)%N; XOk (XArr n l, n')) (λ n, '(l, n') ← r' (n + 1)%N; XOk (XArr n l, n')).
Proof.
  intros H J n n' x m HJ F ([l m1] & Hl & [= <- <-])%xbind_ok. pose proof (grows_new _ _ _ F) as G0.
  destruct (H _ _ (n' + 1)%N _ _ (transitivity HJ (gr_sub _ _ _ _ _ _ G0)) (gr_fine _ _ _ _ _ _ G0) Hl) as (l' & m' & J2 & E & G & R).
  exists (XArr n' l'), m', J2. split; [by rewrite E|]. split; [by eapply grows_trans|].
  apply vrel_arr. split; [|done]. eapply lookup_weaken; [|apply G]. by rewrite lookup_insert.
Qed.
Lemma makes_same x : (∀ J, vrel J x x) → makes J0 (λ n, XOk (x, n)) (λ n, XOk (x, n)).
Proof. intros H J n n' y m _ F [= <- <-]. exists x, n', J. split; [done|]. split; [by apply grows_refl|done]. Qed.
Lemma makes_clone x x' : vrel J0 x x' → makes J0 (λ n, XOk (xclone x n)) (λ n, XOk (xclone x' n)).
Proof.
  intros H J n n' y m HJ F [= Hy]. destruct (xclone_ok x J n n' x' F) as (J2 & G & R); [by eapply vrel_mono|].
  rewrite Hy in *. destruct (xclone x' n') as [y' m']. exists y', m', J2. done.
Qed.
Lemma makes_list_cons r r' s s' : makes J0 r r' → makes_list J0 s s' →
  makes_list J0 (λ n, '(y, n1) ← r n; '(ys, n2) ← s n1; XOk (y :: ys, n2))
    (λ n, '(y, n1) ← r' n; '(ys, n2) ← s' n1; XOk (y :: ys, n2)).
Proof.
  intros H1 H2 J n n' x m HJ F ([y n1] & Hy & ([ys n2] & Hys & [= <- <-])%xbind_ok)%xbind_ok.
  destruct (H1 _ _ n' _ _ HJ F Hy) as (y' & m1 & J1 & E1 & G1 & R1).
  destruct (H2 _ _ m1 _ _ (transitivity HJ (gr_sub _ _ _ _ _ _ G1)) (gr_fine _ _ _ _ _ _ G1) Hys) as (ys' & m2 & J2 & E2 & G2 & R2).
  exists (y' :: ys'), m2, J2. split; [rewrite E1; cbn [mbind xres_bind]; by rewrite E2|].
  split; [by eapply grows_trans|]. constructor; [|done]. eapply vrel_mono; [apply G2|done].
Qed.
Lemma makes_list_nil : makes_list J0 (λ n, XOk ([], n)) (λ n, XOk ([], n)).
Proof. intros J n n' x m _ F [= <- <-]. exists [], n', J. split; [done|]. split; [by apply grows_refl|constructor]. Qed.
Lemma x_many_ok r r' k : makes J0 r r' → makes_list J0 (x_many r k) (x_many r' k).
Proof. intros H. induction k as [|k IH]; [exact makes_list_nil|]. exact (makes_list_cons _ _ _ _ H IH). Qed.
Lemma makes_fail k' (r : N → xres (xval * N)) : (∀ n x, r n ≠ XOk x) → makes J0 r k'.
Proof. intros H J n n' x m _ _ E. by apply H in E. Qed.
Lemma x_zeroinit_ok t : makes J0 (x_zeroinit t) (x_zeroinit t).
Proof.
  induction t as [| |base len IH|base IH|ps ret IH1 IH2] using ty_ind'.
  - exact (makes_same (XInt 0) (λ J, eq_refl)).
  - by apply makes_fail.
  - exact (makes_arr _ _ (x_many_ok _ _ (N.to_nat len) IH)).
  - apply (makes_same (XPtr None 0 0)). intros J. split; [constructor|done].
  - by apply makes_fail.
Qed.
Lemma x_each_ok f f' l : (∀ v, v ∈ l → makes J0 (f v) (f' v)) → makes_list J0 (x_each f l) (x_each f' l).
Proof.
  induction l as [|v l IH]; intros H; [exact makes_list_nil|].
  refine (makes_list_cons _ _ _ _ (H v _) (IH _)); [by left|]. intros w Hw. apply H. by right.
Qed.
Lemma makes_need {A} (o o' : option A) k k' : (∀ a, o = Some a → ∃ a', o' = Some a' ∧ makes J0 (k a) (k' a')) →
  makes J0 (λ n, a ← xneed o; k a n) (λ n, a ← xneed o'; k' a n).
Proof.
  intros H J n n' x m HJ F (a & ->%xneed_ok & Ha)%xbind_ok. destruct (H a eq_refl) as (a' & -> & Hm).
  exact (Hm _ _ n' _ _ HJ F Ha).
Qed.
End makes.

(** The constants of [m] are the same constants in [m'], if they exist there, and so are their parts. *)
Record const_maps (m m' : gmap N vdata) : Prop := {
  cm_kind : ∀ v d d', m !! v = Some d → m' !! v = Some d' → is_const (v_kind d) = true →
    v_ty d' = v_ty d ∧ v_kind d' = v_kind d;
  cm_op : ∀ v d d' e, m !! v = Some d → m' !! v = Some d' → is_const (v_kind d) = true →
    e ∈ operands (v_kind d) → is_Some (m !! e) → is_Some (m' !! e);
}.
Lemma x_const_ok J0 m m' : const_maps m m' → ∀ k f v, (k ≤ f)%nat → (is_Some (m !! v) → is_Some (m' !! v)) →
  makes J0 (x_const k m v) (x_const f m' v).
Proof.
  intros [C1 C2] k. induction k as [|k IH]; intros f v Hf Hv; [by apply makes_fail|]. destruct f as [|f]; [lia|].
  apply makes_need. intros d Hd. destruct Hv as [d' Hd']; [by eauto|]. exists d'. split; [done|].
  pose proof (C1 _ _ _ Hd Hd') as Hk.
  destruct (v_kind d) as [z| | |es| | | | | | | | | | | | |] eqn:Ek; try (by apply makes_fail);
    destruct (Hk eq_refl) as [Hty Hk']; rewrite Hk'.
  - by apply makes_same.
  - rewrite Hty. apply x_zeroinit_ok.
  - by apply makes_same.
  - apply makes_arr, x_each_ok. intros e He. apply IH; [lia|]. apply (C2 _ _ _ e Hd Hd'); by rewrite Ek.
Qed.
(** Numbers only grow. *)
Lemma xclone_le v : ∀ n, (n ≤ (xclone v n).2)%N.
Proof.
  induction v as [|z|i l IH|p i l|a] using xval_ind'; intros n; try (simpl; lia).
  rewrite xclone_arr. simpl snd. cut (∀ n, (n ≤ (xclones l n).2)%N); [intros H; specialize (H (n + 1)%N); lia|].
  clear n. induction IH as [|x l Hx _ IH]; intros n; [simpl; lia|]. simpl. specialize (Hx n).
  destruct (xclone x n) as [y n1]. specialize (IH n1). destruct (xclones l n1). simpl in *. lia.
Qed.
Lemma fine_empty n n' : fine ∅ n n'.
Proof. split; intros i; intros *; by rewrite lookup_empty. Qed.
Lemma makes_le r n x m : makes ∅ r r → r n = XOk (x, m) → (n ≤ m)%N.
Proof. intros H E. destruct (H ∅ n n x m) as (x' & m' & J2 & _ & G & _); [done|apply fine_empty|done|]. apply G. Qed.
Lemma x_zeroinit_le t n x m : x_zeroinit t n = XOk (x, m) → (n ≤ m)%N.
Proof. apply makes_le, x_zeroinit_ok. Qed.
Lemma x_const_le k M v n x m : x_const k M v n = XOk (x, m) → (n ≤ m)%N.
Proof.
  apply makes_le, x_const_ok; [|done|done]. split; [|done]. intros w d d' Hd Hd'. rewrite Hd in Hd'. by injection Hd' as <-.
Qed.

(** ** Memory *)
Lemma fine_eqb J n n' i i' j j' : fine J n n' → J !! i = Some i' → J !! j = Some j' → (i =? j)%N = (i' =? j')%N.
Proof.
  intros [F _] Hi Hj. destruct (i =? j)%N eqn:E.
  - apply N.eqb_eq in E as ->. rewrite Hi in Hj. injection Hj as ->. by rewrite N.eqb_refl.
  - destruct (i' =? j')%N eqn:E'; [|done]. apply N.eqb_eq in E' as ->.
    rewrite (F _ _ _ Hi Hj), N.eqb_refl in E. done.
Qed.
Lemma at_path_ok J n n' : fine J n n' → ∀ p p' v v' x, Forall2 (prel J) p p' → vrel J v v' →
  at_path v p = Some x → ∃ x', at_path v' p' = Some x' ∧ vrel J x x'.
Proof.
  intros F. induction p as [|[i k] p IH]; intros p' v v' x Hp Hv H; inversion Hp as [|? [i' k'] ? q Hik Hq]; subst.
  - injection H as <-. by exists v'.
  - destruct Hik as [Hi Hk]. simpl in Hi, Hk. subst k'.
    cbn [at_path] in H. destruct v as [| |j l| |]; try done.
    apply vrel_arr_inv in Hv as (j' & l' & -> & Hj & Hl). cbn [at_path].
    rewrite <- (fine_eqb _ _ _ _ _ _ _ F Hi Hj). destruct (i =? j)%N; [|done].
    destruct (l !! k) as [y|] eqn:Ey; [|done]. cbn [mbind option_bind] in H.
    destruct (Forall2_lookup_l _ _ _ _ _ Hl Ey) as (y' & -> & Hy). cbn [mbind option_bind].
    by apply (IH q y).
Qed.
Lemma set_path_ok J n n' x x' : fine J n n' → vrel J x x' → ∀ p p' v v' y, Forall2 (prel J) p p' → vrel J v v' →
  set_path v p x = Some y → ∃ y', set_path v' p' x' = Some y' ∧ vrel J y y'.
Proof.
  intros F Hx. induction p as [|[i k] p IH]; intros p' v v' y Hp Hv H; inversion Hp as [|? [i' k'] ? q Hik Hq]; subst.
  - injection H as <-. by exists x'.
  - destruct Hik as [Hi Hk]. simpl in Hi, Hk. subst k'.
    cbn [set_path] in H. destruct v as [| |j l| |]; try done.
    apply vrel_arr_inv in Hv as (j' & l' & -> & Hj & Hl). cbn [set_path].
    rewrite <- (fine_eqb _ _ _ _ _ _ _ F Hi Hj). destruct (i =? j)%N; [|done].
    destruct (l !! k) as [z|] eqn:Ez; [|done]. cbn [mbind option_bind] in H.
    destruct (Forall2_lookup_l _ _ _ _ _ Hl Ez) as (z' & -> & Hz). cbn [mbind option_bind].
    destruct (set_path z p x) as [z2|] eqn:E2; [|done]. injection H as <-.
    destruct (IH q z z' z2 Hq Hz E2) as (z2' & -> & Hz2). cbn [mbind option_bind].
    eexists. split; [done|]. apply vrel_arr. split; [done|]. by apply Forall2_insert.
Qed.
Lemma shift_path_ok J off : ∀ p p' q, Forall2 (prel J) p p' → shift_path p off = Some q →
  ∃ q', shift_path p' off = Some q' ∧ Forall2 (prel J) q q'.
Proof.
  induction p as [|[i k] p IH]; intros p' q Hp H; [done|].
  inversion Hp as [|? [i' k'] ? p2 Hik Hq]; subst.
  pose proof Hik as [Hi Hk]. simpl in Hi, Hk. subst k'.
  destruct p as [|a p].
  - inversion Hq; subst. simpl in *. destruct (0 <=? Z.of_nat k + off)%Z; [|done].
    injection H as <-. eexists. split; [done|]. constructor; [|constructor]. by split.
  - inversion Hq as [|? a' ? p3 Ha Hp3]; subst. change (shift_path ((i, k) :: a :: p) off) with
      (p'' ← shift_path (a :: p) off; Some ((i, k) :: p'')) in H.
    change (shift_path ((i', k) :: a' :: p3) off) with (p'' ← shift_path (a' :: p3) off; Some ((i', k) :: p'')).
    destruct (shift_path (a :: p) off) as [r|] eqn:E; [|done]. injection H as <-.
    destruct (IH (a' :: p3) r) as (r' & -> & Hr); [done..|].
    eexists. split; [done|]. by constructor.
Qed.
Lemma x_get_pointer_ok J s s' off size x : vrel J s s' → x_get_pointer s off size = XOk x →
  ∃ x', x_get_pointer s' off size = XOk x' ∧ vrel J x x'.
Proof.
  intros Hs H. destruct s as [| | |p i l|a]; try done.
  - apply vrel_ptr_inv in Hs as (p' & -> & Hp). unfold x_get_pointer in *. cbv zeta in *.
    destruct ((0 <=? Z.of_N i + off) && (Z.of_N i + off <? Z.of_N l))%Z; [|done].
    destruct Hp as [q q' [Hq1 Hq2]|].
    + apply xbind_ok in H as (path & Hpath%xmem_ok & [= <-]).
      destruct (shift_path_ok _ _ _ _ _ Hq2 Hpath) as (path' & -> & Hr).
      eexists. split; [done|]. split; [|done]. constructor. by split.
    + injection H as <-. eexists. split; [done|]. split; [constructor|done].
  - apply vrel_raw_inv in Hs as ->. exists x. split; [done|]. unfold x_get_pointer in H.
    destruct a as [a|]; [|by injection H as <-]. apply xbind_ok in H as (b & _ & [= <-]). done.
Qed.

(** ** Worlds *)
Section worlds.
Context {E : Type}.
Implicit Types W : xworld E.
Record wrel (J : gmap N N) W W' : Prop := {
  wr_fine : fine J (x_next W) (x_next W');
  wr_extern : x_extern W = x_extern W';
  wr_mem : ∀ b b', J !! b = Some b' → option_Forall2 (vrel J) (x_mem W !! b) (x_mem W' !! b');
  wr_new : ∀ b, (x_next W ≤ b)%N → x_mem W !! b = None;
  wr_new' : ∀ b, (x_next W' ≤ b)%N → x_mem W' !! b = None;
}.
Notation wgrows J W W' J2 W2 W2' := (grows J (x_next W) (x_next W') J2 (x_next W2) (x_next W2')).
Lemma wrel_upto J W W' J2 m m' : wrel J W W' → grows J (x_next W) (x_next W') J2 m m' →
  wrel J2 (x_upto W m) (x_upto W' m').
Proof.
  intros [A1 A2 A3 A4 A5] G. constructor; simpl; [apply G|done| | |].
  - intros b b' [H|[H1 H2]]%(gr_new _ _ _ _ _ _ G).
    + eapply ovrel_mono; [apply G|by apply A3].
    + rewrite A4, A5 by done. constructor.
  - intros b Hb. apply A4. pose proof (gr_le _ _ _ _ _ _ G). lia.
  - intros b Hb. apply A5. pose proof (gr_le' _ _ _ _ _ _ G). lia.
Qed.
(** Only the first run makes numbers. *)
Lemma wrel_upto_l J W W' m : wrel J W W' → (x_next W ≤ m)%N → wrel J (x_upto W m) W'.
Proof.
  intros H L. destruct W' as [M n e]. change (wrel J (x_upto W m) (x_upto (XWorld M n e) n)).
  eapply wrel_upto; [done|]. apply grows_le; [apply H|done|simpl; lia].
Qed.
Lemma wrel_box J W W' x x' : wrel J W W' → vrel J x x' →
  wrel (<[x_next W := x_next W']> J) (x_box x W).2 (x_box x' W').2.
Proof.
  intros [A1 A2 A3 A4 A5] Hx. pose proof (grows_new _ _ _ A1) as G. constructor; simpl; [apply G|done| | |].
  - intros b b' [[<- <-]|[Hne H]]%lookup_insert_Some.
    + rewrite !lookup_insert. constructor. eapply vrel_mono; [apply G|done].
    + rewrite lookup_insert_ne by done. pose proof (fi_dom _ _ _ A1 _ _ H) as [_ Hb].
      rewrite lookup_insert_ne by lia. eapply ovrel_mono; [apply G|by apply A3].
  - intros b Hb. rewrite lookup_insert_ne by lia. apply A4. lia.
  - intros b Hb. rewrite lookup_insert_ne by lia. apply A5. lia.
Qed.
Lemma wrel_box_l J W W' x : wrel J W W' → wrel J (x_box x W).2 W'.
Proof.
  intros [A1 A2 A3 A4 A5]. constructor; simpl; [|done| | |done].
  - split; [apply A1|]. intros i k H. apply (fi_dom _ _ _ A1) in H. lia.
  - intros b b' H. pose proof (fi_dom _ _ _ A1 _ _ H) as [Hb _]. rewrite lookup_insert_ne by lia. by apply A3.
  - intros b Hb. rewrite lookup_insert_ne by lia. apply A4. lia.
Qed.
Lemma x_read_ok J W W' p p' x : wrel J W W' → ptrrel J p p' → x_read (x_mem W) p = XOk x →
  ∃ x', x_read (x_mem W') p' = XOk x' ∧ vrel J x x'.
Proof.
  intros HW [Hb Hp] H. unfold x_read in *. apply xmem_ok in H.
  pose proof (wr_mem _ _ _ HW _ _ Hb) as Hm.
  destruct (x_mem W !! pt_box p) as [v|]; [|done]. cbn [mbind option_bind] in H.
  inversion Hm as [? v' Hv E1 E2|]; subst. cbn [mbind option_bind].
  destruct (at_path_ok _ _ _ (wr_fine _ _ _ HW) _ _ _ _ _ Hp Hv H) as (x' & -> & Hx). by exists x'.
Qed.
Lemma x_write_ok J W W' p p' x x' m : wrel J W W' → ptrrel J p p' → vrel J x x' →
  x_write (x_mem W) p x = XOk m → ∃ m', x_write (x_mem W') p' x' = XOk m' ∧
    wrel J (XWorld m (x_next W) (x_extern W)) (XWorld m' (x_next W') (x_extern W')).
Proof.
  intros HW [Hb Hp] Hx H. unfold x_write in *. apply xmem_ok in H.
  pose proof (wr_mem _ _ _ HW _ _ Hb) as Hm.
  destruct (x_mem W !! pt_box p) as [v|] eqn:Ev; [|done]. cbn [mbind option_bind] in H.
  destruct (set_path v (pt_path p) x) as [y|] eqn:Ey; [|done]. injection H as <-.
  inversion Hm as [? v' Hv E1 E2|]; subst. cbn [mbind option_bind].
  destruct (set_path_ok _ _ _ _ _ (wr_fine _ _ _ HW) Hx _ _ _ _ _ Hp Hv Ey) as (y' & -> & Hy).
  eexists. split; [done|]. pose proof (fi_dom _ _ _ (wr_fine _ _ _ HW) _ _ Hb) as [L1 L2].
  destruct HW as [A1 A2 A3 A4 A5]. constructor; simpl; [done|done| | |].
  - intros b b' HJ. destruct (decide (b = pt_box p)) as [->|Hne].
    + rewrite Hb in HJ. injection HJ as <-. rewrite !lookup_insert. by constructor.
    + rewrite lookup_insert_ne by done. rewrite lookup_insert_ne; [by apply A3|].
      intros <-. by apply Hne, (fi_inj _ _ _ A1 _ _ _ HJ).
  - intros b Hn. rewrite lookup_insert_ne by lia. by apply A4.
  - intros b Hn. rewrite lookup_insert_ne by lia. by apply A5.
Qed.
Lemma drop_lookup l (m : gmap N xval) b : foldr delete m l !! b = if decide (b ∈ l) then None else m !! b.
Proof.
  induction l as [|a l IH]; [done|]. cbn [foldr]. destruct (decide (a = b)) as [->|Hne].
  - rewrite lookup_delete, decide_True; [done|]. by left.
  - rewrite lookup_delete_ne, IH by done. apply decide_ext. rewrite elem_of_cons. naive_solver.
Qed.
Lemma wrel_drop J W W' l l' : wrel J W W' → (∀ b b', J !! b = Some b' → b ∈ l ↔ b' ∈ l') →
  wrel J (x_drop l W) (x_drop l' W').
Proof.
  intros [A1 A2 A3 A4 A5] H. constructor; simpl; [done|done| | |].
  - intros b b' Hb. rewrite !drop_lookup. pose proof (H _ _ Hb) as Hi. specialize (A3 _ _ Hb).
    destruct (decide (b ∈ l)), (decide (b' ∈ l')); try (exfalso; tauto); [constructor|done].
  - intros b Hb. rewrite drop_lookup. destruct (decide _); [done|by apply A4].
  - intros b Hb. rewrite drop_lookup. destruct (decide _); [done|by apply A5].
Qed.
End worlds.
Notation wgrows J W W' J2 W2 W2' := (grows J (x_next W) (x_next W') J2 (x_next W2) (x_next W2')).

(** ** Frames *)
(** The frame [F'] has what [F] has for the values in [A]; the boxes are the same. *)
Record frel (A : value → Prop) (J : gmap N N) (n n' : N) (F F' : xframe) : Prop := {
  fr_vals : ∀ v x, A v → xf_vals F !! v = Some x → ∃ x', xf_vals F' !! v = Some x' ∧ vrel J x x';
  fr_allocs : ∀ b b', J !! b = Some b' → b ∈ xf_allocs F ↔ b' ∈ xf_allocs F';
  fr_lt : ∀ b, b ∈ xf_allocs F → (b < n)%N;
  fr_lt' : ∀ b, b ∈ xf_allocs F' → (b < n')%N;
}.
Lemma frel_grows A J n n' J2 m m' F F' : frel A J n n' F F' → grows J n n' J2 m m' → frel A J2 m m' F F'.
Proof.
  intros [A1 A2 A3 A4] G. constructor.
  - intros v x Hv Hx. destruct (A1 v x Hv Hx) as (x' & -> & Hxx). exists x'. split; [done|].
    eapply vrel_mono; [apply G|done].
  - intros b b' [H|[H1 H2]]%(gr_new _ _ _ _ _ _ G); [by apply A2|].
    split; intros Hb; [apply A3 in Hb|apply A4 in Hb]; lia.
  - intros b Hb. apply A3 in Hb. pose proof (gr_le _ _ _ _ _ _ G). lia.
  - intros b Hb. apply A4 in Hb. pose proof (gr_le' _ _ _ _ _ _ G). lia.
Qed.
Lemma frel_insert A J n n' F F' v x x' : frel A J n n' F F' → vrel J x x' →
  frel A J n n' (x_insert v x F) (x_insert v x' F').
Proof.
  intros [A1 A2 A3 A4] Hx. constructor; try done. intros w y Hw. simpl.
  intros [[<- <-]|[Hne H]]%lookup_insert_Some.
  - exists x'. by rewrite lookup_insert.
  - rewrite lookup_insert_ne by done. by apply A1.
Qed.
Lemma frel_insert_l A J n n' F F' v x : frel A J n n' F F' → ¬ A v → frel A J n n' (x_insert v x F) F'.
Proof.
  intros [A1 A2 A3 A4] Hn. constructor; try done. intros w y Hw. simpl.
  intros [[<- <-]|[Hne H]]%lookup_insert_Some; [done|]. by apply A1.
Qed.
Lemma frel_insert_r A J n n' F F' v x' : frel A J n n' F F' → ¬ A v → frel A J n n' F (x_insert v x' F').
Proof.
  intros [A1 A2 A3 A4] Hn. constructor; try done. intros w y Hw Hy. simpl.
  rewrite lookup_insert_ne by (intros <-; done). by apply A1.
Qed.
