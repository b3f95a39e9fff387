(** Pointers and the memory they point to (C66). *)
From Coq Require Import Lia ZifyBool ZifyNat ZifyN.
From stdpp Require Import list gmap.
From Verif Require Import Base IdModel TypeModel IrModel LayoutModel ArithModel InterpModel DfgSpec UsesSpec TypingSpec FaithSpec
  InterpSimProofs SoundProofs.

(** ** Results that are not undefined behaviour *)
Definition sane {A} (P : A → Prop) (r : xres A) : Prop :=
  match r with XOk a => P a | XBeyond => False | _ => True end.
Lemma sane_bind {A B} (P : A → Prop) (Q : B → Prop) (r : xres A) (k : A → xres B) :
  sane P r → (∀ a, r = XOk a → P a → sane Q (k a)) → sane Q (r ≫= k).
Proof. destruct r; simpl; auto. Qed.
Lemma sane_mono {A} (P Q : A → Prop) (r : xres A) : (∀ a, r = XOk a → P a → Q a) → sane P r → sane Q r.
Proof. destruct r; simpl; auto. Qed.
Lemma sane_need {A} (P : A → Prop) (o : option A) : (∀ a, o = Some a → P a) → sane P (xneed o).
Proof. destruct o; simpl; auto. Qed.

(** ** The pointers in a value *)
Fixpoint alive (P : xptr → N → N → Prop) (x : xval) : Prop :=
  match x with
  | XPtr (Some q) i n => P q i n
  | XRaw _ => False
  | XArr _ l => (fix go l := match l with [] => True | y :: l' => alive P y ∧ go l' end) l
  | _ => True
  end.
Lemma alive_arr P i l : alive P (XArr i l) ↔ Forall (alive P) l.
Proof.
  simpl. induction l as [|x l IH]; [split; [constructor|done]|]. rewrite list.Forall_cons, <- IH. done.
Qed.
Lemma alive_mono (P Q R : xptr → N → N → Prop) x : (∀ q i n, P q i n → Q q i n → R q i n) → alive P x → alive Q x → alive R x.
Proof.
  intros H. induction x as [|z|i l IH|[q|] i n|a] using xval_ind'; [done|done| |apply H|done|done].
  rewrite !alive_arr, !list.Forall_forall. rewrite list.Forall_forall in IH. eauto.
Qed.
Lemma alive_impl (P Q : xptr → N → N → Prop) x : (∀ q i n, P q i n → Q q i n) → alive P x → alive Q x.
Proof. intros H Hx. eapply (alive_mono P P); [auto|done|done]. Qed.
Lemma alive_clone P x : ∀ n, alive P x → alive P (xclone x n).1.
Proof.
  induction x as [|z|i l IH|[q|] i n|a] using xval_ind'; intros m; try done.
  rewrite xclone_arr. intros H%alive_arr. apply alive_arr. simpl. generalize (m + 1)%N. clear m.
  induction IH as [|x l Hx _ IHl]; intros m; [constructor|]. cbn [xclones]. apply list.Forall_cons in H as [H1 H2].
  specialize (Hx m H1). destruct (xclone x m) as [y n1]. specialize (IHl H2 n1). destruct (xclones l n1) as [ys n2]. by constructor.
Qed.
Lemma alive_at P π : ∀ x y, alive P x → at_path x π = Some y → alive P y.
Proof.
  induction π as [|[i k] π IH]; intros x y Hx Hy; simpl in Hy; [by injection Hy as <-|].
  destruct x as [| |j l| |]; try done. destruct (i =? j)%N; [|done]. destruct (l !! k) as [z|] eqn:Ez; [|done]. simpl in Hy.
  eapply IH; [|exact Hy]. apply alive_arr in Hx. rewrite list.Forall_forall in Hx. apply Hx. by eapply elem_of_list_lookup_2.
Qed.
Lemma alive_set P π : ∀ x y x', alive P x → alive P y → set_path x π y = Some x' → alive P x'.
Proof.
  induction π as [|[i k] π IH]; intros x y x' Hx Hy E; simpl in E; [by injection E as <-|].
  destruct x as [| |j l| |]; try done. destruct (i =? j)%N; [|done]. destruct (l !! k) as [z|] eqn:Ez; [|done]. simpl in E.
  destruct (set_path z π y) as [z'|] eqn:E1; [|done]. injection E as <-. apply alive_arr. apply alive_arr in Hx. apply Forall_insert; [done|].
  eapply IH; [|exact Hy|exact E1]. rewrite list.Forall_forall in Hx. apply Hx. by eapply elem_of_list_lookup_2.
Qed.
Lemma zero_sane S t : ∀ n, sane (λ e, hasv S t e.1 ∧ ∀ P, alive P e.1) (x_zeroinit t n).
Proof.
  induction t as [| |b IH k|b _|]; intros n; simpl; try done.
  - split; [by eexists|done].
  - apply (sane_bind (λ e, Forall (hasv S b) e.1 ∧ ∀ P, Forall (alive P) e.1)).
    + generalize (n + 1)%N. induction (N.to_nat k) as [|j IHj]; intros m; cbn [x_many]; [split; constructor|].
      eapply sane_bind; [apply IH|]. intros [y n1] _ Hy. eapply sane_bind; [apply IHj|]. intros [ys n2] _ Hys. simpl in *.
      split; [constructor; [apply Hy|apply Hys]|]. intros P. constructor; [apply Hy|apply Hys].
    + intros [l n'] _ [Hl Hl']. cbn [sane fst] in *. split; [by eexists _, _|]. intros P. by apply alive_arr.
  - split; [|done]. left. by eexists _, _.
Qed.
Lemma const_sane S m (E : env) : (∀ v d, m !! v = Some d → is_const (v_kind d) = true → has_type E (v_kind d) (v_ty d)) →
  (∀ v d, m !! v = Some d → e_ty E v = Some (v_ty d)) →
  (∀ v d, m !! v = Some d → v_kind d ≠ KUndef) →
  ∀ fuel v d n, m !! v = Some d → sane (λ e, hasv S (v_ty d) e.1 ∧ ∀ P, alive P e.1) (x_const fuel m v n).
Proof.
  intros HT HE HU. induction fuel as [|k IH]; intros v d n Hv; [done|]. cbn [x_const]. rewrite Hv. cbn [xneed mbind xres_bind].
  pose proof (HU _ _ Hv) as Hu. pose proof (HT _ _ Hv) as Ht.
  destruct (v_kind d) as [z| | |es| | | | | | | | | | | | |] eqn:Ek; try done; specialize (Ht eq_refl).
  - inversion Ht as [z' E1 E2| | | | | | | | | | | | | | |]. simpl. split; [by eexists|done].
  - apply zero_sane.
  - inversion Ht as [| | |es' t Hne Htu Hes E1 E2| | | | | | | | | | | |]; subst.
    apply (sane_bind (λ e, Forall (hasv S t) e.1 ∧ ∀ P, Forall (alive P) e.1)).
    + assert (Hes' : ∀ e, e ∈ es → e_ty E e = Some t) by (intros e He; by apply Hes).
      clear -IH Hes' HE. generalize (n + 1)%N. induction es as [|e es IHes]; intros m1; cbn [x_each]; [split; constructor|].
      apply (sane_bind (λ a, hasv S t a.1 ∧ ∀ P, alive P a.1)).
      { destruct (m !! e) as [de|] eqn:Ede.
        - pose proof (Hes' e ltac:(by left)) as H1. rewrite (HE _ _ Ede) in H1. injection H1 as <-. by apply IH.
        - destruct k; [done|]. cbn [x_const]. by rewrite Ede. }
      intros [y n1] _ Hy. eapply sane_bind; [apply IHes; intros; apply Hes'; by right|].
      intros [ys n2] _ Hys. simpl in *. split; [constructor; [apply Hy|apply Hys]|]. intros P. constructor; [apply Hy|apply Hys].
    + intros [l n'] _ [Hl Hl']. cbn [sane fst] in *. split; [by eexists _, _|]. intros P. by apply alive_arr.
Qed.

(** ** Memory *)
Definition at_mem (m : gmap N xval) (b : N) (π : list (N * nat)) : option xval := v ← m !! b; at_path v π.
Definition same (y y' : xval) : Prop :=
  match y with XArr id l => ∃ l', y' = XArr id l' ∧ length l' = length l | _ => True end.
Lemma same_refl y : same y y.
Proof. destruct y; simpl; eauto. Qed.
Definition keeps (m m' : gmap N xval) : Prop :=
  ∀ b π y, at_mem m b π = Some y → ∃ y', at_mem m' b π = Some y' ∧ same y y'.
Lemma keeps_refl m : keeps m m.
Proof. intros b π y H. exists y. split; [done|apply same_refl]. Qed.
Lemma keeps_trans m1 m2 m3 : keeps m1 m2 → keeps m2 m3 → keeps m1 m3.
Proof.
  intros H1 H2 b π y Hy. destruct (H1 _ _ _ Hy) as (y2 & Hy2 & S2). destruct (H2 _ _ _ Hy2) as (y3 & Hy3 & S3). exists y3. split; [done|].
  destruct y; try done. simpl in S2. destruct S2 as (l2 & -> & E2). simpl in S3. destruct S3 as (l3 & -> & E3). exists l3. split; [done|congruence].
Qed.
(** A pointer to a [Val] that is there: to a box, or to an element of a buffer *)
Definition right_ptr (m : gmap N xval) (q : xptr) (i n : N) : Prop :=
  (∃ y, at_mem m (pt_box q) (pt_path q) = Some y) ∧
  (pt_path q = [] ∧ n = 0%N ∨
   ∃ π id k l, pt_path q = π ++ [(id, k)] ∧ at_mem m (pt_box q) π = Some (XArr id l) ∧ i = N.of_nat k ∧ n = N.of_nat (length l)).
Definition live (m : gmap N xval) (x : xval) : Prop := alive (right_ptr m) x.
Definition below (k : N) (m : gmap N xval) : Prop := ∀ b x, (b < k)%N → m !! b = Some x → alive (λ q _ _, (pt_box q < k)%N) x.
Lemma right_keeps m m' q i n : keeps m m' → right_ptr m q i n → right_ptr m' q i n.
Proof.
  intros HK [[y Hy] H]. split; [destruct (HK _ _ _ Hy) as (y' & Hy' & _); by exists y'|].
  destruct H as [H|(π & id & k & l & H1 & H2 & H3 & H4)]; [by left|right].
  destruct (HK _ _ _ H2) as (y' & Hy' & l' & -> & El). exists π, id, k, l'. rewrite El. done.
Qed.
Lemma live_keeps m m' x : keeps m m' → live m x → live m' x.
Proof. intros HK. apply alive_impl. intros q i n. by apply right_keeps. Qed.
Lemma at_path_app π π' : ∀ x, at_path x (π ++ π') = at_path x π ≫= λ y, at_path y π'.
Proof.
  induction π as [|[i k] π IH]; intros x; [done|]. simpl. destruct x as [| |j l| |]; try done. destruct (i =? j)%N; [|done].
  destruct (l !! k); [|done]. simpl. apply IH.
Qed.
Lemma at_mem_app m b π π' : at_mem m b (π ++ π') = at_mem m b π ≫= λ y, at_path y π'.
Proof. unfold at_mem. destruct (m !! b); [|done]. simpl. apply at_path_app. Qed.
Lemma shift_app π : ∀ id k off, (0 ≤ Z.of_nat k + off)%Z → shift_path (π ++ [(id, k)]) off = Some (π ++ [(id, Z.to_nat (Z.of_nat k + off))]).
Proof.
  induction π as [|y π IH]; intros id k off H.
  - simpl. destruct (0 <=? Z.of_nat k + off)%Z eqn:E; [done|lia].
  - assert (Hs : ∀ l, l ≠ [] → shift_path (y :: l) off = (l' ← shift_path l off; Some (y :: l'))) by (intros [|? ?]; [done|by destruct y]).
    change ((y :: π) ++ [(id, k)]) with (y :: (π ++ [(id, k)])). rewrite Hs by (by destruct π). by rewrite IH.
Qed.
Lemma new_pointer m b π id l k : at_mem m b π = Some (XArr id l) → (k < length l)%nat →
  right_ptr m (Ptr b (π ++ [(id, k)])) (N.of_nat k) (N.of_nat (length l)).
Proof.
  intros H Hk. split; [|right; by exists π, id, k, l]. simpl. rewrite at_mem_app, H. simpl. rewrite N.eqb_refl.
  destruct (lookup_lt_is_Some_2 l k Hk) as [y ->]. by exists y.
Qed.
Lemma pointer_sane S m t s off sz : hasv S (TPtr t) s → live m s →
  sane (λ x, hasv S (TPtr t) x ∧ live m x) (x_get_pointer s off sz).
Proof.
  intros Ht Hl. pose proof (pointer_safe S t s off sz Ht) as HS.
  destruct Ht as [(i & n & ->)|[(a & ->)|(q & i & n & -> & HT)]]; cbn [x_get_pointer] in *; [|done|].
  - destruct (_ && _); [|done]. split; [exact HS|done].
  - destruct ((0 <=? Z.of_N i + off) && (Z.of_N i + off <? Z.of_N n))%Z eqn:Eb; [|done]. apply andb_true_iff in Eb as [E1 E2].
    apply Z.leb_le in E1. apply Z.ltb_lt in E2. destruct Hl as [_ [[_ ->]|(π & id & k & l & H1 & H2 & -> & ->)]]; [lia|].
    rewrite H1, shift_app in HS |- * by lia. cbn [xmem mbind xres_bind sane] in *. split; [exact HS|].
    assert (Hk : (Z.to_nat (Z.of_nat k + off) < length l)%nat) by lia. pose proof (new_pointer m _ _ _ _ _ H2 Hk) as H.
    replace (Z.to_N (Z.of_N (N.of_nat k) + off)) with (N.of_nat (Z.to_nat (Z.of_nat k + off))) by lia. exact H.
Qed.
Lemma elem_sane S m t n s off sz : memok S m → hasv S (TPtr (TArray t n)) s → live m s →
  sane (λ x, hasv S (TPtr t) x ∧ live m x) (x_elem_pointer m s off sz).
Proof.
  intros Hm Ht Hl. pose proof (elem_safe S m t n s off sz Hm Ht) as HS.
  destruct Ht as [(i & k & ->)|[(a & ->)|(q & i & k & -> & HT)]]; cbn [x_elem_pointer] in *; [done|done|].
  destruct Hl as [[y Hy] _]. unfold x_read in HS |- *. change (v ← m !! pt_box q; at_path v (pt_path q)) with (at_mem m (pt_box q) (pt_path q)) in HS |- *.
  rewrite Hy in HS |- *. cbn [xmem mbind xres_bind] in HS |- *. destruct y as [| |id l| |]; try done. cbn [x_get_pointer pt_path pt_box] in HS |- *.
  destruct ((0 <=? Z.of_N 0 + off) && (Z.of_N 0 + off <? Z.of_N (N.of_nat (length l))))%Z eqn:Eb; [|done]. apply andb_true_iff in Eb as [E1 E2].
  apply Z.leb_le in E1. apply Z.ltb_lt in E2. rewrite shift_app in HS |- * by lia. cbn [xmem mbind xres_bind sane safe] in *. split; [exact HS|].
  assert (Hk : (Z.to_nat (Z.of_nat 0 + off) < length l)%nat) by lia. pose proof (new_pointer m _ _ _ _ _ Hy Hk) as H.
  replace (Z.to_N (Z.of_N 0 + off)) with (N.of_nat (Z.to_nat (Z.of_nat 0 + off))) by lia. exact H.
Qed.
Lemma live_read m b π y : (∀ x, m !! b = Some x → live m x) → at_mem m b π = Some y → live m y.
Proof.
  intros H Hy. unfold at_mem in Hy. destruct (m !! b) as [x|]; [|done]. simpl in Hy. eapply alive_at; [by apply H|exact Hy].
Qed.
(** Storing where no array is *)
Lemma set_there x π y y0 : at_path x π = Some y0 → (∀ id l, y0 ≠ XArr id l) →
  ∃ x', set_path x π y = Some x' ∧ ∀ π' z, at_path x π' = Some z → ∃ z', at_path x' π' = Some z' ∧ same z z'.
Proof.
  revert x. induction π as [|[i k] π IH]; intros x H Hn.
  - injection H as ->. exists y. split; [done|]. intros π' z Hz. destruct π' as [|[i k] π'].
    + injection Hz as <-. exists y. split; [done|]. destruct y0; try done. by destruct (Hn id l).
    + simpl in Hz. destruct y0; try done. by destruct (Hn id l).
  - simpl in *. destruct x as [| |j l| |]; try done. destruct (i =? j)%N; [|done]. destruct (l !! k) as [u|] eqn:Eu; [|done].
    simpl in *. destruct (IH u H Hn) as (u' & -> & Hu). simpl. eexists. split; [reflexivity|]. intros π' z Hz. destruct π' as [|[i' k'] π'].
    + injection Hz as <-. eexists. split; [reflexivity|]. exists (<[k:=u']> l). by rewrite insert_length.
    + simpl in *. destruct (i' =? j)%N; [|done]. destruct (decide (k' = k)) as [->|Hne].
      * rewrite Eu in Hz. rewrite list_lookup_insert by by eapply lookup_lt_Some. simpl in *. by apply Hu.
      * rewrite list_lookup_insert_ne by done. exists z. split; [done|apply same_refl].
Qed.
Lemma write_sane m q x y0 : at_mem m (pt_box q) (pt_path q) = Some y0 → (∀ id l, y0 ≠ XArr id l) →
  ∃ m', x_write m q x = XOk m' ∧ keeps m m' ∧ (∀ b, is_Some (m' !! b) → is_Some (m !! b)) ∧
    (∀ P b y, m' !! b = Some y → (∀ z, m !! b = Some z → alive P z) → (b = pt_box q → alive P x) → alive P y).
Proof.
  unfold at_mem, x_write. destruct (m !! pt_box q) as [v|] eqn:Ev; [|done]. simpl. intros H Hn. destruct (set_there v (pt_path q) x y0 H Hn) as (v' & Hv & HK).
  rewrite Hv. simpl. eexists. split; [reflexivity|]. split; [|split].
  - intros b π y Hy. unfold at_mem in *. destruct (decide (b = pt_box q)) as [->|Hne].
    + rewrite lookup_insert. rewrite Ev in Hy. by apply HK.
    + rewrite lookup_insert_ne by done. exists y. split; [done|apply same_refl].
  - intros b. destruct (decide (b = pt_box q)) as [->|Hne]; [by eexists|]. by rewrite lookup_insert_ne.
  - intros P b y Hy Hz Hx. apply lookup_insert_Some in Hy as [[<- <-]|[Hne Hy]]; [|by apply Hz]. eapply alive_set; [by apply Hz|by apply Hx|exact Hv].
Qed.
Lemma new_keeps (m : gmap N xval) b x : m !! b = None → keeps m (<[b := x]> m).
Proof.
  intros Hb c π y Hy. exists y. split; [|apply same_refl]. unfold at_mem in *. rewrite lookup_insert_ne; [done|].
  intros <-. by rewrite Hb in Hy.
Qed.
Lemma lookup_drop (l : list N) (m : gmap N xval) b : (b ∈ l → foldr delete m l !! b = None) ∧ (b ∉ l → foldr delete m l !! b = m !! b).
Proof.
  induction l as [|c l [IH1 IH2]]; [split; [by intros []%elem_of_nil|done]|]. cbn [foldr]. rewrite elem_of_cons. destruct (decide (b = c)) as [->|Hne].
  - rewrite lookup_delete. split; [done|]. intros H. destruct H. by left.
  - rewrite lookup_delete_ne by done. split; [intros [H|H]; [done|by apply IH1]|]. intros H. apply IH2. tauto.
Qed.
