(** Values in the interpreter have the types of the program (C65). *)
From Coq Require Import Lia ZifyBool ZifyNat ZifyN.
From stdpp Require Import list gmap.
From Verif Require Import Base IdModel TypeModel IrModel LayoutModel ArithModel InterpModel DfgSpec UsesSpec TypingSpec FaithSpec
  InterpSimProofs RegularProofs SoundSpec.

(** ** Results that are not panics *)
Definition safe {A} (P : A → Prop) (r : xres A) : Prop :=
  match r with XOk a => P a | XPanic => False | _ => True end.
Lemma safe_bind {A B} (P : A → Prop) (Q : B → Prop) (r : xres A) (k : A → xres B) :
  safe P r → (∀ a, r = XOk a → P a → safe Q (k a)) → safe Q (r ≫= k).
Proof. destruct r; simpl; auto. Qed.
Lemma safe_mono {A} (P Q : A → Prop) (r : xres A) : (∀ a, r = XOk a → P a → Q a) → safe P r → safe Q r.
Proof. destruct r; simpl; auto. Qed.
Lemma safe_mem {A} (P : A → Prop) (o : option A) : (∀ a, o = Some a → P a) → safe P (xmem o).
Proof. destruct o; simpl; auto. Qed.
Lemma safe_need {A} (P : A → Prop) (o : option A) a : o = Some a → P a → safe P (xneed o).
Proof. intros ->. done. Qed.

(** ** Values of a type; [S]: the types of the boxes *)
Fixpoint inner_ty (t : ty) (k : nat) {struct k} : option ty :=
  match k, t with
  | O, _ => Some t
  | Datatypes.S k, TArray base _ => inner_ty base k
  | _, _ => None
  end.
Definition points (S : gmap N ty) (t : ty) (q : xptr) : Prop :=
  ∃ T, S !! pt_box q = Some T ∧ inner_ty T (length (pt_path q)) = Some t.
Fixpoint hasv (S : gmap N ty) (t : ty) (x : xval) : Prop :=
  match t with
  | TInt32 => ∃ z, x = XInt z
  | TUnit => True
  | TArray base _ => ∃ id l, x = XArr id l ∧ Forall (hasv S base) l
  | TPtr t => (∃ i n, x = XPtr None i n) ∨ (∃ a, x = XRaw a) ∨ ∃ q i n, x = XPtr (Some q) i n ∧ points S t q
  | TFun _ _ => False
  end.
Lemma hasv_mono S S' t x : S ⊆ S' → hasv S t x → hasv S' t x.
Proof.
  intros HS. revert x. induction t as [| |b IH n|b _|]; intros x; simpl; try done.
  - intros (id & l & -> & H). exists id, l. split; [done|]. eapply list.Forall_impl; [exact H|exact IH].
  - intros [H|[H|(q & i & n & -> & T & H1 & H2)]]; [by left|right; by left|]. right; right. exists q, i, n. split; [done|].
    exists T. split; [by eapply lookup_weaken|done].
Qed.
Lemma hasv_clone S t : ∀ x n, hasv S t x → hasv S t (xclone x n).1.
Proof.
  induction t as [| |b IH k|b _|]; intros x n; simpl; try done.
  - intros [z ->]. by exists z.
  - intros (id & l & -> & H). rewrite xclone_arr. eexists _, _. split; [reflexivity|]. simpl. generalize (n + 1)%N. clear n.
    induction H as [|x l Hx _ IHl]; intros n; [constructor|]. cbn [xclones]. pose proof (IH x n Hx) as H1. destruct (xclone x n) as [y n1].
    specialize (IHl n1). destruct (xclones l n1) as [ys n2]. by constructor.
  - intros [(i & m & ->)|[(a & ->)|(q & i & m & -> & H)]]; simpl; eauto 10.
Qed.
Lemma zero_safe S t : data_ty t → ∀ n, safe (λ e, hasv S t e.1) (x_zeroinit t n).
Proof.
  induction t as [| |b IH k|b _|]; simpl; try done; intros H n.
  - by eexists.
  - apply (safe_bind (λ e, Forall (hasv S b) e.1)).
    + generalize (n + 1)%N. induction (N.to_nat k) as [|j IHj]; intros m; cbn [x_many]; [constructor|].
      eapply safe_bind; [apply IH, H|]. intros [y n1] _ Hy. eapply safe_bind; [apply IHj|]. intros [ys n2] _ Hys. simpl. by constructor.
    + intros [l n'] _ Hl. simpl. by eexists _, _.
  - left. by eexists _, _.
Qed.
Lemma const_safe S m (E : env) : (∀ v d, m !! v = Some d → is_const (v_kind d) = true → has_type E (v_kind d) (v_ty d)) →
  (∀ v d, m !! v = Some d → e_ty E v = Some (v_ty d)) →
  (∀ v d, m !! v = Some d → v_kind d ≠ KUndef ∧ (v_kind d = KZeroInit → data_ty (v_ty d))) →
  ∀ fuel v d i n, const_is (datas m) v i → m !! v = Some d → safe (λ e, hasv S (v_ty d) e.1) (x_const fuel m v n).
Proof.
  intros HT HE HU. induction fuel as [|k IH]; intros v d i n Hc Hv; [done|]. cbn [x_const]. rewrite Hv. cbn [xneed mbind xres_bind].
  destruct (HU _ _ Hv) as [Hu Hz]. destruct (const_kind_is _ _ _ Hc) as (d' & Hd' & Hk). rewrite Hv in Hd'. injection Hd' as <-.
  pose proof (HT _ _ Hv Hk) as Ht. destruct (v_kind d) as [z| | |es| | | | | | | | | | | | |] eqn:Ek; try done.
  - inversion Ht as [z' E1 E2| | | | | | | | | | | | | | |]. simpl. by eexists.
  - apply zero_safe. auto.
  - inversion Ht as [| | |es' t Hne Htu Hes E1 E2| | | | | | | | | | | |]; subst.
    assert (Hs : ∀ e, e ∈ es → ∃ j, const_is (datas m) e j).
    { intros e He. inversion Hc as [v' t' z E'|v' t' E'|v' t' E'|v' t' vs l E' Hl]; subst;
        unfold datas in E'; rewrite lookup_fmap, Hv in E'; simpl in E'; rewrite Ek in E'; try discriminate. injection E' as _ <-.
      apply elem_of_list_lookup in He as [j Hj]. destruct (Forall2_lookup_l _ _ _ _ _ Hl Hj) as (i' & _ & Hi). by exists i'. }
    apply (safe_bind (λ e, Forall (hasv S t) e.1)).
    + assert (Hes' : ∀ e, e ∈ es → e_ty E e = Some t) by (intros e He; by apply Hes).
      clear -IH Hes' Hs HE. generalize (n + 1)%N. induction es as [|e es IHes]; intros m1; cbn [x_each]; [constructor|].
      destruct (Hs e) as [j Hj]; [by left|]. destruct (const_kind_is _ _ _ Hj) as (de & Hde & _).
      eapply safe_bind; [by eapply IH|]. intros [y n1] _ Hy. eapply safe_bind; [apply IHes; intros; [apply Hs|apply Hes']; by right|].
      intros [ys n2] _ Hys. simpl in *. constructor; [|done]. pose proof (Hes' e ltac:(by left)) as H1. rewrite (HE _ _ Hde) in H1. by injection H1 as <-.
    + intros [l n'] _ Hl. simpl. by eexists _, _.
Qed.

(** ** Memory *)
Definition memok (S : gmap N ty) (m : gmap N xval) : Prop := ∀ b x, m !! b = Some x → ∃ T, S !! b = Some T ∧ hasv S T x.
Lemma hasv_at S p : ∀ T t x y, hasv S T x → inner_ty T (length p) = Some t → at_path x p = Some y → hasv S t y.
Proof.
  induction p as [|[i k] p IH]; intros T t x y Hx Ht Hy; simpl in *; [injection Ht as <-; by injection Hy as <-|].
  destruct T as [| |b n| |]; try done. destruct Hx as (id & l & -> & Hl). destruct (i =? id)%N; [|done].
  destruct (l !! k) as [z|] eqn:Ez; [|done]. simpl in Hy. eapply IH; [|exact Ht|exact Hy]. rewrite list.Forall_forall in Hl.
  apply Hl. by eapply elem_of_list_lookup_2.
Qed.
Lemma hasv_set S p : ∀ T t x y x', hasv S T x → inner_ty T (length p) = Some t → hasv S t y → set_path x p y = Some x' → hasv S T x'.
Proof.
  induction p as [|[i k] p IH]; intros T t x y x' Hx Ht Hy E; simpl in *; [injection Ht as <-; by injection E as <-|].
  destruct T as [| |b n| |]; try done. destruct Hx as (id & l & -> & Hl). destruct (i =? id)%N; [|done].
  destruct (l !! k) as [z|] eqn:Ez; [|done]. simpl in E. destruct (set_path z p y) as [z'|] eqn:E1; [|done]. injection E as <-.
  exists id, (<[k:=z']> l). split; [done|]. apply Forall_insert; [done|]. eapply IH; [|exact Ht|exact Hy|exact E1].
  rewrite list.Forall_forall in Hl. apply Hl. by eapply elem_of_list_lookup_2.
Qed.
Lemma read_safe S m t q : memok S m → points S t q → safe (hasv S t) (x_read m q).
Proof.
  intros Hm (T & HT & Ht). apply safe_mem. intros y Hy. destruct (m !! pt_box q) as [x|] eqn:Ex; [|done]. simpl in Hy.
  destruct (Hm _ _ Ex) as (T' & HT' & Hx). rewrite HT in HT'. injection HT' as <-. by eapply hasv_at.
Qed.
Lemma write_safe S m t q x : memok S m → points S t q → hasv S t x → safe (memok S) (x_write m q x).
Proof.
  intros Hm (T & HT & Ht) Hx. apply safe_mem. intros m' Hm'. destruct (m !! pt_box q) as [y|] eqn:Ey; [|done]. simpl in Hm'.
  destruct (set_path y (pt_path q) x) as [y'|] eqn:E; [|done]. injection Hm' as <-.
  destruct (Hm _ _ Ey) as (T' & HT' & Hy). rewrite HT in HT'. injection HT' as <-.
  intros b z. rewrite lookup_insert_Some. intros [[<- <-]|[_ Hz]]; [|by apply Hm]. exists T. split; [done|]. by eapply hasv_set.
Qed.
Lemma shift_path_length p : ∀ off p', shift_path p off = Some p' → length p' = length p.
Proof.
  induction p as [|[i k] p IH]; intros off p' H; [done|]. destruct p as [|y p].
  - simpl in H. destruct (0 <=? _)%Z; [|done]. by injection H as <-.
  - change (shift_path ((i, k) :: y :: p) off) with (p'' ← shift_path (y :: p) off; Some ((i, k) :: p'')) in H.
    destruct (shift_path (y :: p) off) as [p1|] eqn:E; [|done]. injection H as <-. simpl. f_equal. exact (IH _ _ E).
Qed.
Lemma pointer_safe S t s off sz : hasv S (TPtr t) s → safe (hasv S (TPtr t)) (x_get_pointer s off sz).
Proof.
  intros [(i & n & ->)|[(a & ->)|(q & i & n & -> & HT)]]; cbn [x_get_pointer].
  - case_match; [|done]. left. by eexists _, _.
  - destruct a as [a|]; [|right; left; by eexists]. eapply safe_bind with (P := λ _, True).
    + unfold shift_raw. by case_match.
    + intros b _ _. right. left. by eexists.
  - case_match; [|done]. eapply safe_bind with (P := λ p, length p = length (pt_path q)).
    + apply safe_mem. intros p' Hp. by eapply shift_path_length.
    + intros p' _ Hp. right. right. eexists _, _, _. split; [reflexivity|]. destruct HT as (T & H1 & H2). exists T. simpl. by rewrite Hp.
Qed.
Lemma inner_snoc T k b n : inner_ty T k = Some (TArray b n) → inner_ty T (k + 1) = Some b.
Proof. revert T. induction k as [|k IH]; intros T H; simpl in *; [by injection H as ->|]. destruct T; try done. by apply IH. Qed.
Lemma elem_safe S m t n s off sz : memok S m → hasv S (TPtr (TArray t n)) s → safe (hasv S (TPtr t)) (x_elem_pointer m s off sz).
Proof.
  intros Hm [(i & k & ->)|[(a & ->)|(q & i & k & -> & HT)]]; cbn [x_elem_pointer]; [done|..].
  - destruct a as [a|]; [|right; left; by eexists]. eapply safe_bind with (P := λ _, True).
    + unfold shift_raw. by case_match.
    + intros b _ _. right. left. by eexists.
  - eapply safe_bind; [by eapply read_safe|]. intros x _ (id & l & -> & Hl). apply pointer_safe. right. right. eexists _, _, _. split; [reflexivity|].
    destruct HT as (T & H1 & H2). exists T. split; [done|]. simpl. rewrite app_length. by eapply inner_snoc.
Qed.
(** Foreign functions *)
Lemma word_safe x : safe (λ _, True) (x_word x).
Proof. destruct x as [| | |[]|[]]; done. Qed.
Lemma words_safe l : safe (λ _, True) (x_words l).
Proof.
  induction l as [|x l IH]; [done|]. cbn [x_words]. eapply safe_bind; [apply word_safe|]. intros w _ _. eapply safe_bind; [exact IH|]. done.
Qed.
Lemma of_word_safe S w t : safe (hasv S t) (x_of_word w t).
Proof. destruct t; simpl; eauto. Qed.
