(** Proofs about single data-flow-graph operations. *)
From Verif Require Import Base IdModel TypeModel IrModel BuilderModel UsesSpec UsesProofs DfgSpec.
From Coq Require Import Lia.

(** ** Effect of the use-list loops *)

(** [touch f us m]: apply [f] to the use list of every value listed in [us]. *)
Definition touch (f : gset N → gset N) (us : list N) (m : gmap N vdata) : gmap N vdata :=
  map_imap (λ x d, Some (if decide (x ∈ us) then upd_used_by f d else d)) m.

Definition touchb (f : gset N → gset N) (us : list N) (m : gmap N bbdata) : gmap N bbdata :=
  map_imap (λ x d, Some (if decide (x ∈ us) then upd_bb_used_by f d else d)) m.

Lemma touch_lookup f us m x :
  touch f us m !! x = (λ d, if decide (x ∈ us) then upd_used_by f d else d) <$> m !! x.
Proof. unfold touch. rewrite map_lookup_imap. by destruct (m !! x). Qed.

Lemma touchb_lookup f us m x :
  touchb f us m !! x = (λ d, if decide (x ∈ us) then upd_bb_used_by f d else d) <$> m !! x.
Proof. unfold touchb. rewrite map_lookup_imap. by destruct (m !! x). Qed.

Lemma touch_is_Some f us m x : is_Some (touch f us m !! x) ↔ is_Some (m !! x).
Proof. rewrite touch_lookup. apply fmap_is_Some. Qed.

Lemma touchb_is_Some f us m x : is_Some (touchb f us m !! x) ↔ is_Some (m !! x).
Proof. rewrite touchb_lookup. apply fmap_is_Some. Qed.

Lemma touch_kind f us m x d' :
  touch f us m !! x = Some d' →
  ∃ d, m !! x = Some d ∧ v_kind d' = v_kind d ∧ v_ty d' = v_ty d ∧ v_name d' = v_name d ∧
    v_used_by d' = if decide (x ∈ us) then f (v_used_by d) else v_used_by d.
Proof.
  rewrite touch_lookup. intros H. apply fmap_Some in H as (d & Hd & ->).
  exists d. by destruct (decide (x ∈ us)).
Qed.

Lemma touchb_inv f us m x d' :
  touchb f us m !! x = Some d' →
  ∃ d, m !! x = Some d ∧ bb_params d' = bb_params d ∧ bb_name d' = bb_name d ∧
    bb_used_by d' = if decide (x ∈ us) then f (bb_used_by d) else bb_used_by d.
Proof.
  rewrite touchb_lookup. intros H. apply fmap_Some in H as (d & Hd & ->).
  exists d. by destruct (decide (x ∈ us)).
Qed.

Lemma uses_touch f us m u v : uses (touch f us m) u v ↔ uses m u v.
Proof.
  split.
  - intros (d' & Hd & Hin). apply touch_kind in Hd as (d & Hd & Hk & _).
    exists d. by rewrite <- Hk.
  - intros (d & Hd & Hin). unfold uses. rewrite touch_lookup, Hd. simpl.
    eexists; split; [done|]. by destruct (decide (u ∈ us)).
Qed.

Lemma jumps_touch f us m u b : jumps_to (touch f us m) u b ↔ jumps_to m u b.
Proof.
  split.
  - intros (d' & Hd & Hin). apply touch_kind in Hd as (d & Hd & Hk & _).
    exists d. by rewrite <- Hk.
  - intros (d & Hd & Hin). unfold jumps_to. rewrite touch_lookup, Hd. simpl.
    eexists; split; [done|]. by destruct (decide (u ∈ us)).
Qed.

(** Idempotent set update. *)
Definition idem (f : gset N → gset N) : Prop := ∀ s, f (f s) = f s.

Lemma add_user_idem v : idem (add_user v).
Proof. intros s. unfold add_user. set_solver. Qed.
Lemma del_user_idem v : idem (del_user v).
Proof. intros s. unfold del_user. set_solver. Qed.

Lemma touch_nil f m : touch f [] m = m.
Proof.
  apply map_eq. intros x. rewrite touch_lookup. by destruct (m !! x).
Qed.

Lemma touchb_nil f m : touchb f [] m = m.
Proof.
  apply map_eq. intros x. rewrite touchb_lookup. by destruct (m !! x).
Qed.

Lemma touch_cons_in f u us m d :
  idem f → m !! u = Some d →
  touch f us (<[u := upd_used_by f d]> m) = touch f (u :: us) m.
Proof.
  intros Hf Hd. apply map_eq. intros x. rewrite !touch_lookup.
  destruct (decide (x = u)) as [->|Hne].
  - rewrite lookup_insert, Hd. simpl. f_equal.
    rewrite (decide_True (P := u ∈ u :: us)) by set_solver.
    destruct (decide (u ∈ us)); [|done]. unfold upd_used_by. simpl. by rewrite Hf.
  - rewrite lookup_insert_ne by done. destruct (m !! x); [|done]. simpl. f_equal.
    destruct (decide (x ∈ us)), (decide (x ∈ u :: us)); set_solver.
Qed.

Lemma touch_cons_out f u us m :
  m !! u = None → touch f us m = touch f (u :: us) m.
Proof.
  intros Hd. apply map_eq. intros x. rewrite !touch_lookup.
  destruct (m !! x) eqn:E; [|done]. simpl. f_equal.
  destruct (decide (x ∈ us)), (decide (x ∈ u :: us)); set_solver.
Qed.

Lemma touchb_cons f u us m d :
  idem f → m !! u = Some d →
  touchb f us (<[u := upd_bb_used_by f d]> m) = touchb f (u :: us) m.
Proof.
  intros Hf Hd. apply map_eq. intros x. rewrite !touchb_lookup.
  destruct (decide (x = u)) as [->|Hne].
  - rewrite lookup_insert, Hd. simpl. f_equal.
    rewrite (decide_True (P := u ∈ u :: us)) by set_solver.
    destruct (decide (u ∈ us)); [|done]. unfold upd_bb_used_by. simpl. by rewrite Hf.
  - rewrite lookup_insert_ne by done. destruct (m !! x); [|done]. simpl. f_equal.
    destruct (decide (x ∈ us)), (decide (x ∈ u :: us)); set_solver.
Qed.

(** Two value maps share no handle. *)
Definition vdisj (gs vs : gmap N vdata) : Prop :=
  ∀ x, is_Some (gs !! x) → vs !! x = None.

Lemma upd_uses_spec f us : idem f → ∀ gs vs,
  vdisj gs vs →
  (upd_uses f us gs vs = Some (touch f us gs, touch f us vs) ∧
   ∀ u, u ∈ us → is_Some (gs !! u) ∨ is_Some (vs !! u)) ∨
  (upd_uses f us gs vs = None ∧ ∃ u, u ∈ us ∧ gs !! u = None ∧ vs !! u = None).
Proof.
  intros Hf. induction us as [|u us IH]; intros gs vs Hdis; simpl.
  - left. rewrite !touch_nil. split; [done|]. intros u Hu. by apply elem_of_nil in Hu.
  - unfold data_mut_used. destruct (gs !! u) as [d|] eqn:Eg; simpl.
    + destruct (IH (<[u := upd_used_by f d]> gs) vs) as [[-> Hex]|[-> (w & Hw & Hn1 & Hn2)]].
      * intros x Hx. apply Hdis. destruct (decide (x = u)) as [->|]; [by eauto|].
        by rewrite lookup_insert_ne in Hx.
      * left. rewrite (touch_cons_in f u us gs d) by done.
        rewrite (touch_cons_out f u us vs) by (apply Hdis; by eauto).
        split; [done|]. intros w [->|Hw]%elem_of_cons; [left; by eauto|].
        destruct (Hex w Hw) as [H|H]; [|by right].
        destruct (decide (w = u)) as [->|]; [left; by eauto|].
        rewrite lookup_insert_ne in H by done. by left.
      * right. split; [done|]. exists w. split; [by right|].
        destruct (decide (w = u)) as [->|]; [by rewrite lookup_insert in Hn1|].
        rewrite lookup_insert_ne in Hn1 by done. done.
    + destruct (vs !! u) as [d|] eqn:Ev; simpl.
      * destruct (IH gs (<[u := upd_used_by f d]> vs)) as [[-> Hex]|[-> (w & Hw & Hn1 & Hn2)]].
        { intros x Hx. destruct (decide (x = u)) as [->|].
          - rewrite Eg in Hx. by destruct Hx.
          - rewrite lookup_insert_ne by done. by apply Hdis. }
        { left. rewrite (touch_cons_in f u us vs d) by done.
          rewrite (touch_cons_out f u us gs) by done.
          split; [done|]. intros w [->|Hw]%elem_of_cons; [right; by eauto|].
          destruct (Hex w Hw) as [H|H]; [by left|].
          destruct (decide (w = u)) as [->|]; [right; by eauto|].
          rewrite lookup_insert_ne in H by done. by right. }
        { right. split; [done|]. exists w. split; [by right|].
          destruct (decide (w = u)) as [->|]; [by rewrite lookup_insert in Hn2|].
          rewrite lookup_insert_ne in Hn2 by done. done. }
      * right. split; [done|]. exists u. split; [by left|]. done.
Qed.

Lemma upd_uses_Some f us gs vs gs' vs' :
  idem f → vdisj gs vs → upd_uses f us gs vs = Some (gs', vs') →
  gs' = touch f us gs ∧ vs' = touch f us vs ∧
  ∀ u, u ∈ us → is_Some (gs !! u) ∨ is_Some (vs !! u).
Proof.
  intros Hf Hd H. destruct (upd_uses_spec f us Hf gs vs Hd) as [[H1 H2]|[H1 _]]; congruence || idtac.
  rewrite H in H1. by simplify_eq.
Qed.

Lemma upd_bb_uses_spec f us : idem f → ∀ bs,
  (upd_bb_uses f us bs = Some (touchb f us bs) ∧ ∀ u, u ∈ us → is_Some (bs !! u)) ∨
  (upd_bb_uses f us bs = None ∧ ∃ u, u ∈ us ∧ bs !! u = None).
Proof.
  intros Hf. induction us as [|u us IH]; intros bs; simpl.
  - left. rewrite touchb_nil. split; [done|]. intros u Hu. by apply elem_of_nil in Hu.
  - destruct (bs !! u) as [d|] eqn:Eb; simpl.
    + destruct (IH (<[u := upd_bb_used_by f d]> bs)) as [[-> Hex]|[-> (w & Hw & Hn1)]].
      * left. rewrite (touchb_cons f u us bs d) by done. split; [done|].
        intros w [->|Hw]%elem_of_cons; [by eauto|]. specialize (Hex w Hw).
        destruct (decide (w = u)) as [->|]; [by eauto|].
        by rewrite lookup_insert_ne in Hex.
      * right. split; [done|]. exists w. split; [by right|].
        destruct (decide (w = u)) as [->|]; [by rewrite lookup_insert in Hn1|].
        by rewrite lookup_insert_ne in Hn1.
    + right. split; [done|]. exists u. split; [by left|]. done.
Qed.

Lemma upd_bb_uses_Some f us bs bs' :
  idem f → upd_bb_uses f us bs = Some bs' →
  bs' = touchb f us bs ∧ ∀ u, u ∈ us → is_Some (bs !! u).
Proof.
  intros Hf H. destruct (upd_bb_uses_spec f us Hf bs) as [[H1 H2]|[H1 _]]; [|congruence].
  rewrite H in H1. by simplify_eq.
Qed.

Lemma upd_guses_upd_uses f us : ∀ gs,
  upd_guses f us gs = fst <$> upd_uses f us gs ∅.
Proof.
  induction us as [|u us IH]; intros gs; simpl; [done|].
  unfold data_mut_used. destruct (gs !! u) as [d|]; simpl; [apply IH|].
  by rewrite lookup_empty.
Qed.

Lemma upd_guses_Some f us gs gs' :
  idem f → upd_guses f us gs = Some gs' →
  gs' = touch f us gs ∧ ∀ u, u ∈ us → is_Some (gs !! u).
Proof.
  intros Hf H. rewrite upd_guses_upd_uses in H.
  apply fmap_Some in H as ([gs1 vs1] & H & ->). simpl.
  apply upd_uses_Some in H as (-> & _ & Hex); [|done|].
  - split; [done|]. intros u Hu. destruct (Hex u Hu) as [?|H]; [done|].
    rewrite lookup_empty in H. by destruct H.
  - intros x _. apply lookup_empty.
Qed.

(** ** Local invariant: one data flow graph, [E] = external users of globals *)

Record dinv (E : N → N → Prop) (gs vs : gmap N vdata) (bs : gmap N bbdata) : Prop := {
  di_glob : ∀ v d, gs !! v = Some d → ∀ u, u ∈ v_used_by d ↔ E v u ∨ uses vs u v;
  di_loc : ∀ v d, vs !! v = Some d → ∀ u, u ∈ v_used_by d ↔ uses vs u v;
  di_bb : ∀ b d, bs !! b = Some d → ∀ u, u ∈ bb_used_by d ↔ jumps_to vs u b;
  di_ex : ∀ u v, uses vs u v → is_Some (gs !! v) ∨ is_Some (vs !! v);
  di_bex : ∀ u b, jumps_to vs u b → is_Some (bs !! b);
  di_disj : vdisj gs vs;
  di_irr : ∀ v, ¬ uses vs v v;
}.

(** Global value maps that differ only in use lists. *)
Definition same_skel (m m' : gmap N vdata) : Prop :=
  ∀ x, clone_vdata <$> m !! x = clone_vdata <$> m' !! x.

Lemma same_skel_refl m : same_skel m m.
Proof. done. Qed.
Lemma same_skel_trans m1 m2 m3 : same_skel m1 m2 → same_skel m2 m3 → same_skel m1 m3.
Proof. intros H1 H2 x. by rewrite H1. Qed.
Lemma same_skel_touch f us m : same_skel m (touch f us m).
Proof.
  intros x. rewrite touch_lookup. destruct (m !! x); [|done]. simpl.
  by destruct (decide (x ∈ us)).
Qed.

Lemma same_skel_uses m m' u v : same_skel m m' → uses m u v ↔ uses m' u v.
Proof.
  intros H. unfold uses. specialize (H u).
  destruct (m !! u) as [d|], (m' !! u) as [d'|]; try done; simpl in H.
  - assert (v_kind d = v_kind d') as Hk by (unfold clone_vdata in H; by simplify_eq).
    split; intros (? & [= <-] & ?); eexists; (split; [done|]); congruence.
Qed.

Lemma same_skel_is_Some m m' x : same_skel m m' → is_Some (m !! x) ↔ is_Some (m' !! x).
Proof. intros H. specialize (H x). destruct (m !! x), (m' !! x); by try done; naive_solver. Qed.

Lemma uses_insert m v d u x :
  uses (<[v := d]> m) u x ↔ (u = v ∧ x ∈ operands (v_kind d)) ∨ (u ≠ v ∧ uses m u x).
Proof.
  unfold uses. destruct (decide (u = v)) as [->|Hne].
  - rewrite lookup_insert. split; [intros (? & [= <-] & ?); by left|].
    intros [[_ ?]|[? _]]; [by eauto|done].
  - rewrite lookup_insert_ne by done. split; [by right|]. intros [[? _]|[_ ?]]; done.
Qed.

Lemma jumps_insert m v d u x :
  jumps_to (<[v := d]> m) u x ↔ (u = v ∧ x ∈ targets (v_kind d)) ∨ (u ≠ v ∧ jumps_to m u x).
Proof.
  unfold jumps_to. destruct (decide (u = v)) as [->|Hne].
  - rewrite lookup_insert. split; [intros (? & [= <-] & ?); by left|].
    intros [[_ ?]|[? _]]; [by eauto|done].
  - rewrite lookup_insert_ne by done. split; [by right|]. intros [[? _]|[_ ?]]; done.
Qed.

Lemma uses_delete m v u x : uses (delete v m) u x ↔ u ≠ v ∧ uses m u x.
Proof.
  unfold uses. destruct (decide (u = v)) as [->|Hne].
  - rewrite lookup_delete. naive_solver.
  - rewrite lookup_delete_ne by done. naive_solver.
Qed.

Lemma jumps_delete m v u x : jumps_to (delete v m) u x ↔ u ≠ v ∧ jumps_to m u x.
Proof.
  unfold jumps_to. destruct (decide (u = v)) as [->|Hne].
  - rewrite lookup_delete. naive_solver.
  - rewrite lookup_delete_ne by done. naive_solver.
Qed.

Lemma vdisj_touch f us gs g us' vs : vdisj gs vs → vdisj (touch f us gs) (touch g us' vs).
Proof.
  intros H x Hx. rewrite touch_is_Some in Hx.
  by rewrite touch_lookup, (H _ Hx).
Qed.

(** *** Detaching a value: [delete v] and remove it from the use lists. *)
Lemma detach_inv E gs vs bs v d :
  dinv E gs vs bs → (∀ x, ¬ E x v) → vs !! v = Some d → v ∉ operands (v_kind d) →
  let us := operands (v_kind d) in
  let ts := targets (v_kind d) in
  let gs' := touch (del_user v) us gs in
  let vs' := touch (del_user v) us (delete v vs) in
  let bs' := touchb (del_user v) ts bs in
  (∀ x dx, gs' !! x = Some dx → ∀ u, u ∈ v_used_by dx ↔ E x u ∨ uses vs' u x) ∧
  (∀ x dx, vs' !! x = Some dx → ∀ u, u ∈ v_used_by dx ↔ uses vs' u x) ∧
  (∀ b db, bs' !! b = Some db → ∀ u, u ∈ bb_used_by db ↔ jumps_to vs' u b) ∧
  (∀ u x, uses vs' u x → is_Some (gs' !! x) ∨ is_Some (vs' !! x) ∨ x = v) ∧
  (∀ u b, jumps_to vs' u b → is_Some (bs' !! b)) ∧
  vdisj gs' vs' ∧ (∀ x, ¬ uses vs' x x).
Proof.
  intros [Hg Hl Hb Hex Hbex Hdis Hirr] HE Hv Hself us ts gs' vs' bs'.
  assert (Hu' : ∀ u x, uses vs' u x ↔ u ≠ v ∧ uses vs u x).
  { intros u x. unfold vs'. by rewrite uses_touch, uses_delete. }
  assert (Hj' : ∀ u x, jumps_to vs' u x ↔ u ≠ v ∧ jumps_to vs u x).
  { intros u x. unfold vs'. by rewrite jumps_touch, jumps_delete. }
  assert (Huse : ∀ x, x ∈ us ↔ uses vs v x).
  { intros x. unfold uses. rewrite Hv. split; [by eauto|]. by intros (? & [= <-] & ?). }
  assert (Htgt : ∀ x, x ∈ ts ↔ jumps_to vs v x).
  { intros x. unfold jumps_to. rewrite Hv. split; [by eauto|]. by intros (? & [= <-] & ?). }
  split; [|split; [|split; [|split; [|split; [|split]]]]].
  - intros x dx Hx u. apply touch_kind in Hx as (d0 & Hd0 & _ & _ & _ & ->).
    rewrite Hu'. specialize (Hg _ _ Hd0).
    destruct (decide (x ∈ us)) as [Hin|Hout].
    + unfold del_user. rewrite elem_of_difference, elem_of_singleton, Hg.
      split; [naive_solver|]. intros [HEu|[??]]; [|naive_solver].
      split; [by left|]. intros ->. by apply (HE x).
    + rewrite Hg. split.
      * intros [?|Huse']; [by left|]. right. split; [|done]. intros ->.
        by apply Hout, Huse.
      * naive_solver.
  - intros x dx Hx u. apply touch_kind in Hx as (d0 & Hd0 & _ & _ & _ & ->).
    apply lookup_delete_Some in Hd0 as [Hxv Hd0].
    rewrite Hu'. specialize (Hl _ _ Hd0).
    destruct (decide (x ∈ us)) as [Hin|Hout].
    + unfold del_user. rewrite elem_of_difference, elem_of_singleton, Hl. naive_solver.
    + rewrite Hl. split; [|naive_solver].
      intros Huse'. split; [|done]. intros ->. by apply Hout, Huse.
  - intros x dx Hx u. apply touchb_inv in Hx as (d0 & Hd0 & _ & _ & ->).
    rewrite Hj'. specialize (Hb _ _ Hd0).
    destruct (decide (x ∈ ts)) as [Hin|Hout].
    + unfold del_user. rewrite elem_of_difference, elem_of_singleton, Hb. naive_solver.
    + rewrite Hb. split; [|naive_solver].
      intros Huse'. split; [|done]. intros ->. by apply Hout, Htgt.
  - intros u x [Hne Hux]%Hu'. unfold gs', vs'. rewrite !touch_is_Some.
    destruct (decide (x = v)) as [->|Hxv]; [by right; right|].
    rewrite lookup_delete_ne by done. destruct (Hex _ _ Hux); naive_solver.
  - intros u b [Hne Hub]%Hj'. unfold bs'. rewrite touchb_is_Some. by eapply Hbex.
  - unfold gs', vs'. apply vdisj_touch. intros x Hx.
    apply lookup_delete_None. right. by apply Hdis.
  - intros x Hx. apply Hu' in Hx as [_ Hx]. by eapply Hirr.
Qed.

(** *** Attaching a value: add it to the use lists and insert it. *)
Lemma attach_inv E gs vs bs v data :
  (∀ x dx, gs !! x = Some dx → ∀ u, u ∈ v_used_by dx ↔ E x u ∨ uses vs u x) →
  (∀ x dx, vs !! x = Some dx → ∀ u, u ∈ v_used_by dx ↔ uses vs u x) →
  (∀ b db, bs !! b = Some db → ∀ u, u ∈ bb_used_by db ↔ jumps_to vs u b) →
  (∀ u x, uses vs u x → is_Some (gs !! x) ∨ is_Some (vs !! x) ∨ x = v) →
  (∀ u b, jumps_to vs u b → is_Some (bs !! b)) →
  vdisj gs vs → (∀ x, ¬ uses vs x x) →
  (∀ x, ¬ E x v) → gs !! v = None → vs !! v = None →
  (∀ u, u ∈ v_used_by data ↔ uses vs u v) →
  let us := operands (v_kind data) in
  let ts := targets (v_kind data) in
  (∀ u, u ∈ us → is_Some (gs !! u) ∨ is_Some (vs !! u)) →
  (∀ u, u ∈ ts → is_Some (bs !! u)) →
  dinv E (touch (add_user v) us gs) (<[v := data]> (touch (add_user v) us vs))
    (touchb (add_user v) ts bs).
Proof.
  intros Hg Hl Hb Hex Hbex Hdis Hirr HE Hgv Hvv Hown us ts Hus Hts.
  assert (Hself : v ∉ us).
  { intros Hin. destruct (Hus v Hin) as [[? H]|[? H]]; congruence. }
  assert (Hu' : ∀ u x, uses (<[v := data]> (touch (add_user v) us vs)) u x ↔
                       (u = v ∧ x ∈ us) ∨ uses vs u x).
  { intros u x. rewrite uses_insert, uses_touch. split; [naive_solver|].
    intros [?|Hux]; [by left|]. destruct (decide (u = v)) as [->|]; [|naive_solver].
    destruct Hux as (? & ? & _). congruence. }
  assert (Hj' : ∀ u x, jumps_to (<[v := data]> (touch (add_user v) us vs)) u x ↔
                       (u = v ∧ x ∈ ts) ∨ jumps_to vs u x).
  { intros u x. rewrite jumps_insert, jumps_touch. split; [naive_solver|].
    intros [?|Hux]; [by left|]. destruct (decide (u = v)) as [->|]; [|naive_solver].
    destruct Hux as (? & ? & _). congruence. }
  constructor.
  - intros x dx Hx u. apply touch_kind in Hx as (d0 & Hd0 & _ & _ & _ & ->).
    rewrite Hu'. specialize (Hg _ _ Hd0). destruct (decide (x ∈ us)) as [Hin|Hout].
    + unfold add_user. rewrite elem_of_union, elem_of_singleton, Hg. naive_solver.
    + rewrite Hg. naive_solver.
  - intros x dx Hx u. rewrite Hu'. destruct (decide (x = v)) as [->|Hne].
    + rewrite lookup_insert in Hx. simplify_eq. rewrite Hown. naive_solver.
    + rewrite lookup_insert_ne in Hx by done.
      apply touch_kind in Hx as (d0 & Hd0 & _ & _ & _ & ->).
      specialize (Hl _ _ Hd0). destruct (decide (x ∈ us)) as [Hin|Hout].
      * unfold add_user. rewrite elem_of_union, elem_of_singleton, Hl. naive_solver.
      * rewrite Hl. naive_solver.
  - intros x dx Hx u. apply touchb_inv in Hx as (d0 & Hd0 & _ & _ & ->).
    rewrite Hj'. specialize (Hb _ _ Hd0). destruct (decide (x ∈ ts)) as [Hin|Hout].
    + unfold add_user. rewrite elem_of_union, elem_of_singleton, Hb. naive_solver.
    + rewrite Hb. naive_solver.
  - intros u x Hux. rewrite touch_is_Some.
    destruct (decide (x = v)) as [->|Hne]; [right; by rewrite lookup_insert|].
    rewrite lookup_insert_ne by done. rewrite touch_is_Some.
    apply Hu' in Hux as [[_ Hin]|Hux]; [by apply Hus|].
    destruct (Hex _ _ Hux) as [?|[?|?]]; naive_solver.
  - intros u b Hub. rewrite touchb_is_Some.
    apply Hj' in Hub as [[_ Hin]|Hub]; [by apply Hts|by eapply Hbex].
  - intros x Hx. rewrite touch_is_Some in Hx.
    destruct (decide (x = v)) as [->|Hne].
    + rewrite Hgv in Hx. by destruct Hx.
    + rewrite lookup_insert_ne by done. rewrite touch_lookup, (Hdis _ Hx). done.
  - intros x Hx. apply Hu' in Hx as [[-> ?]|Hx]; [done|by eapply Hirr].
Qed.

(** ** Counters: fresh handles *)

(** Smallest number above every handle handed out so far (the counter itself, or
    2^32 once it has wrapped). *)
Definition ub (c : N) : N := if (c =? 0)%N then two32 else c.

Lemma ub_next c : (c < two32)%N → c ≠ 0%N → ub ((c + 1) `mod` two32) = (c + 1)%N.
Proof.
  intros Hlt Hne. unfold ub. destruct (decide (c + 1 = two32)%N) as [->|Hn].
  - rewrite N.mod_same by done. done.
  - rewrite N.mod_small by lia. destruct (N.eqb_spec (c + 1) 0); lia.
Qed.

(** ** State of one data flow graph within a program, and its preservation *)

Record dstate (E : N → N → Prop) (i : ids) (gs : gmap N vdata) (g : dfg) : Prop := {
  ds_inv : dinv E gs (d_values g) (d_bbs g);
  ds_E : ∀ v u, E v u → (u < ub (next_lv i))%N ∧ d_values g !! u = None;
  ds_gid : ∀ v, is_Some (gs !! v) → (v < local_value_id_starts_from)%N;
  ds_lid : ∀ v, is_Some (d_values g !! v) →
    (local_value_id_starts_from ≤ v < ub (next_lv i))%N;
  ds_bid : ∀ b, is_Some (d_bbs g !! b) → (b < ub (next_bb i))%N;
  ds_lv : (local_value_id_starts_from ≤ ub (next_lv i))%N ∧ (next_lv i < two32)%N;
  ds_bb : (next_bb i < two32)%N;
}.

(** What an operation on one data flow graph guarantees to the rest of the program. *)
Record dpost (E : N → N → Prop) (i : ids) (gs : gmap N vdata) (g : dfg)
    (i' : ids) (gs' : gmap N vdata) (g' : dfg) : Prop := {
  dp_st : dstate E i' gs' g';
  dp_skel : same_skel gs gs';
  dp_gv : next_gv i' = next_gv i;
  dp_fn : next_fn i' = next_fn i;
  dp_lv : (ub (next_lv i) ≤ ub (next_lv i'))%N;
  dp_bb : (ub (next_bb i) ≤ ub (next_bb i'))%N;
  dp_new : ∀ x, is_Some (d_values g' !! x) →
    is_Some (d_values g !! x) ∨ (ub (next_lv i) ≤ x)%N;
}.

Lemma dpost_refl E i gs g : dstate E i gs g → dpost E i gs g i gs g.
Proof. intros H. constructor; try done; lia || naive_solver. Qed.

Lemma dpost_trans E i gs g i1 gs1 g1 i2 gs2 g2 :
  dpost E i gs g i1 gs1 g1 → dpost E i1 gs1 g1 i2 gs2 g2 → dpost E i gs g i2 gs2 g2.
Proof.
  intros H1 H2. constructor.
  - apply H2.
  - eapply same_skel_trans; [apply H1|apply H2].
  - rewrite (dp_gv _ _ _ _ _ _ _ H2). apply H1.
  - rewrite (dp_fn _ _ _ _ _ _ _ H2). apply H1.
  - etrans; [apply H1|apply H2].
  - etrans; [apply H1|apply H2].
  - intros x Hx. destruct (dp_new _ _ _ _ _ _ _ H2 x Hx) as [Hx1|Hx1].
    + by apply (dp_new _ _ _ _ _ _ _ H1).
    + right. pose proof (dp_lv _ _ _ _ _ _ _ H1). lia.
Qed.

Lemma next_local_spec i v i' :
  next_local_value_id i = Some (v, i') →
  v = next_lv i ∧ v ≠ 0%N ∧
  i' = Ids (next_gv i) ((next_lv i + 1) `mod` two32) (next_bb i) (next_fn i).
Proof.
  unfold next_local_value_id, fetch_add1, new_unchecked. simpl.
  destruct (N.eqb_spec (next_lv i) 0); simpl; [done|]. intros. by simplify_eq.
Qed.

Lemma next_bb_spec i v i' :
  next_bb_id i = Some (v, i') →
  v = next_bb i ∧ v ≠ 0%N ∧
  i' = Ids (next_gv i) (next_lv i) ((next_bb i + 1) `mod` two32) (next_fn i).
Proof.
  unfold next_bb_id, fetch_add1, new_unchecked. simpl.
  destruct (N.eqb_spec (next_bb i) 0); simpl; [done|]. intros. by simplify_eq.
Qed.

Lemma dfg_new_value_data_effect i gs g data v i' gs' g' :
  vdisj gs (d_values g) →
  dfg_new_value_data i gs g data = Some (v, i', gs', g') →
  next_local_value_id i = Some (v, i') ∧
  gs' = touch (add_user v) (operands (v_kind data)) gs ∧
  g' = Dfg (<[v := data]> (touch (add_user v) (operands (v_kind data)) (d_values g)))
         (touchb (add_user v) (targets (v_kind data)) (d_bbs g)) ∧
  (∀ u, u ∈ operands (v_kind data) → is_Some (gs !! u) ∨ is_Some (d_values g !! u)) ∧
  (∀ b, b ∈ targets (v_kind data) → is_Some (d_bbs g !! b)).
Proof.
  intros Hd H. unfold dfg_new_value_data in H.
  apply bind_Some in H as ([v0 i0] & Hid & H). simpl in H.
  apply bind_Some in H as ([gs0 vs0] & Hu & H). simpl in H.
  apply bind_Some in H as (bs0 & Hb & H). simplify_eq.
  rewrite value_uses_operands in Hu. rewrite bb_uses_targets in Hb.
  apply upd_uses_Some in Hu as (-> & -> & Hu); [|apply add_user_idem|done].
  apply upd_bb_uses_Some in Hb as (-> & Hb); [|apply add_user_idem].
  done.
Qed.

Lemma dfg_new_value_data_post E i gs g data v i' gs' g' :
  dstate E i gs g → v_used_by data = ∅ →
  dfg_new_value_data i gs g data = Some (v, i', gs', g') →
  dpost E i gs g i' gs' g'.
Proof.
  intros Hs Hub H. destruct Hs as [Hinv HE Hgid Hlid Hbid [Hlv1 Hlv2] Hbb].
  apply dfg_new_value_data_effect in H as (Hid & -> & -> & Hex & Hbex); [|apply Hinv].
  apply next_local_spec in Hid as (-> & Hne & ->).
  set (v := next_lv i) in *.
  assert (Hubv : ub v = v) by (unfold ub; by destruct (N.eqb_spec v 0)).
  assert (Hub' : ub ((v + 1) `mod` two32) = (v + 1)%N) by (by apply ub_next).
  assert (Hvv : d_values g !! v = None).
  { destruct (d_values g !! v) as [d0|] eqn:Ev; [|done].
    assert (is_Some (d_values g !! v)) as Hx by eauto. apply Hlid in Hx. lia. }
  assert (Hgv : gs !! v = None).
  { destruct (gs !! v) as [d0|] eqn:Ev; [|done].
    assert (is_Some (gs !! v)) as Hx by eauto. apply Hgid in Hx. lia. }
  assert (HEv : ∀ x, ¬ E x v).
  { intros x Hx. apply HE in Hx as [? _]. lia. }
  assert (Hnouse : ∀ u, ¬ uses (d_values g) u v).
  { intros u Hu. destruct (di_ex _ _ _ _ Hinv _ _ Hu) as [[? ?]|[? ?]]; congruence. }
  constructor; simpl.
  - constructor; simpl.
    + destruct Hinv as [I1 I2 I3 I4 I5 I6 I7]. apply attach_inv; try done.
      * intros u x Hux. destruct (I4 _ _ Hux); naive_solver.
      * intros u. rewrite Hub. split; [set_solver|]. intros Hu. by apply Hnouse in Hu.
    + intros x u Hx. rewrite Hub'. destruct (HE _ _ Hx) as [Hlt Hn]. split; [lia|].
      rewrite lookup_insert_ne by (intros <-; by apply (HEv x)).
      by rewrite touch_lookup, Hn.
    + intros x Hx. rewrite touch_is_Some in Hx. by apply Hgid.
    + intros x Hx. rewrite Hub'. destruct (decide (x = v)) as [->|Hxv]; [lia|].
      rewrite lookup_insert_ne in Hx by done. rewrite touch_is_Some in Hx.
      apply Hlid in Hx. lia.
    + intros b Hx. rewrite touchb_is_Some in Hx. by apply Hbid.
    + rewrite Hub'. split; [lia|]. apply N.mod_lt. done.
    + done.
  - apply same_skel_touch.
  - done.
  - done.
  - fold v. rewrite Hubv, Hub'. lia.
  - done.
  - intros x Hx. destruct (decide (x = v)) as [->|Hxv]; [right; fold v; lia|].
    rewrite lookup_insert_ne in Hx by done. rewrite touch_is_Some in Hx. by left.
Qed.

(** Replacement of the data of [v] by data with the same users. *)
Lemma replace_effect gs g v (data : vdata → vdata) gs1 vs1 bs1 gs2 vs2 bs2 old :
  vdisj gs (d_values g) →
  d_values g !! v = Some old →
  upd_uses (del_user v) (value_uses (v_kind old)) gs (delete v (d_values g)) = Some (gs1, vs1) →
  upd_bb_uses (del_user v) (bb_uses (v_kind old)) (d_bbs g) = Some bs1 →
  upd_uses (add_user v) (value_uses (v_kind (data old))) gs1 vs1 = Some (gs2, vs2) →
  upd_bb_uses (add_user v) (bb_uses (v_kind (data old))) bs1 = Some bs2 →
  gs1 = touch (del_user v) (operands (v_kind old)) gs ∧
  vs1 = touch (del_user v) (operands (v_kind old)) (delete v (d_values g)) ∧
  bs1 = touchb (del_user v) (targets (v_kind old)) (d_bbs g) ∧
  gs2 = touch (add_user v) (operands (v_kind (data old))) gs1 ∧
  vs2 = touch (add_user v) (operands (v_kind (data old))) vs1 ∧
  bs2 = touchb (add_user v) (targets (v_kind (data old))) bs1 ∧
  v ∉ operands (v_kind old) ∧
  (∀ u, u ∈ operands (v_kind (data old)) → is_Some (gs1 !! u) ∨ is_Some (vs1 !! u)) ∧
  (∀ b, b ∈ targets (v_kind (data old)) → is_Some (bs1 !! b)).
Proof.
  intros Hd Hv H1 H2 H3 H4.
  rewrite value_uses_operands in H1, H3. rewrite bb_uses_targets in H2, H4.
  assert (Hd' : vdisj gs (delete v (d_values g))).
  { intros x Hx. apply lookup_delete_None. right. by apply Hd. }
  apply upd_uses_Some in H1 as (-> & -> & H1); [|apply del_user_idem|done].
  apply upd_bb_uses_Some in H2 as (-> & H2); [|apply del_user_idem].
  apply upd_uses_Some in H3 as (-> & -> & H3); [|apply add_user_idem|by apply vdisj_touch].
  apply upd_bb_uses_Some in H4 as (-> & H4); [|apply add_user_idem].
  repeat split; try done.
  intros Hin. destruct (H1 _ Hin) as [Hx|Hx].
  - rewrite (Hd _ Hx) in Hv. done.
  - rewrite lookup_delete in Hx. by destruct Hx.
Qed.

Lemma replace_post E i gs g v (data : vdata → vdata) gs1 vs1 bs1 gs2 vs2 bs2 old d' :
  dstate E i gs g →
  d_values g !! v = Some old →
  upd_uses (del_user v) (value_uses (v_kind old)) gs (delete v (d_values g)) = Some (gs1, vs1) →
  upd_bb_uses (del_user v) (bb_uses (v_kind old)) (d_bbs g) = Some bs1 →
  upd_uses (add_user v) (value_uses (v_kind (data old))) gs1 vs1 = Some (gs2, vs2) →
  upd_bb_uses (add_user v) (bb_uses (v_kind (data old))) bs1 = Some bs2 →
  v_kind d' = v_kind (data old) → v_used_by d' = v_used_by old →
  dpost E i gs g i gs2 (Dfg (<[v := d']> vs2) bs2).
Proof.
  intros Hs Hv H1 H2 H3 H4 Hk Hu.
  destruct Hs as [Hinv HE Hgid Hlid Hbid [Hlv1 Hlv2] Hbb].
  destruct (replace_effect gs g v data gs1 vs1 bs1 gs2 vs2 bs2 old)
    as (-> & -> & -> & -> & -> & -> & Hself & Hex & Hbex); [apply Hinv|done..|].
  rewrite <- Hk in Hex, Hbex |- *.
  assert (HEv : ∀ x, ¬ E x v).
  { intros x Hx. apply HE in Hx as [_ ?]. congruence. }
  assert (Hkeys : ∀ x, is_Some (<[v:=d']> (touch (add_user v) (operands (v_kind d'))
     (touch (del_user v) (operands (v_kind old)) (delete v (d_values g)))) !! x) →
     is_Some (d_values g !! x)).
  { intros x Hx. destruct (decide (x = v)) as [->|Hxv]; [by eauto|].
    rewrite lookup_insert_ne in Hx by done. rewrite !touch_is_Some in Hx.
    by rewrite lookup_delete_ne in Hx. }
  assert (Hgv : gs !! v = None).
  { destruct (gs !! v) eqn:Eg; [|done].
    rewrite (di_disj _ _ _ _ Hinv v) in Hv; [done|by eauto]. }
  destruct (detach_inv E gs (d_values g) (d_bbs g) v old Hinv HEv Hv Hself)
    as (J1 & J2 & J3 & J4 & J5 & J6 & J7).
  constructor; simpl; try done; try lia.
  - constructor; simpl; try done.
    + apply attach_inv; try done.
      * by rewrite touch_lookup, Hgv.
      * by rewrite touch_lookup, lookup_delete.
      * intros u. rewrite Hu. rewrite (di_loc _ _ _ _ Hinv _ _ Hv).
        rewrite uses_touch, uses_delete. split; [|naive_solver].
        intros Huv. split; [|done]. intros ->. destruct Huv as (? & ? & ?).
        apply Hself. congruence.
    + intros x u Hx. destruct (HE _ _ Hx) as [Hlt Hn]. split; [lia|].
      rewrite lookup_insert_ne by (intros <-; by apply (HEv x)).
      by rewrite !touch_lookup, lookup_delete_ne, Hn by (intros <-; by apply (HEv x)).
    + intros x Hx. rewrite !touch_is_Some in Hx. by apply Hgid.
    + intros x Hx. apply Hlid. by apply Hkeys.
    + intros b Hx. rewrite !touchb_is_Some in Hx. by apply Hbid.
  - eapply same_skel_trans; apply same_skel_touch.
  - intros x Hx. left. by apply Hkeys.
Qed.

Lemma dfg_replace_post E i gs g v data gs' g' :
  dstate E i gs g →
  dfg_replace_value_with_data gs g v data = Some (gs', g') →
  dpost E i gs g i gs' g'.
Proof.
  intros Hs H. unfold dfg_replace_value_with_data in H.
  apply bind_Some in H as (old & Hold & H).
  apply bind_Some in H as ([gs1 vs1] & H1 & H).
  apply bind_Some in H as (bs1 & H2 & H).
  apply bind_Some in H as ([gs2 vs2] & H3 & H).
  apply bind_Some in H as (bs2 & H4 & H). simplify_eq.
  eapply (replace_post _ _ _ _ _ (λ _, data)); done.
Qed.

Lemma dfg_update_post E i gs g v h gs' g' :
  dstate E i gs g →
  dfg_update_value gs g v (kind_mut h) = Some (gs', g') →
  dpost E i gs g i gs' g'.
Proof.
  intros Hs H. unfold dfg_update_value in H.
  apply bind_Some in H as (old & Hold & H).
  apply bind_Some in H as ([gs1 vs1] & H1 & H).
  apply bind_Some in H as (bs1 & H2 & H).
  apply bind_Some in H as ([gs2 vs2] & H3 & H).
  apply bind_Some in H as (bs2 & H4 & H). simplify_eq.
  eapply (replace_post _ _ _ _ _ (kind_mut h)); done.
Qed.

Lemma assert_Some b x : assert_ b = Some x ↔ b = true.
Proof. destruct b, x; simpl; naive_solver. Qed.

Lemma dfg_remove_value_effect gs g v d gs' g' :
  vdisj gs (d_values g) →
  dfg_remove_value gs g v = Some (d, gs', g') →
  d_values g !! v = Some d ∧ v_used_by d = ∅ ∧
  gs' = touch (del_user v) (operands (v_kind d)) gs ∧
  g' = Dfg (touch (del_user v) (operands (v_kind d)) (delete v (d_values g)))
         (touchb (del_user v) (targets (v_kind d)) (d_bbs g)) ∧
  v ∉ operands (v_kind d).
Proof.
  intros Hd H. unfold dfg_remove_value in H.
  apply bind_Some in H as (old & Hold & H).
  apply bind_Some in H as ([] & Has & H). apply assert_Some, bool_decide_eq_true in Has.
  apply bind_Some in H as ([gs1 vs1] & H1 & H).
  apply bind_Some in H as (bs1 & H2 & H). simplify_eq.
  rewrite value_uses_operands in H1. rewrite bb_uses_targets in H2.
  assert (Hd' : vdisj gs (delete v (d_values g))).
  { intros y Hx. apply lookup_delete_None. right. by apply Hd. }
  apply upd_uses_Some in H1 as (-> & -> & H1); [|apply del_user_idem|done].
  apply upd_bb_uses_Some in H2 as (-> & H2); [|apply del_user_idem].
  repeat split; try done.
  intros Hin. destruct (H1 _ Hin) as [Hx|Hx].
  - rewrite (Hd _ Hx) in Hold. done.
  - rewrite lookup_delete in Hx. by destruct Hx.
Qed.

Lemma dfg_remove_value_post E i gs g v d gs' g' :
  dstate E i gs g →
  dfg_remove_value gs g v = Some (d, gs', g') →
  dpost E i gs g i gs' g'.
Proof.
  intros [Hinv HE Hgid Hlid Hbid [Hlv1 Hlv2] Hbb] H.
  apply dfg_remove_value_effect in H as (Hv & Hub & -> & -> & Hself); [|apply Hinv].
  assert (HEv : ∀ x, ¬ E x v).
  { intros x Hx. apply HE in Hx as [_ ?]. congruence. }
  destruct (detach_inv E gs (d_values g) (d_bbs g) v d Hinv HEv Hv Hself)
    as (J1 & J2 & J3 & J4 & J5 & J6 & J7).
  assert (Hkeys : ∀ x, is_Some (touch (del_user v) (operands (v_kind d))
     (delete v (d_values g)) !! x) → is_Some (d_values g !! x)).
  { intros x Hx. rewrite touch_is_Some in Hx. destruct (decide (x = v)) as [->|].
    - rewrite lookup_delete in Hx. by destruct Hx.
    - by rewrite lookup_delete_ne in Hx. }
  constructor; simpl; try done; try lia.
  - constructor; simpl; try done.
    + constructor; try done.
      intros u x Hux. destruct (J4 _ _ Hux) as [?|[?| ->]]; [by left|by right|].
      rewrite uses_touch, uses_delete in Hux. destruct Hux as [_ Hux].
      apply (di_loc _ _ _ _ Hinv _ _ Hv) in Hux. rewrite Hub in Hux. set_solver.
    + intros x u Hx. destruct (HE _ _ Hx) as [Hlt Hn]. split; [lia|].
      by rewrite touch_lookup, lookup_delete_ne, Hn by (intros <-; by apply (HEv x)).
    + intros x Hx. rewrite touch_is_Some in Hx. by apply Hgid.
    + intros x Hx. apply Hlid. by apply Hkeys.
    + intros b Hx. rewrite touchb_is_Some in Hx. by apply Hbid.
  - apply same_skel_touch.
  - intros x Hx. left. by apply Hkeys.
Qed.

(** Changing only the name. *)
Lemma set_name_inv n d d' :
  set_name n d = Some d' →
  v_kind d' = v_kind d ∧ v_used_by d' = v_used_by d ∧ v_ty d' = v_ty d ∧ v_name d' = n ∧
  valid_opt_name n = true.
Proof. unfold set_name. destruct (valid_opt_name n) eqn:E; [|done]. intros. by simplify_eq. Qed.

Lemma rename_uses m v d d' u x :
  m !! v = Some d → v_kind d' = v_kind d → uses (<[v := d']> m) u x ↔ uses m u x.
Proof.
  intros Hv Hk. rewrite uses_insert. rewrite Hk. unfold uses.
  destruct (decide (u = v)) as [->|]; [rewrite Hv; naive_solver|naive_solver].
Qed.

Lemma rename_jumps m v d d' u x :
  m !! v = Some d → v_kind d' = v_kind d → jumps_to (<[v := d']> m) u x ↔ jumps_to m u x.
Proof.
  intros Hv Hk. rewrite jumps_insert. rewrite Hk. unfold jumps_to.
  destruct (decide (u = v)) as [->|]; [rewrite Hv; naive_solver|naive_solver].
Qed.

Lemma insert_is_Some {A} (m : gmap N A) v d x :
  is_Some (m !! v) → is_Some (<[v := d]> m !! x) ↔ is_Some (m !! x).
Proof.
  intros Hv. destruct (decide (x = v)) as [->|].
  - rewrite lookup_insert. split; [done|by eauto].
  - by rewrite lookup_insert_ne.
Qed.

Lemma dfg_set_value_name_post E i gs g v n g' :
  dstate E i gs g →
  dfg_set_value_name g v n = Some g' →
  dpost E i gs g i gs g'.
Proof.
  intros [Hinv HE Hgid Hlid Hbid [Hlv1 Hlv2] Hbb] H. unfold dfg_set_value_name in H.
  apply bind_Some in H as (d & Hv & H).
  apply bind_Some in H as (d' & Hn & H). simplify_eq.
  apply set_name_inv in Hn as (Hk & Hu & _).
  assert (Hsome : is_Some (d_values g !! v)) by eauto.
  constructor; simpl; try done; try lia.
  - constructor; simpl; try done.
    + destruct Hinv as [I1 I2 I3 I4 I5 I6 I7]. constructor.
      * intros x dx Hx u. rewrite (rename_uses _ _ d) by done. by apply I1.
      * intros x dx Hx u. rewrite (rename_uses _ _ d) by done.
        destruct (decide (x = v)) as [->|].
        { rewrite lookup_insert in Hx. simplify_eq. rewrite Hu. by apply I2. }
        { rewrite lookup_insert_ne in Hx by done. by apply I2. }
      * intros x dx Hx u. rewrite (rename_jumps _ _ d) by done. by apply I3.
      * intros u x. rewrite (rename_uses _ _ d) by done. rewrite insert_is_Some by done.
        apply I4.
      * intros u x. rewrite (rename_jumps _ _ d) by done. apply I5.
      * intros x Hx. pose proof (I6 _ Hx) as Hn.
        rewrite lookup_insert_ne; [done|]. intros <-. congruence.
      * intros x. rewrite (rename_uses _ _ d) by done. apply I7.
    + intros x u Hx. destruct (HE _ _ Hx) as [Hlt Hn]. split; [lia|].
      rewrite lookup_insert_ne; [done|]. intros <-. congruence.
    + intros x Hx. rewrite insert_is_Some in Hx by done. by apply Hlid.
  - intros x Hx. rewrite insert_is_Some in Hx by done. by left.
Qed.

Lemma dfg_new_bb_data_post E i gs g bd b i' g' :
  dstate E i gs g → bb_used_by bd = ∅ →
  dfg_new_bb_data i g bd = Some (b, i', g') →
  dpost E i gs g i' gs g'.
Proof.
  intros [Hinv HE Hgid Hlid Hbid [Hlv1 Hlv2] Hbb] Hu H. unfold dfg_new_bb_data in H.
  apply bind_Some in H as ([b0 i0] & Hid & H). simplify_eq.
  apply next_bb_spec in Hid as (-> & Hne & ->).
  set (b := next_bb i) in *.
  assert (Hubv : ub b = b) by (unfold ub; by destruct (N.eqb_spec b 0)).
  assert (Hub' : ub ((b + 1) `mod` two32) = (b + 1)%N) by (by apply ub_next).
  assert (Hb : d_bbs g !! b = None).
  { destruct (d_bbs g !! b) as [d0|] eqn:Ev; [|done].
    assert (is_Some (d_bbs g !! b)) as Hx by eauto. apply Hbid in Hx. lia. }
  constructor; simpl; try done; try lia; [|fold b; rewrite Hubv, Hub'; lia|by left].
  constructor; simpl; try done.
  - destruct Hinv as [I1 I2 I3 I4 I5 I6 I7]. constructor; try done.
    + intros x dx Hx u. destruct (decide (x = b)) as [->|].
      * rewrite lookup_insert in Hx. simplify_eq. rewrite Hu. split; [set_solver|].
        intros Hj. apply I5 in Hj. rewrite Hb in Hj. by destruct Hj.
      * rewrite lookup_insert_ne in Hx by done. by apply I3.
    + intros u x Hux. destruct (decide (x = b)) as [->|].
      * rewrite lookup_insert. by eauto.
      * rewrite lookup_insert_ne by done. by eapply I5.
  - intros x Hx. rewrite Hub'. destruct (decide (x = b)) as [->|]; [lia|].
    rewrite lookup_insert_ne in Hx by done. apply Hbid in Hx. lia.
  - apply N.mod_lt. done.
Qed.

Lemma new_block_args_post E ps : ∀ i gs idx g vs i' gs' g',
  dstate E i gs g →
  new_block_args i gs idx ps g = Some (vs, i', gs', g') →
  dpost E i gs g i' gs' g'.
Proof.
  induction ps as [|[n t] ps IH]; intros i gs idx g vs i' gs' g' Hs H; simpl in H.
  - simplify_eq. by apply dpost_refl.
  - apply bind_Some in H as (d & Hd & H).
    apply bind_Some in H as ([[[v i1] gs1] g1] & H1 & H).
    apply bind_Some in H as ([[[vs2 i2] gs2] g2] & H2 & H). simplify_eq.
    apply set_name_inv in Hd as (_ & Hu & _).
    apply (dfg_new_value_data_post E) in H1; [|done|done].
    eapply dpost_trans; [done|]. eapply IH; [|done]. apply H1.
Qed.

Lemma basic_block_post E i gs g n ps b i' gs' g' :
  dstate E i gs g →
  basic_block_with_param_names i gs g n ps = Some (b, i', gs', g') →
  dpost E i gs g i' gs' g'.
Proof.
  intros Hs H. unfold basic_block_with_param_names in H.
  apply bind_Some in H as ([] & _ & H).
  apply bind_Some in H as ([] & _ & H).
  apply bind_Some in H as ([[[vs i1] gs1] g1] & H1 & H).
  apply bind_Some in H as ([[b2 i2] g2] & H2 & H). simplify_eq.
  eapply new_block_args_post in H1; [|done].
  eapply dpost_trans; [done|]. eapply dfg_new_bb_data_post; [apply H1| |done]. done.
Qed.

(** Removing operand-free, unused values. *)
Lemma remove_params_spec ps : ∀ vs vs',
  remove_params ps vs = Some vs' →
  (∀ x, vs' !! x = if decide (x ∈ ps) then None else vs !! x) ∧
  (∀ p, p ∈ ps → ∃ d, vs !! p = Some d ∧ v_used_by d = ∅) ∧ NoDup ps.
Proof.
  induction ps as [|p ps IH]; intros vs vs' H; simpl in H.
  - simplify_eq. split; [|split].
    + intros x. by rewrite decide_False by apply not_elem_of_nil.
    + intros p Hp. by apply elem_of_nil in Hp.
    + constructor.
  - apply bind_Some in H as (d & Hd & H).
    apply bind_Some in H as ([] & Has & H). apply assert_Some, bool_decide_eq_true in Has.
    apply IH in H as (H1 & H2 & H3). split; [|split].
    + intros x. rewrite H1. destruct (decide (x ∈ ps)) as [Hin|Hout].
      * by rewrite decide_True by (by right).
      * destruct (decide (x = p)) as [->|Hne].
        { by rewrite lookup_delete, decide_True by (by left). }
        { rewrite lookup_delete_ne by done. rewrite decide_False; [done|]. set_solver. }
    + intros q [->|Hq]%elem_of_cons; [by eauto|].
      destruct (H2 _ Hq) as (dq & Hdq & ?). apply lookup_delete_Some in Hdq as [_ ?]. by eauto.
    + constructor; [|done]. intros Hin. destruct (H2 _ Hin) as (dq & Hdq & _).
      by rewrite lookup_delete in Hdq.
Qed.

Lemma dfg_remove_bb_effect g b bd g' :
  dfg_remove_bb g b = Some (bd, g') →
  d_bbs g !! b = Some bd ∧ bb_used_by bd = ∅ ∧
  d_bbs g' = delete b (d_bbs g) ∧
  (∀ x, d_values g' !! x = if decide (x ∈ bb_params bd) then None else d_values g !! x) ∧
  (∀ p, p ∈ bb_params bd → ∃ d, d_values g !! p = Some d ∧ v_used_by d = ∅).
Proof.
  intros H. unfold dfg_remove_bb in H.
  apply bind_Some in H as (d & Hd & H).
  apply bind_Some in H as ([] & Has & H). apply assert_Some, bool_decide_eq_true in Has.
  apply bind_Some in H as (vs' & Hvs & H). simplify_eq.
  apply remove_params_spec in Hvs as (H1 & H2 & _). done.
Qed.

Lemma dfg_remove_bb_post E i gs g b bd g' :
  dstate E i gs g →
  (∀ p d, p ∈ bb_params bd → d_values g !! p = Some d →
     operands (v_kind d) = [] ∧ targets (v_kind d) = []) →
  dfg_remove_bb g b = Some (bd, g') →
  dpost E i gs g i gs g'.
Proof.
  intros [Hinv HE Hgid Hlid Hbid [Hlv1 Hlv2] Hbb] Hfree H.
  apply dfg_remove_bb_effect in H as (Hb & Hub & Hbs & Hvs & Hps).
  destruct Hinv as [I1 I2 I3 I4 I5 I6 I7].
  assert (Hu' : ∀ u x, uses (d_values g') u x ↔ uses (d_values g) u x).
  { intros u x. unfold uses. rewrite Hvs. destruct (decide (u ∈ bb_params bd)) as [Hin|]; [|done].
    split; [naive_solver|]. intros (d & Hd & Hx). destruct (Hfree _ _ Hin Hd) as [Ho _].
    rewrite Ho in Hx. by apply elem_of_nil in Hx. }
  assert (Hj' : ∀ u x, jumps_to (d_values g') u x ↔ jumps_to (d_values g) u x).
  { intros u x. unfold jumps_to. rewrite Hvs. destruct (decide (u ∈ bb_params bd)) as [Hin|]; [|done].
    split; [naive_solver|]. intros (d & Hd & Hx). destruct (Hfree _ _ Hin Hd) as [_ Ho].
    rewrite Ho in Hx. by apply elem_of_nil in Hx. }
  assert (Hkeys : ∀ x dx, d_values g' !! x = Some dx → d_values g !! x = Some dx ∧ x ∉ bb_params bd).
  { intros x dx. rewrite Hvs. by destruct (decide (x ∈ bb_params bd)). }
  assert (Hkeys' : ∀ x, is_Some (d_values g' !! x) → is_Some (d_values g !! x)).
  { intros x [dx Hx]. apply Hkeys in Hx as [? _]. by eauto. }
  constructor; simpl; try done; try lia; [|by eauto].
  constructor; simpl; try done.
  - constructor.
    + intros x dx Hx u. rewrite Hu'. by apply I1.
    + intros x dx Hx u. rewrite Hu'. apply Hkeys in Hx as [Hx _]. by apply I2.
    + intros x dx Hx u. rewrite Hj'. rewrite Hbs in Hx.
      apply lookup_delete_Some in Hx as [_ Hx]. by apply I3.
    + intros u x Hux. apply Hu' in Hux. destruct (I4 _ _ Hux) as [?|[dx Hx]]; [by left|].
      right. rewrite Hvs. destruct (decide (x ∈ bb_params bd)) as [Hin|]; [|by eauto].
      destruct (Hps _ Hin) as (dp & Hdp & Hemp). apply (I2 _ _ Hdp) in Hux.
      rewrite Hemp in Hux. set_solver.
    + intros u x Hux. apply Hj' in Hux. rewrite Hbs.
      destruct (decide (x = b)) as [->|Hne].
      * apply (I3 _ _ Hb) in Hux. rewrite Hub in Hux. set_solver.
      * rewrite lookup_delete_ne by done. by eapply I5.
    + intros x Hx. rewrite Hvs. destruct (decide _); [done|]. by apply I6.
    + intros x. rewrite Hu'. apply I7.
  - intros x u Hx. destruct (HE _ _ Hx) as [Hlt Hn]. split; [lia|].
    rewrite Hvs. by destruct (decide _).
  - intros x Hx. apply Hlid. by apply Hkeys'.
  - intros x Hx. rewrite Hbs in Hx. apply Hbid. destruct Hx as [? Hx].
    apply lookup_delete_Some in Hx as [_ ?]. by eauto.
Qed.
