(** Use lists along histories of API calls (C06, C07). *)
From Verif Require Import Base IdModel TypeModel IrModel LayoutModel BuilderModel WorldModel
  UsesSpec UsesProofs DfgSpec DfgProofs WorldSpec.
From Coq Require Import Lia.

(** Invariant of a program.  [F] holds all functions ever created, including the
    removed ones in the state in which they were removed. *)
Record winv (i : ids) (p : program) (F : gmap N fdata) : Prop := {
  wi_sub : p_funcs p ⊆ F;
  wi_glob : ∀ v d, p_values p !! v = Some d → ∀ u, u ∈ v_used_by d ↔
    uses (p_values p) u v ∨ ∃ f fd, F !! f = Some fd ∧ uses (vals fd) u v;
  wi_gex : ∀ u v, uses (p_values p) u v → is_Some (p_values p !! v);
  wi_loc : ∀ f fd v d, F !! f = Some fd → vals fd !! v = Some d →
    ∀ u, u ∈ v_used_by d ↔ uses (vals fd) u v;
  wi_bb : ∀ f fd b d, F !! f = Some fd → blks fd !! b = Some d →
    ∀ u, u ∈ bb_used_by d ↔ jumps_to (vals fd) u b;
  wi_ex : ∀ f fd u v, F !! f = Some fd → uses (vals fd) u v →
    is_Some (p_values p !! v) ∨ is_Some (vals fd !! v);
  wi_bex : ∀ f fd u b, F !! f = Some fd → jumps_to (vals fd) u b → is_Some (blks fd !! b);
  wi_disj : ∀ f f' fd fd' x, F !! f = Some fd → F !! f' = Some fd' → f ≠ f' →
    is_Some (vals fd !! x) → vals fd' !! x = None;
  wi_irr : ∀ f fd v, F !! f = Some fd → ¬ uses (vals fd) v v;
  wi_gid : ∀ v, is_Some (p_values p !! v) → (v < next_gv i)%N;
  wi_gv : (0 < next_gv i ≤ local_value_id_starts_from)%N;
  wi_lid : ∀ f fd v, F !! f = Some fd → is_Some (vals fd !! v) →
    (local_value_id_starts_from ≤ v < ub (next_lv i))%N;
  wi_bid : ∀ f fd b, F !! f = Some fd → is_Some (blks fd !! b) → (b < ub (next_bb i))%N;
  wi_fid : ∀ f, is_Some (F !! f) → (f < ub (next_fn i))%N;
  wi_lv : (local_value_id_starts_from ≤ ub (next_lv i))%N ∧ (next_lv i < two32)%N;
  wi_nb : (next_bb i < two32)%N;
  wi_nf : (next_fn i < two32)%N;
}.

(** Users of globals outside function [f]. *)
Definition outside (p : program) (F : gmap N fdata) (f : func) (v u : value) : Prop :=
  uses (p_values p) u v ∨
  ∃ f' fd', f' ≠ f ∧ F !! f' = Some fd' ∧ uses (vals fd') u v.

(** No removed function uses an existing global value. *)
Definition ghosts_clean (p : program) (F : gmap N fdata) : Prop :=
  ∀ f fd u v, F !! f = Some fd → p_funcs p !! f = None → uses (vals fd) u v →
    p_values p !! v = None.

Lemma uses_is_Some m u v : uses m u v → is_Some (m !! u).
Proof. intros (d & ? & _). by eauto. Qed.

Lemma winv_dstate i p F f fd :
  winv i p F → F !! f = Some fd → dstate (outside p F f) i (p_values p) (f_dfg fd).
Proof.
  intros HW Hf. constructor.
  - constructor.
    + intros v d Hv u. rewrite (wi_glob _ _ _ HW _ _ Hv). unfold outside. split.
      * intros [?|(f' & fd' & Hf' & Hu)]; [naive_solver|].
        destruct (decide (f' = f)) as [->|]; [right; by simplify_eq|]. left. right. by eauto.
      * intros [[?|(f' & fd' & Hne & Hf' & Hu)]|?]; [by left| |]; right; by eauto.
    + exact (λ x y, wi_loc _ _ _ HW f fd x y Hf).
    + exact (λ x y, wi_bb _ _ _ HW f fd x y Hf).
    + exact (λ x y, wi_ex _ _ _ HW f fd x y Hf).
    + exact (λ x y, wi_bex _ _ _ HW f fd x y Hf).
    + intros x Hx. destruct (vals fd !! x) eqn:E; [|done].
      pose proof (wi_gid _ _ _ HW _ Hx). pose proof (wi_gv _ _ _ HW).
      assert (is_Some (vals fd !! x)) as Hl by eauto.
      pose proof (wi_lid _ _ _ HW _ _ _ Hf Hl). lia.
    + exact (λ x, wi_irr _ _ _ HW f fd x Hf).
  - intros v u [Hu|(f' & fd' & Hne & Hf' & Hu)].
    + apply uses_is_Some in Hu. pose proof (wi_gid _ _ _ HW _ Hu).
      pose proof (wi_gv _ _ _ HW). pose proof (wi_lv _ _ _ HW). split; [lia|].
      destruct (vals fd !! u) eqn:E; [|done].
      assert (is_Some (vals fd !! u)) as Hl by eauto.
      pose proof (wi_lid _ _ _ HW _ _ _ Hf Hl). lia.
    + apply uses_is_Some in Hu. split.
      * pose proof (wi_lid _ _ _ HW _ _ _ Hf' Hu). lia.
      * by eapply (wi_disj _ _ _ HW f' f).
  - intros v Hv. pose proof (wi_gid _ _ _ HW _ Hv). pose proof (wi_gv _ _ _ HW). lia.
  - exact (λ x, wi_lid _ _ _ HW f fd x Hf).
  - exact (λ x, wi_bid _ _ _ HW f fd x Hf).
  - apply HW.
  - apply HW.
Qed.

Lemma winv_dpost i p F f fd i' gs' g' :
  winv i p F → p_funcs p !! f = Some fd → 
  dpost (outside p F f) i (p_values p) (f_dfg fd) i' gs' g' →
  winv i' (set_func (set_values p gs') f (set_dfg fd g')) (<[f := set_dfg fd g']> F).
Proof.
  intros HW Hpf HP.
  assert (Hf : F !! f = Some fd) by (eapply lookup_weaken; [done|apply HW]).
  destruct HP as [[Hinv HE Hgid Hlid Hbid [Hlv1 Hlv2] Hbb] Hskel Hgv Hfn Hlv Hnb Hnew].
  destruct Hinv as [I1 I2 I3 I4 I5 I6 I7].
  assert (Hgu : ∀ u v, uses gs' u v ↔ uses (p_values p) u v).
  { intros u v. symmetry. by apply same_skel_uses. }
  assert (Hgs : ∀ x, is_Some (gs' !! x) ↔ is_Some (p_values p !! x)).
  { intros x. symmetry. by apply same_skel_is_Some. }
  constructor; simpl.
  - apply insert_mono, HW.
  - intros v d Hv u. rewrite (I1 _ _ Hv), Hgu. unfold outside. split.
    + intros [[?|(f' & fd' & Hne & Hf' & Hu)]|Hu]; [by left| |].
      * right. exists f', fd'. rewrite lookup_insert_ne by done. done.
      * right. exists f, (set_dfg fd g'). by rewrite lookup_insert.
    + intros [?|(f' & fd' & Hf' & Hu)]; [naive_solver|].
      destruct (decide (f' = f)) as [->|Hne].
      * rewrite lookup_insert in Hf'. simplify_eq. by right.
      * rewrite lookup_insert_ne in Hf' by done. left. right. by eauto.
  - intros u v Hu. rewrite Hgu in Hu. rewrite Hgs. by eapply (wi_gex _ _ _ HW).
  - intros f' fd' v d Hf' Hv u. destruct (decide (f' = f)) as [->|Hne].
    + rewrite lookup_insert in Hf'. simplify_eq. by apply I2.
    + rewrite lookup_insert_ne in Hf' by done. by apply (wi_loc _ _ _ HW f').
  - intros f' fd' v d Hf' Hv u. destruct (decide (f' = f)) as [->|Hne].
    + rewrite lookup_insert in Hf'. simplify_eq. by apply I3.
    + rewrite lookup_insert_ne in Hf' by done. by apply (wi_bb _ _ _ HW f').
  - intros f' fd' u v Hf' Hu. destruct (decide (f' = f)) as [->|Hne].
    + rewrite lookup_insert in Hf'. simplify_eq. by eapply I4.
    + rewrite lookup_insert_ne in Hf' by done. rewrite Hgs. by eapply (wi_ex _ _ _ HW f').
  - intros f' fd' u v Hf' Hu. destruct (decide (f' = f)) as [->|Hne].
    + rewrite lookup_insert in Hf'. simplify_eq. by eapply I5.
    + rewrite lookup_insert_ne in Hf' by done. by eapply (wi_bex _ _ _ HW f').
  - intros f1 f2 fd1 fd2 x H1 H2 Hne Hx.
    destruct (decide (f1 = f)) as [->|Hne1], (decide (f2 = f)) as [->|Hne2].
    + done.
    + rewrite lookup_insert in H1. rewrite lookup_insert_ne in H2 by done. simplify_eq.
      apply Hnew in Hx as [Hx|Hx]; [by eapply (wi_disj _ _ _ HW f f2)|].
      destruct (vals fd2 !! x) eqn:E; [|done].
      assert (is_Some (vals fd2 !! x)) as Hs by eauto.
      pose proof (wi_lid _ _ _ HW _ _ _ H2 Hs). lia.
    + rewrite lookup_insert in H2. rewrite lookup_insert_ne in H1 by done. simplify_eq.
      simpl. destruct (d_values g' !! x) eqn:E; [|done].
      assert (is_Some (d_values g' !! x)) as Hs by eauto.
      apply Hnew in Hs as [Hs|Hs].
      * rewrite (wi_disj _ _ _ HW f1 f _ _ _ H1 Hf Hne1 Hx) in Hs. by destruct Hs.
      * pose proof (wi_lid _ _ _ HW _ _ _ H1 Hx). lia.
    + rewrite lookup_insert_ne in H1, H2 by done. by eapply (wi_disj _ _ _ HW f1 f2).
  - intros f' fd' v Hf'. destruct (decide (f' = f)) as [->|Hne].
    + rewrite lookup_insert in Hf'. simplify_eq. by apply I7.
    + rewrite lookup_insert_ne in Hf' by done. by apply (wi_irr _ _ _ HW f').
  - intros v. rewrite Hgs, Hgv. apply HW.
  - rewrite Hgv. apply HW.
  - intros f' fd' v Hf' Hu. destruct (decide (f' = f)) as [->|Hne].
    + rewrite lookup_insert in Hf'. simplify_eq. by apply Hlid.
    + rewrite lookup_insert_ne in Hf' by done.
      pose proof (wi_lid _ _ _ HW _ _ _ Hf' Hu). lia.
  - intros f' fd' v Hf' Hu. destruct (decide (f' = f)) as [->|Hne].
    + rewrite lookup_insert in Hf'. simplify_eq. by apply Hbid.
    + rewrite lookup_insert_ne in Hf' by done.
      pose proof (wi_bid _ _ _ HW _ _ _ Hf' Hu). lia.
  - intros f' Hf'. rewrite Hfn. apply (wi_fid _ _ _ HW).
    destruct (decide (f' = f)) as [->|Hne]; [by eauto|].
    by rewrite lookup_insert_ne in Hf'.
  - done.
  - done.
  - rewrite Hfn. apply HW.
Qed.

Lemma winv0 : winv ids0 program0 ∅.
Proof.
  constructor; simpl; try done; [by intros u v (d & ? & _)|by intros ? [? ?]..].
Qed.

(** Generic step on one data flow graph. *)
Lemma on_dfg_winv {A} w F f (op : ids → gmap N vdata → dfg → option (A * ids * gmap N vdata * dfg))
    a w' :
  winv (w_ids w) (w_prog w) F →
  (∀ fd E a i' gs' g', p_funcs (w_prog w) !! f = Some fd →
     dstate E (w_ids w) (p_values (w_prog w)) (f_dfg fd) →
     op (w_ids w) (p_values (w_prog w)) (f_dfg fd) = Some (a, i', gs', g') →
     dpost E (w_ids w) (p_values (w_prog w)) (f_dfg fd) i' gs' g') →
  on_dfg w f op = Some (a, w') →
  next_gv (w_ids w') = next_gv (w_ids w) ∧
  ∃ fd g', p_funcs (w_prog w) !! f = Some fd ∧
    winv (w_ids w') (w_prog w') (<[f := set_dfg fd g']> F) ∧
    (ghosts_clean (w_prog w) F → ghosts_clean (w_prog w') (<[f := set_dfg fd g']> F)).
Proof.
  intros HW Hop H. unfold on_dfg in H.
  apply bind_Some in H as (fd & Hfd & H).
  apply bind_Some in H as ([[[a0 i'] gs'] g'] & H1 & H). simplify_eq. simpl.
  assert (Hf : F !! f = Some fd) by (eapply lookup_weaken; [done|apply HW]).
  pose proof (winv_dstate _ _ _ _ _ HW Hf) as Hst.
  pose proof (Hop _ _ _ _ _ _ Hfd Hst H1) as HP. split; [apply HP|].
  exists fd, g'. split; [done|]. split; [by eapply winv_dpost|].
  intros Hc f1 fd1 u v H2 H3 Hu. simpl in *.
  destruct (decide (f1 = f)) as [->|Hne]; [by rewrite lookup_insert in H3|].
  rewrite lookup_insert_ne in H2, H3 by done.
  pose proof (Hc _ _ _ _ H2 H3 Hu) as Hn.
  pose proof (dp_skel _ _ _ _ _ _ _ HP v) as Hsk. rewrite Hn in Hsk.
  by destruct (gs' !! v).
Qed.

Lemma on_dfg_step {A} w F f (op : ids → gmap N vdata → dfg → option (A * ids * gmap N vdata * dfg))
    a w' :
  winv (w_ids w) (w_prog w) F →
  (∀ fd E a i' gs' g', p_funcs (w_prog w) !! f = Some fd →
     dstate E (w_ids w) (p_values (w_prog w)) (f_dfg fd) →
     op (w_ids w) (p_values (w_prog w)) (f_dfg fd) = Some (a, i', gs', g') →
     dpost E (w_ids w) (p_values (w_prog w)) (f_dfg fd) i' gs' g') →
  on_dfg w f op = Some (a, w') →
  next_gv (w_ids w') = next_gv (w_ids w) ∧
  ∃ F', winv (w_ids w') (w_prog w') F' ∧
    (ghosts_clean (w_prog w) F → True → ghosts_clean (w_prog w') F').
Proof.
  intros HW Hop H. destruct (on_dfg_winv w F f op a w' HW Hop H) as (? & fd & g' & _ & ? & ?).
  by eauto.
Qed.

(** *** Global values *)

Lemma next_global_spec i v i' :
  next_global_value_id i = Some (v, i') →
  v = next_gv i ∧ v ≠ 0%N ∧
  i' = Ids ((next_gv i + 1) `mod` two32) (next_lv i) (next_bb i) (next_fn i).
Proof.
  unfold next_global_value_id, fetch_add1, new_unchecked. simpl.
  destruct (N.eqb_spec (next_gv i) 0); simpl; [done|]. intros. by simplify_eq.
Qed.

Lemma next_func_spec i v i' :
  next_func_id i = Some (v, i') →
  v = next_fn i ∧ v ≠ 0%N ∧
  i' = Ids (next_gv i) (next_lv i) (next_bb i) ((next_fn i + 1) `mod` two32).
Proof.
  unfold next_func_id, fetch_add1, new_unchecked. simpl.
  destruct (N.eqb_spec (next_fn i) 0); simpl; [done|]. intros. by simplify_eq.
Qed.

(** Two programs that agree on everything the invariant mentions. *)
Lemma winv_ext i p p' F :
  p_values p' = p_values p → p_funcs p' = p_funcs p → winv i p F → winv i p' F.
Proof.
  intros H1 H2 HW. destruct HW. constructor; rewrite ?H1, ?H2; try done.
Qed.

Lemma new_global_winv i p F data v i' p' :
  winv i p F → v_used_by data = ∅ → 
  (next_gv i < local_value_id_starts_from)%N →
  prog_new_value_data i p data = Some (v, i', p') →
  next_gv i' = (next_gv i + 1)%N ∧ winv i' p' F ∧
  (ghosts_clean p F → ghosts_clean p' F).
Proof.
  intros HW Hub Hlt H. unfold prog_new_value_data in H.
  apply bind_Some in H as ([v0 i0] & Hid & H).
  apply bind_Some in H as (gs' & Hgs & H). simplify_eq.
  apply next_global_spec in Hid as (-> & Hne & ->).
  rewrite value_uses_operands in Hgs.
  apply upd_guses_Some in Hgs as (-> & Hex); [|apply add_user_idem].
  set (v := next_gv i) in *. set (us := operands (v_kind data)) in *.
  assert (Hmod : ((v + 1) `mod` two32 = v + 1)%N).
  { apply N.mod_small. unfold two32, local_value_id_starts_from in *. lia. }
  simpl. split; [done|].
  destruct HW as [W1 W2 W3 W4 W5 W6 W7 W8 W17 W9 W10 W11 W12 W13 W14 W15 W16].
  assert (Hv : p_values p !! v = None).
  { destruct (p_values p !! v) eqn:E; [|done].
    assert (is_Some (p_values p !! v)) as Hs by eauto. apply W9 in Hs. lia. }
  assert (Hself : v ∉ us).
  { intros Hin. destruct (Hex _ Hin). congruence. }
  assert (Hu' : ∀ u x, uses (<[v := data]> (touch (add_user v) us (p_values p))) u x ↔
                       (u = v ∧ x ∈ us) ∨ uses (p_values p) u x).
  { intros u x. rewrite uses_insert, uses_touch. split; [naive_solver|].
    intros [?|Hux]; [by left|]. destruct (decide (u = v)) as [->|]; [|naive_solver].
    destruct Hux as (? & ? & _). congruence. }
  assert (Hnu : ∀ u, ¬ uses (p_values p) u v).
  { intros u Hu. apply W3 in Hu. rewrite Hv in Hu. by destruct Hu. }
  assert (Hnl : ∀ f fd u, F !! f = Some fd → ¬ uses (vals fd) u v).
  { intros f fd u Hf Hu. destruct (W6 _ _ _ _ Hf Hu) as [Hs|Hs].
    - rewrite Hv in Hs. by destruct Hs.
    - pose proof (W11 _ _ _ Hf Hs). lia. }
  split; [|by intros Hc f fd u x Hf Hpf Hu; simpl in *;
           rewrite lookup_insert_ne by (intros <-; by eapply Hnl);
           rewrite touch_lookup, (Hc _ _ _ _ Hf Hpf Hu)].
  constructor; simpl; try done.
  - intros x dx Hx u. rewrite Hu'. destruct (decide (x = v)) as [->|Hxv].
    + rewrite lookup_insert in Hx. simplify_eq. rewrite Hub. split; [set_solver|].
      intros [[[_ ?]|Hu]|(f & fd & Hf & Hu)]; [done| |].
      * by apply Hnu in Hu.
      * by eapply Hnl in Hu.
    + rewrite lookup_insert_ne in Hx by done.
      apply touch_kind in Hx as (d0 & Hd0 & _ & _ & _ & ->).
      specialize (W2 _ _ Hd0). destruct (decide (x ∈ us)).
      * unfold add_user. rewrite elem_of_union, elem_of_singleton, W2. naive_solver.
      * rewrite W2. naive_solver.
  - intros u x Hux. destruct (decide (x = v)) as [->|Hxv]; [rewrite lookup_insert; by eauto|].
    rewrite lookup_insert_ne by done. rewrite touch_is_Some.
    apply Hu' in Hux as [[_ Hin]|Hux]; [by apply Hex|by eapply W3].
  - intros f fd u x Hf Hu. destruct (decide (x = v)) as [->|Hxv].
    { left. rewrite lookup_insert; by eauto. }
    rewrite lookup_insert_ne by done. rewrite touch_is_Some. by eapply W6.
  - intros x Hx. rewrite Hmod. destruct (decide (x = v)) as [->|Hxv]; [lia|].
    rewrite lookup_insert_ne in Hx by done. rewrite touch_is_Some in Hx.
    apply W9 in Hx. lia.
  - rewrite Hmod. lia.
Qed.

Lemma remove_global_winv i p F v d p' :
  winv i p F → prog_remove_value p v = Some (d, p') →
  winv i p' F ∧ (ghosts_clean p F → ghosts_clean p' F).
Proof.
  intros HW H. unfold prog_remove_value in H.
  apply bind_Some in H as (d0 & Hd & H).
  apply bind_Some in H as (il & _ & H).
  apply bind_Some in H as ([] & Has & H). apply assert_Some, bool_decide_eq_true in Has.
  apply bind_Some in H as (gs' & Hgs & H). simplify_eq.
  rewrite value_uses_operands in Hgs.
  apply upd_guses_Some in Hgs as (-> & Hex); [|apply del_user_idem].
  set (us := operands (v_kind d)) in *.
  destruct HW as [W1 W2 W3 W4 W5 W6 W7 W8 W17 W9 W10 W11 W12 W13 W14 W15 W16].
  assert (Hself : v ∉ us).
  { intros Hin. destruct (Hex _ Hin) as [? Hs]. by rewrite lookup_delete in Hs. }
  assert (Hu' : ∀ u x, uses (touch (del_user v) us (delete v (p_values p))) u x ↔
                       u ≠ v ∧ uses (p_values p) u x).
  { intros u x. by rewrite uses_touch, uses_delete. }
  assert (Hnone : ∀ u, ¬ (uses (p_values p) u v ∨
     ∃ f fd, F !! f = Some fd ∧ uses (vals fd) u v)).
  { intros u Hu. apply (W2 _ _ Hd) in Hu. rewrite Has in Hu. set_solver. }
  split. all: swap 1 2.
  { intros Hc f fd u x Hf Hpf Hu. simpl in *. rewrite touch_lookup.
    destruct (decide (x = v)) as [->|]; [by rewrite lookup_delete|].
    by rewrite lookup_delete_ne, (Hc _ _ _ _ Hf Hpf Hu). }
  constructor; simpl; try done.
  - intros x dx Hx u. apply touch_kind in Hx as (d0 & Hd0 & _ & _ & _ & ->).
    apply lookup_delete_Some in Hd0 as [Hxv Hd0]. rewrite Hu'. specialize (W2 _ _ Hd0).
    assert (Hloc : ∀ f fd, F !! f = Some fd → ¬ uses (vals fd) v x).
    { intros f fd Hf Hu. apply uses_is_Some in Hu. pose proof (W11 _ _ _ Hf Hu).
      assert (is_Some (p_values p !! v)) as Hs by eauto. apply W9 in Hs. lia. }
    destruct (decide (x ∈ us)) as [Hin|Hout].
    + unfold del_user. rewrite elem_of_difference, elem_of_singleton, W2.
      split; [naive_solver|]. intros [[??]|(f & fd & Hf & Hu)].
      * naive_solver.
      * split; [right; by eauto|]. intros ->. by eapply Hloc.
    + rewrite W2. split; [|naive_solver].
      intros [Hu|?]; [|by right]. left. split; [|done]. intros ->.
      destruct Hu as (? & ? & ?). by simplify_eq.
  - intros u x [Hne Hu]%Hu'. rewrite touch_is_Some.
    destruct (decide (x = v)) as [->|Hxv].
    + exfalso. apply (Hnone u). by left.
    + rewrite lookup_delete_ne by done. by eapply W3.
  - intros f fd u x Hf Hu. rewrite touch_is_Some. destruct (decide (x = v)) as [->|Hxv].
    + exfalso. apply (Hnone u). right. by eauto.
    + rewrite lookup_delete_ne by done. by eapply W6.
  - intros x Hx. rewrite touch_is_Some in Hx. apply W9.
    destruct Hx as [? Hx]. apply lookup_delete_Some in Hx as [_ ?]. by eauto.
Qed.

Lemma name_global_winv i p F v n p' :
  winv i p F → prog_set_value_name p v n = Some p' →
  winv i p' F ∧ (ghosts_clean p F → ghosts_clean p' F).
Proof.
  intros HW H. unfold prog_set_value_name in H.
  apply bind_Some in H as (d & Hd & H).
  apply bind_Some in H as (d' & Hn & H). simplify_eq.
  apply set_name_inv in Hn as (Hk & Hu & _).
  assert (Hsome : is_Some (p_values p !! v)) by eauto.
  destruct HW as [W1 W2 W3 W4 W5 W6 W7 W8 W17 W9 W10 W11 W12 W13 W14 W15 W16].
  split. all: swap 1 2.
  { intros Hc f fd u x Hf Hpf Hux. simpl in *. pose proof (Hc _ _ _ _ Hf Hpf Hux) as Hn.
    rewrite lookup_insert_ne; [done|]. intros <-. congruence. }
  constructor; simpl; try done.
  - intros x dx Hx u. rewrite (rename_uses _ _ d) by done.
    destruct (decide (x = v)) as [->|].
    + rewrite lookup_insert in Hx. simplify_eq. rewrite Hu. by apply W2.
    + rewrite lookup_insert_ne in Hx by done. by apply W2.
  - intros u x. rewrite (rename_uses _ _ d) by done. rewrite insert_is_Some by done. apply W3.
  - intros f fd u x Hf Hux. rewrite insert_is_Some by done. by eapply W6.
  - intros x. rewrite insert_is_Some by done. apply W9.
Qed.

(** *** Functions *)

Lemma new_func_args_post ps : ∀ i idx g vs i' g',
  dstate (λ _ _, False) i ∅ g →
  new_func_args i idx ps g = Some (vs, i', g') →
  dpost (λ _ _, False) i ∅ g i' ∅ g'.
Proof.
  induction ps as [|[n t] ps IH]; intros i idx g vs i' g' Hs H; simpl in H.
  - simplify_eq. by apply dpost_refl.
  - apply bind_Some in H as ([[[v i1] gs1] g1] & H1 & H).
    apply bind_Some in H as (g2 & H2 & H).
    apply bind_Some in H as ([[vs3 i3] g3] & H3 & H). simplify_eq.
    assert (gs1 = ∅) as ->.
    { apply dfg_new_value_data_effect in H1 as (_ & -> & _); [|apply Hs]. done. }
    apply (dfg_new_value_data_post (λ _ _, False)) in H1; [|done|done].
    eapply dpost_trans; [done|].
    apply (dfg_set_value_name_post (λ _ _, False) i1 ∅) in H2; [|apply H1].
    eapply dpost_trans; [done|].
    eapply IH; [|done]. apply H2.
Qed.

(** Adding a function whose data flow graph is closed and fresh. *)
Lemma new_func_winv i0 i p F data f i' p' :
  winv i0 p F →
  dpost (λ _ _, False) i0 ∅ dfg0 i ∅ (f_dfg data) →
  prog_new_func i p data = Some (f, i', p') →
  next_gv i' = next_gv i0 ∧ winv i' p' (<[f := data]> F) ∧
  (ghosts_clean p F → ghosts_clean p' (<[f := data]> F)).
Proof.
  intros HW HP H. unfold prog_new_func in H.
  apply bind_Some in H as ([f1 i1] & Hid & H). simplify_eq.
  apply next_func_spec in Hid as (-> & Hne & ->).
  destruct HP as [[Hinv HE Hgid Hlid Hbid [Hlv1 Hlv2] Hbb] Hskel Hgv Hfn Hlv Hnb Hnew].
  destruct Hinv as [I1 I2 I3 I4 I5 I6 I7]. simpl. rewrite Hgv. split; [done|].
  destruct HW as [W1 W2 W3 W4 W5 W6 W7 W8 W17 W9 W10 W11 W12 W13 W14 W15 W16].
  rewrite <- Hfn in W13, W16. set (f := next_fn i) in *.
  assert (Hubv : ub f = f) by (unfold ub; by destruct (N.eqb_spec f 0)).
  assert (Hub' : ub ((f + 1) `mod` two32) = (f + 1)%N) by (by apply ub_next).
  assert (HF : F !! f = None).
  { destruct (F !! f) eqn:E; [|done]. assert (is_Some (F !! f)) as Hs by eauto.
    apply W13 in Hs. lia. }
  assert (Hnew' : ∀ x, is_Some (vals data !! x) → (ub (next_lv i0) ≤ x)%N).
  { intros x Hx. apply Hnew in Hx as [Hx|?]; [|done]. simpl in Hx.
    rewrite lookup_empty in Hx. by destruct Hx. }
  assert (Hcl : ∀ u v, uses (vals data) u v → is_Some (vals data !! v)).
  { intros u v Hu. apply I4 in Hu as [Hs|?]; [|done]. rewrite lookup_empty in Hs. by destruct Hs. }
  split; [|by intros Hc f1 fd u x Hf Hpf Hu; simpl in *;
           destruct (decide (f1 = f)) as [->|]; [by rewrite lookup_insert in Hpf|];
           rewrite lookup_insert_ne in Hf, Hpf by done; eapply Hc].
  constructor; simpl; try done.
  - by apply insert_mono.
  - intros v d Hv u. rewrite (W2 _ _ Hv). split.
    + intros [?|(f' & fd & Hf & Hu)]; [by left|]. right. exists f', fd.
      rewrite lookup_insert_ne by (intros <-; congruence). done.
    + intros [?|(f' & fd & Hf & Hu)]; [by left|].
      destruct (decide (f' = f)) as [->|].
      * rewrite lookup_insert in Hf. simplify_eq. apply Hcl, Hlid in Hu.
        assert (is_Some (p_values p !! v)) as Hs by eauto. apply W9 in Hs. lia.
      * rewrite lookup_insert_ne in Hf by done. right. by eauto.
  - intros f' fd' v d Hf' Hv u. destruct (decide (f' = f)) as [->|Hn].
    + rewrite lookup_insert in Hf'. simplify_eq. by apply I2.
    + rewrite lookup_insert_ne in Hf' by done. by apply (W4 f').
  - intros f' fd' v d Hf' Hv u. destruct (decide (f' = f)) as [->|Hn].
    + rewrite lookup_insert in Hf'. simplify_eq. by apply I3.
    + rewrite lookup_insert_ne in Hf' by done. by apply (W5 f').
  - intros f' fd' u v Hf' Hu. destruct (decide (f' = f)) as [->|Hn].
    + rewrite lookup_insert in Hf'. simplify_eq. right. by eapply Hcl.
    + rewrite lookup_insert_ne in Hf' by done. by eapply (W6 f').
  - intros f' fd' u v Hf' Hu. destruct (decide (f' = f)) as [->|Hn].
    + rewrite lookup_insert in Hf'. simplify_eq. by eapply I5.
    + rewrite lookup_insert_ne in Hf' by done. by eapply (W7 f').
  - intros f1 f2 fd1 fd2 x H1 H2 Hn Hx.
    destruct (decide (f1 = f)) as [->|Hn1], (decide (f2 = f)) as [->|Hn2].
    + done.
    + rewrite lookup_insert in H1. rewrite lookup_insert_ne in H2 by done. simplify_eq.
      apply Hnew' in Hx. destruct (vals fd2 !! x) eqn:E; [|done].
      assert (is_Some (vals fd2 !! x)) as Hs by eauto.
      pose proof (W11 _ _ _ H2 Hs). lia.
    + rewrite lookup_insert in H2. rewrite lookup_insert_ne in H1 by done. simplify_eq.
      destruct (vals fd2 !! x) eqn:E; [|done].
      assert (is_Some (vals fd2 !! x)) as Hs by eauto. apply Hnew' in Hs.
      pose proof (W11 _ _ _ H1 Hx). lia.
    + rewrite lookup_insert_ne in H1, H2 by done. by eapply (W8 f1 f2).
  - intros f' fd' v Hf'. destruct (decide (f' = f)) as [->|Hn].
    + rewrite lookup_insert in Hf'. simplify_eq. by apply I7.
    + rewrite lookup_insert_ne in Hf' by done. by apply (W17 f').
  - intros f' fd' v Hf' Hu. destruct (decide (f' = f)) as [->|Hn].
    + rewrite lookup_insert in Hf'. simplify_eq. by apply Hlid.
    + rewrite lookup_insert_ne in Hf' by done. pose proof (W11 _ _ _ Hf' Hu). lia.
  - intros f' fd' v Hf' Hu. destruct (decide (f' = f)) as [->|Hn].
    + rewrite lookup_insert in Hf'. simplify_eq. by apply Hbid.
    + rewrite lookup_insert_ne in Hf' by done. pose proof (W12 _ _ _ Hf' Hu). lia.
  - intros f' Hf'. rewrite Hub'. destruct (decide (f' = f)) as [->|Hn]; [lia|].
    rewrite lookup_insert_ne in Hf' by done. apply W13 in Hf'. lia.
  - apply N.mod_lt. done.
Qed.

Lemma dstate_empty i p F : winv i p F → dstate (λ _ _, False) i ∅ dfg0.
Proof.
  intros HW. constructor; simpl; try done.
  - constructor; try done.
    + intros u v (d & Hd & _). done.
    + intros u v (d & Hd & _). done.
    + intros u (d & Hd & _). done.
  - intros v Hv. rewrite lookup_empty in Hv. by destruct Hv.
  - intros v Hv. rewrite lookup_empty in Hv. by destruct Hv.
  - intros v Hv. rewrite lookup_empty in Hv. by destruct Hv.
  - apply HW.
  - apply HW.
Qed.

(** *** One call *)

Lemma build_no_users q r d : build q r = Some d → v_used_by d = ∅.
Proof.
  intros H. destruct r; simpl in H;
    unfold mk_integer, mk_zero_init, mk_undef, mk_aggregate, mk_global_alloc, mk_alloc,
      mk_load, mk_store, mk_get_ptr, mk_get_elem_ptr, mk_binary, mk_branch,
      mk_branch_with_args, mk_jump, mk_jump_with_args, mk_call, mk_ret in H;
    repeat match type of H with
    | (_ ≫= _) = Some _ => apply bind_Some in H as (? & _ & H)
    | match ?x with _ => _ end = Some _ => destruct x; try done
    end; by simplify_eq.
Qed.

Lemma step_winv o w w' F :
  winv (w_ids w) (w_prog w) F → tidy o w →
  (creates_global o = true → (next_gv (w_ids w) < local_value_id_starts_from)%N) →
  step o w = Some w' →
  (next_gv (w_ids w') = next_gv (w_ids w) + if creates_global o then 1 else 0)%N ∧
  ∃ F', winv (w_ids w') (w_prog w') F' ∧
    (ghosts_clean (w_prog w) F → releases_globals o w → ghosts_clean (w_prog w') F').
Proof.
  intros HW Hok Hg H. destruct o; cbn [step creates_global releases_globals] in *.
  - apply fmap_Some in H as ([v w1] & H & ->). simpl. rewrite N.add_0_r.
    eapply on_dfg_step; [done| |exact H].
    intros fd E a i' gs' g' _ Hs Hop. cbv beta in Hop.
    apply bind_Some in Hop as (d & Hb & Hop).
    eapply dfg_new_value_data_post; [done| |done]. by eapply build_no_users.
  - apply fmap_Some in H as ([v w1] & H & ->). simpl. rewrite N.add_0_r.
    eapply on_dfg_step; [done| |exact H].
    intros fd E a i' gs' g' _ Hs Hop. cbv beta in Hop.
    eapply dfg_new_value_data_post; [exact Hs| |exact Hop]. done.
  - unfold w_replace in H. apply bind_Some in H as ([[] w1] & H & Hw). simplify_eq.
    rewrite N.add_0_r. eapply on_dfg_step; [done| |exact H].
    intros fd E a i' gs' g' _ Hs Hop. cbv beta in Hop.
    apply bind_Some in Hop as (d & Hb & Hop).
    apply bind_Some in Hop as ([gs1 g1] & Hr & Hop). simplify_eq.
    by eapply dfg_replace_post.
  - unfold w_replace_data in H. apply bind_Some in H as ([[] w1] & H & Hw). simplify_eq.
    rewrite N.add_0_r. eapply on_dfg_step; [done| |exact H].
    intros fd E a i' gs' g' _ Hs Hop. cbv beta in Hop.
    apply bind_Some in Hop as ([gs1 g1] & Hr & Hop). simplify_eq.
    by eapply dfg_replace_post.
  - unfold w_update in H. apply bind_Some in H as ([[] w1] & H & Hw). simplify_eq.
    rewrite N.add_0_r. eapply on_dfg_step; [done| |exact H].
    intros fd E a i' gs' g' _ Hs Hop. cbv beta in Hop.
    apply bind_Some in Hop as ([gs1 g1] & Hr & Hop). simplify_eq.
    by eapply dfg_update_post.
  - apply fmap_Some in H as ([d w1] & H & ->). simpl. rewrite N.add_0_r.
    eapply on_dfg_step; [done| |exact H].
    intros fd E a i' gs' g' _ Hs Hop. cbv beta in Hop.
    apply bind_Some in Hop as ([[d1 gs1] g1] & Hr & Hop). simplify_eq.
    by eapply dfg_remove_value_post.
  - unfold w_name_local in H. apply bind_Some in H as ([[] w1] & H & Hw). simplify_eq.
    rewrite N.add_0_r. eapply on_dfg_step; [done| |exact H].
    intros fd E a i' gs' g' _ Hs Hop. cbv beta in Hop.
    apply bind_Some in Hop as (g1 & Hr & Hop). simplify_eq.
    by eapply dfg_set_value_name_post.
  - apply fmap_Some in H as ([b w1] & H & ->). simpl. rewrite N.add_0_r.
    eapply on_dfg_step; [done| |exact H].
    intros fd E a i' gs' g' _ Hs Hop. cbv beta in Hop.
    by eapply basic_block_post.
  - apply fmap_Some in H as ([d w1] & H & ->). simpl. rewrite N.add_0_r.
    eapply on_dfg_step; [done| |exact H].
    intros fd E a i' gs' g' Hfd Hs Hop. cbv beta in Hop.
    apply bind_Some in Hop as ([bd g1] & Hr & Hop). simplify_eq.
    eapply dfg_remove_bb_post; [done| |done].
    intros q dq Hq Hdq. eapply Hok; [done| |done|done].
    by apply dfg_remove_bb_effect in Hr as (? & _).
  - apply fmap_Some in H as ([v w1] & H & ->). simpl.
    unfold w_new_global in H. apply bind_Some in H as (d & Hb & H).
    apply build_no_users in Hb. unfold w_new_global_data, global_insert_value in H.
    apply bind_Some in H as ([[v1 i1] p1] & H & Hw). simplify_eq.
    apply bind_Some in H as ([[v2 i2] p2] & H & Hw). simplify_eq. simpl.
    apply (new_global_winv _ _ F) in H as (? & HW' & Hc); [|done|done|by apply Hg].
    split; [done|]. exists F. split.
    + eapply winv_ext; [| |exact HW']; by destruct (is_global_alloc (v_kind d)).
    + intros Hgc _. specialize (Hc Hgc). by destruct (is_global_alloc (v_kind d)).
  - apply fmap_Some in H as ([v w1] & H & ->). simpl.
    unfold w_new_global_data, global_insert_value in H.
    apply bind_Some in H as ([[v1 i1] p1] & H & Hw). simplify_eq.
    apply bind_Some in H as ([[v2 i2] p2] & H & Hw). simplify_eq. simpl.
    apply (new_global_winv _ _ F) in H as (? & HW' & Hc); [|done|done|by apply Hg].
    split; [done|]. exists F. split.
    + eapply winv_ext; [| |exact HW']; by destruct (is_global_alloc k).
    + intros Hgc _. specialize (Hc Hgc). by destruct (is_global_alloc k).
  - apply fmap_Some in H as ([d w1] & H & ->). simpl. rewrite N.add_0_r.
    unfold w_remove_global in H. apply bind_Some in H as ([d1 p1] & H & Hw). simplify_eq.
    simpl. split; [done|]. exists F. eapply remove_global_winv in H as [??]; [|done]. by eauto.
  - unfold w_name_global in H. apply bind_Some in H as (p1 & H & Hw). simplify_eq.
    rewrite N.add_0_r. simpl. split; [done|]. exists F. eapply name_global_winv in H as [??]; [|done]. by eauto.
  - apply fmap_Some in H as ([f w1] & H & ->). simpl. rewrite N.add_0_r.
    unfold w_new_func_def in H. apply bind_Some in H as ([[f1 i1] p1] & H & Hw). simplify_eq.
    unfold prog_new_func_def in H. apply bind_Some in H as ([d i2] & Hd & H). simpl.
    unfold fdata_with_param_names in Hd. apply bind_Some in Hd as ([] & _ & Hd).
    apply bind_Some in Hd as ([[vs i3] g3] & Ha & Hd). simplify_eq.
    apply new_func_args_post in Ha; [|by eapply dstate_empty].
    eapply new_func_winv in H; [|done|done]. destruct H as (? & ? & ?). split; [done|]. by eauto 10.
  - apply fmap_Some in H as ([f w1] & H & ->). simpl. rewrite N.add_0_r.
    unfold w_new_func_decl in H. apply bind_Some in H as ([[f1 i1] p1] & H & Hw). simplify_eq.
    unfold prog_new_func_decl in H. apply bind_Some in H as (d & Hd & H). simpl.
    unfold fdata_new_decl in Hd. apply bind_Some in Hd as ([] & _ & Hd). simplify_eq.
    eapply new_func_winv in H; [|done|].
    + destruct H as (? & ? & ?). split; [done|]. by eauto 10.
    + apply dpost_refl. by eapply dstate_empty.
  - apply fmap_Some in H as ([d w1] & H & ->). simpl. rewrite N.add_0_r.
    unfold w_remove_func in H. apply bind_Some in H as ([d1 p1] & H & Hw). simplify_eq.
    unfold prog_remove_func in H. apply bind_Some in H as (fl & _ & H). simplify_eq.
    simpl. split; [done|]. exists F. split. all: swap 1 2.
    { intros Hc Hr f1 fd u x Hf Hpf Hu. simpl in *.
      destruct (decide (f1 = f)) as [->|Hne].
      - destruct (p_funcs (w_prog w) !! f) as [fd'|] eqn:E.
        + assert (F !! f = Some fd') as Hf' by (eapply lookup_weaken; [done|apply HW]).
          simplify_eq. by eapply Hr.
        + by eapply Hc.
      - rewrite lookup_delete_ne in Hpf by done. by eapply Hc. }
    destruct HW as [W1 W2 W3 W4 W5 W6 W7 W8 W17 W9 W10 W11 W12 W13 W14 W15 W16].
    constructor; simpl; try done.
    etrans; [apply delete_subseteq|done].
Qed.

Lemma globals_created_cons o os :
  globals_created (o :: os) =
  ((if creates_global o then 1 else 0) + globals_created os)%N.
Proof.
  unfold globals_created. rewrite filter_cons.
  destruct (creates_global o); simpl; lia.
Qed.

Lemma run_winv os : ∀ w w' F,
  winv (w_ids w) (w_prog w) F → throughout tidy os w →
  (next_gv (w_ids w) + globals_created os ≤ local_value_id_starts_from)%N →
  run os w = Some w' →
  ∃ F', winv (w_ids w') (w_prog w') F' ∧
    (ghosts_clean (w_prog w) F → throughout releases_globals os w →
     ghosts_clean (w_prog w') F').
Proof.
  induction os as [|o os IH]; intros w w' F HW Hok Hg H.
  - simpl in H. simplify_eq. by eauto.
  - simpl in H, Hok. destruct Hok as [Hok1 Hok2].
    apply bind_Some in H as (w1 & H1 & H).
    rewrite globals_created_cons in Hg.
    destruct (step_winv o w w1 F HW Hok1) as (Hgv & F' & HW' & Hc'); [|done|].
    + intros Hc. rewrite Hc in Hg. lia.
    + destruct (IH w1 w' F') as (F2 & HW2 & Hc2); [done|by apply Hok2| |done|].
      * rewrite Hgv. lia.
      * exists F2. split; [done|]. intros Hc [Hr1 Hr2].
        apply Hc2; [by apply Hc'|by apply Hr2].
Qed.

(** ** Reachable programs *)

Lemma reach_winv os w :
  run os world0 = Some w → throughout tidy os world0 →
  (globals_created os < local_value_id_starts_from)%N →
  ∃ F, winv (w_ids w) (w_prog w) F ∧
    (throughout releases_globals os world0 → ghosts_clean (w_prog w) F).
Proof.
  intros Hr Ht Hg. destruct (run_winv os world0 w ∅) as (F & HW & Hc).
  - apply winv0.
  - done.
  - unfold world0, ids0. simpl. unfold global_value_id_starts_from. lia.
  - done.
  - exists F. split; [done|]. intros Hrel. apply Hc; [|done].
    intros f fd u v Hf. done.
Qed.

Lemma winv_exact i p F : winv i p F → ghosts_clean p F → use_lists_exact p.
Proof.
  intros HW Hc.
  assert (Hsub : ∀ f fd, p_funcs p !! f = Some fd → F !! f = Some fd).
  { intros f fd Hf. eapply lookup_weaken; [done|apply HW]. }
  split; [|split].
  - intros v d Hv u. rewrite (wi_glob _ _ _ HW _ _ Hv). unfold global_user.
    split; (intros [?|(f & fd & Hf & Hu)]; [by left|]).
    + right. destruct (p_funcs p !! f) as [fd'|] eqn:E.
      * pose proof (Hsub _ _ E). simplify_eq. by eauto.
      * pose proof (Hc _ _ _ _ Hf E Hu). congruence.
    + right. by eauto.
  - intros f fd v d Hf Hv u. apply Hsub in Hf. by apply (wi_loc _ _ _ HW f).
  - intros f fd v d Hf Hv u. apply Hsub in Hf. by apply (wi_bb _ _ _ HW f).
Qed.

Lemma winv_no_dangling i p F : winv i p F → no_dangling p.
Proof.
  intros HW.
  assert (Hsub : ∀ f fd, p_funcs p !! f = Some fd → F !! f = Some fd).
  { intros f fd Hf. eapply lookup_weaken; [done|apply HW]. }
  split; [|split].
  - apply HW.
  - intros f fd u v Hf. apply Hsub in Hf. by apply (wi_ex _ _ _ HW f).
  - intros f fd u v Hf. apply Hsub in Hf. by apply (wi_bex _ _ _ HW f).
Qed.

Lemma reach_exact os w :
  run os world0 = Some w → throughout tidy os world0 →
  throughout releases_globals os world0 →
  (globals_created os < local_value_id_starts_from)%N →
  use_lists_exact (w_prog w).
Proof.
  intros Hr Ht Hrel Hg. destruct (reach_winv os w Hr Ht Hg) as (F & HW & Hc).
  eapply winv_exact; [done|]. by apply Hc.
Qed.

Lemma reach_no_dangling os w :
  run os world0 = Some w → throughout tidy os world0 →
  (globals_created os < local_value_id_starts_from)%N →
  no_dangling (w_prog w).
Proof.
  intros Hr Ht Hg. destruct (reach_winv os w Hr Ht Hg) as (F & HW & _).
  by eapply winv_no_dangling.
Qed.
