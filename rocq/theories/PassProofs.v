(** Proofs about the pass manager (C36). *)
From Verif Require Import Base IdModel TypeModel IrModel PassModel PassSpec.

Lemma register_all_eq {S} (ps : list (pass S)) : register_all ps = ps.
Proof.
  unfold register_all.
  assert (H : ∀ acc, fold_left (λ l p, l ++ [p]) ps acc = acc ++ ps); [|apply (H [])].
  induction ps as [|p ps IH]; intros acc; simpl; [by rewrite app_nil_r|].
  rewrite IH. by rewrite <- app_assoc.
Qed.

Lemma record_fn_eq {S} i (r : S → func → fdata → option (S * fdata)) s l f d :
  record_fn i r (s, l) f d
  = match r s f d with
    | Some (s', d') => Some (s', l ++ [(i, TFunction f d d')], d')
    | None => None
    end.
Proof. unfold record_fn. simpl. by destruct (r s f d) as [[]|]. Qed.

(** Wrapping a pass does not change what it does. *)
Lemma recording_funcs {S} i (r : S → func → fdata → option (S * fdata)) fs s l p s' l' p' :
  run_on_funcs (record_fn i r) fs (s, l) p
    = Some (s', l', p') →
  NoDup fs →
  run_on_funcs r fs s p = Some (s', p') ∧
  ∃ now, l' = l ++ map (λ x, (i, TFunction x.1.1 x.1.2 x.2)) now ∧ map (λ x, x.1.1) now = fs ∧
    (∀ f d d', (f, d, d') ∈ now → p_funcs p !! f = Some d ∧ p_funcs p' !! f = Some d') ∧
    (∀ f, f ∉ fs → p_funcs p' !! f = p_funcs p !! f) ∧
    p_values p' = p_values p ∧ p_inst_layout p' = p_inst_layout p ∧
    p_func_tys p' = p_func_tys p ∧ p_func_layout p' = p_func_layout p.
Proof.
  revert s l p. induction fs as [|f fs IH]; intros s l p H Hnd; simpl in *.
  - injection H as <- <- <-. split; [done|]. exists []. simpl. rewrite app_nil_r.
    split_and!; try done. intros f d d' Hf. by apply elem_of_nil in Hf.
  - destruct (p_funcs p !! f) as [d|] eqn:Hf; simpl in *; [|done].
    rewrite record_fn_eq in H.
    destruct (r s f d) as [[s1 d1]|] eqn:Hr; simpl in *; [|done].
    apply list.NoDup_cons in Hnd as [Hn Hnd].
    destruct (IH _ _ _ H Hnd) as (H1 & now & -> & Hfst & Hnow & Hout & Hrest).
    split; [done|]. exists ((f, d, d1) :: now). simpl in *. split_and!.
    + by rewrite <- app_assoc.
    + by rewrite Hfst.
    + intros f' d' d2 Hin. apply elem_of_cons in Hin as [[= -> -> ->]|Hin].
      * split; [done|]. rewrite Hout by done. apply lookup_insert.
      * destruct (Hnow _ _ _ Hin) as [Ha Hb]. split; [|done].
        rewrite lookup_insert_ne in Ha; [done|].
        intros ->. apply Hn. rewrite <- Hfst. apply elem_of_list_fmap. by exists (f', d', d2).
    + intros f' Hf'. rewrite Hout by set_solver. apply lookup_insert_ne. set_solver.
    + apply Hrest.
    + apply Hrest.
    + apply Hrest.
    + apply Hrest.
Qed.

Lemma recorded_run {S} order (ps : list (pass S)) i s l p s' l' p' :
  is_order order →
  run_passes order (recording_all i ps) (s, l) p = Some (s', l', p') →
  run_passes order ps s p = Some (s', p') ∧
  ∃ calls, l' = l ++ calls ∧ schedule i ps p calls p'.
Proof.
  intros Ho. revert i s l p. induction ps as [|[r|r] ps IH]; intros i s l p H; simpl in H.
  - injection H as <- <- <-. split; [done|]. exists []. rewrite app_nil_r. by split; [|constructor].
  - destruct (r s p) as [[s1 p1]|] eqn:Hr; simpl in H; [|done].
    destruct (IH _ _ _ _ H) as (H1 & calls & -> & Hs). split; [simpl; by rewrite Hr|].
    exists ((i, TProgram p p1) :: calls). rewrite <- app_assoc. split; [done|].
    by apply sched_module.
  - destruct (run_on_funcs _ _ _ _) as [[[s1 l1] p1]|] eqn:Hr; simpl in H; [|done].
    destruct (Ho (p_funcs p)) as [Hnd Hel].
    apply recording_funcs in Hr as (Hr & now & -> & Hfst & Hnow & Hd & Hv & Hi & Ht & Hl); [|done].
    destruct (IH _ _ _ _ H) as (H1 & calls & -> & Hs). split; [simpl; by rewrite Hr|].
    eexists. rewrite <- app_assoc. split; [done|].
    assert (Hin : ∀ f, f ∈ order (p_funcs p) ↔ ∃ d d', (f, d, d') ∈ now).
    { intros f. rewrite <- Hfst, elem_of_list_fmap. split.
      - intros ([[f' d] d'] & -> & ?). eauto.
      - intros (d & d' & ?). by exists (f, d, d'). }
    apply (sched_function _ _ _ _ p1); [by rewrite Hfst| | |done..].
    + intros f d. split.
      * intros [d' ?]. by eapply Hnow.
      * intros Hf. destruct (proj1 (Hin f)) as (d2 & d' & H2); [rewrite Hel; by exists d|].
        destruct (Hnow _ _ _ H2). exists d'. congruence.
    + intros f d'. split.
      * intros [d ?]. by eapply Hnow.
      * intros Hf. destruct (decide (f ∈ order (p_funcs p))) as [Ho1|Ho1].
        -- apply Hin in Ho1 as (d & d2 & H2). destruct (Hnow _ _ _ H2). exists d. congruence.
        -- exfalso. rewrite Hd in Hf by done. apply Ho1, Hel. by exists d'.
Qed.

(** The wrapped run happens whenever the plain one does. *)
Lemma recording_funcs_total {S} i (r : S → func → fdata → option (S * fdata)) fs s l p s' p' :
  run_on_funcs r fs s p = Some (s', p') →
  ∃ l', run_on_funcs (record_fn i r) fs (s, l) p
    = Some (s', l', p').
Proof.
  revert s l p. induction fs as [|f fs IH]; intros s l p H; simpl in *.
  - injection H as <- <-. eauto.
  - destruct (p_funcs p !! f) as [d|] eqn:Hf; simpl in *; [|done].
    rewrite record_fn_eq.
    destruct (r s f d) as [[s1 d1]|] eqn:Hr; simpl in *; [|done]. by apply IH.
Qed.

Lemma recorded_run_total {S} order (ps : list (pass S)) i s l p s' p' :
  run_passes order ps s p = Some (s', p') →
  ∃ l', run_passes order (recording_all i ps) (s, l) p = Some (s', l', p').
Proof.
  revert i s l p. induction ps as [|[r|r] ps IH]; intros i s l p H; simpl in H.
  - injection H as <- <-. simpl. eauto.
  - destruct (r s p) as [[s1 p1]|] eqn:Hr; simpl in H; [|done].
    simpl. rewrite Hr. simpl. by apply IH.
  - destruct (run_on_funcs _ _ _ _) as [[s1 p1]|] eqn:Hr; simpl in H; [|done].
    apply (recording_funcs_total i _ _ _ l) in Hr as (l1 & Hr). simpl. rewrite Hr. simpl.
    by apply IH.
Qed.

Lemma pass_order {S} order (ps : list (pass S)) s p s' p' :
  is_order order →
  run_passes order (register_all ps) s p = Some (s', p') →
  ∃ calls,
    run_passes order (recording_all 0 ps) (s, []) p = Some (s', calls, p') ∧
    schedule 0 ps p calls p'.
Proof.
  rewrite register_all_eq. intros Ho H.
  destruct (recorded_run_total _ _ 0%nat _ [] _ _ _ H) as (l' & H').
  destruct (recorded_run _ _ _ _ _ _ _ _ _ Ho H') as (_ & calls & -> & Hs).
  by exists calls.
Qed.

Lemma map_to_list_order : is_order (λ m, map fst (map_to_list m)).
Proof.
  intros m. split; [apply NoDup_fst_map_to_list|]. intros f. rewrite elem_of_list_fmap. split.
  - intros ([f' d] & -> & H). apply elem_of_map_to_list in H. by exists d.
  - intros [d H]. exists (f, d). split; [done|]. by apply elem_of_map_to_list.
Qed.
