(** How the operations change types and kinds, ignoring use lists and names. *)
From Verif Require Import Base IdModel TypeModel IrModel LayoutModel BuilderModel WorldModel
  UsesSpec UsesProofs DfgSpec DfgProofs WorldSpec WorldProofs.
From Coq Require Import Lia.

(** Type and kind of a value. *)
Definition sk (d : vdata) : ty * vkind := (v_ty d, v_kind d).
Notation skm m := (sk <$> (m : gmap N vdata)).
(** Parameters of the blocks. *)
Notation pbm m := (bb_params <$> (m : gmap N bbdata)).

Lemma sk_upd f d : sk (upd_used_by f d) = sk d.
Proof. done. Qed.

Lemma skm_insert m v d : skm (<[v := d]> m) = <[v := sk d]> (skm m).
Proof. apply fmap_insert. Qed.

Lemma skm_touched (m : gmap N vdata) v d f : m !! v = Some d → skm (<[v := upd_used_by f d]> m) = skm m.
Proof.
  intros H. rewrite skm_insert, sk_upd. apply insert_id. by rewrite lookup_fmap, H.
Qed.

Lemma upd_uses_sk f us : ∀ gs vs gs' vs',
  upd_uses f us gs vs = Some (gs', vs') →
  skm gs' = skm gs ∧ skm vs' = skm vs ∧
  ∀ u, u ∈ us → is_Some (gs !! u) ∨ is_Some (vs !! u).
Proof.
  induction us as [|u us IH]; intros gs vs gs' vs' H; simpl in H.
  - injection H as -> ->. split; [done|]. split; [done|]. intros u Hu. inversion Hu.
  - apply bind_Some in H as ([gs1 vs1] & H1 & H). apply IH in H as (E1 & E2 & H).
    unfold data_mut_used in H1. destruct (gs !! u) as [d|] eqn:Eg.
    + injection H1 as <- <-. rewrite skm_touched in E1 by done. split; [done|]. split; [done|].
      intros x [->|Hx]%elem_of_cons; [by eauto|].
      destruct (H x Hx) as [[y Hy]|?]; [|by auto]. left.
      destruct (decide (x = u)) as [->|]; [by eauto|].
      rewrite lookup_insert_ne in Hy by done. by eauto.
    + destruct (vs !! u) as [d|] eqn:Ev; [|done]. injection H1 as <- <-.
      rewrite skm_touched in E2 by done. split; [done|]. split; [done|].
      intros x [->|Hx]%elem_of_cons; [by eauto|].
      destruct (H x Hx) as [?|[y Hy]]; [by auto|]. right.
      destruct (decide (x = u)) as [->|]; [by eauto|].
      rewrite lookup_insert_ne in Hy by done. by eauto.
Qed.

Lemma upd_bb_uses_pb f us : ∀ bs bs', upd_bb_uses f us bs = Some bs' → pbm bs' = pbm bs.
Proof.
  induction us as [|u us IH]; intros bs bs' H; simpl in H; [by injection H as ->|].
  apply bind_Some in H as (d & Hd & H). apply IH in H as ->.
  rewrite fmap_insert. simpl. apply insert_id. by rewrite lookup_fmap, Hd.
Qed.

Lemma upd_guses_sk f us : ∀ gs gs', upd_guses f us gs = Some gs' →
  skm gs' = skm gs ∧ ∀ u, u ∈ us → is_Some (gs !! u).
Proof.
  intros gs gs' H. rewrite upd_guses_upd_uses in H. apply fmap_Some in H as ([g1 v1] & H & ->).
  apply upd_uses_sk in H as (? & _ & H). split; [done|]. intros u Hu.
  destruct (H u Hu) as [?|[x Hx]]; [done|]. by rewrite lookup_empty in Hx.
Qed.

Lemma new_value_sk i gs g data v i' gs' g' :
  dfg_new_value_data i gs g data = Some (v, i', gs', g') →
  next_local_value_id i = Some (v, i') ∧
  skm gs' = skm gs ∧ skm (d_values g') = <[v := sk data]> (skm (d_values g)) ∧
  pbm (d_bbs g') = pbm (d_bbs g) ∧
  (∀ u, u ∈ operands (v_kind data) → is_Some (gs !! u) ∨ is_Some (d_values g !! u)).
Proof.
  intros H. unfold dfg_new_value_data in H.
  apply bind_Some in H as ([v1 i1] & Hi & H).
  apply bind_Some in H as ([gs1 vs1] & Hu & H).
  apply bind_Some in H as (bs1 & Hb & H). injection H as <- <- <- <-. simpl.
  rewrite value_uses_operands in Hu.
  apply upd_uses_sk in Hu as (E1 & E2 & E3). apply upd_bb_uses_pb in Hb.
  split; [done|]. split; [done|]. split; [by rewrite skm_insert, E2|done].
Qed.

Lemma replace_sk gs g v data gs' g' :
  dfg_replace_value_with_data gs g v data = Some (gs', g') →
  is_Some (d_values g !! v) ∧
  skm gs' = skm gs ∧ skm (d_values g') = <[v := sk data]> (skm (d_values g)) ∧
  pbm (d_bbs g') = pbm (d_bbs g) ∧
  (∀ u, u ∈ operands (v_kind data) → is_Some (gs !! u) ∨ is_Some (d_values g !! u)).
Proof.
  intros H. unfold dfg_replace_value_with_data in H.
  apply bind_Some in H as (old & Ho & H).
  apply bind_Some in H as ([gs1 vs1] & Hu & H).
  apply bind_Some in H as (bs1 & Hb & H).
  apply bind_Some in H as ([gs2 vs2] & Hu2 & H).
  apply bind_Some in H as (bs2 & Hb2 & H). injection H as <- <-. simpl.
  rewrite value_uses_operands in Hu, Hu2.
  apply upd_uses_sk in Hu as (E1 & E2 & _). apply upd_uses_sk in Hu2 as (F1 & F2 & F3).
  apply upd_bb_uses_pb in Hb, Hb2.
  split; [by eauto|]. split; [congruence|]. split.
  { rewrite skm_insert, F2, E2, fmap_delete, insert_delete_insert. done. }
  split; [congruence|]. intros u Hu.
  assert (∀ m m' : gmap N vdata, skm m = skm m' → is_Some (m !! u) → is_Some (m' !! u)) as Hsk.
  { intros m m' Hm Hs. rewrite <- (fmap_is_Some sk), <- lookup_fmap, <- Hm, lookup_fmap.
    by apply fmap_is_Some. }
  destruct (F3 u Hu) as [Hs|Hs].
  - left. by apply (Hsk gs1).
  - right. apply (Hsk vs1 (delete v (d_values g))) in Hs; [|done]. destruct Hs as [x Hx].
    apply lookup_delete_Some in Hx as [_ Hx]. by eauto.
Qed.

Lemma remove_value_sk gs g v d gs' g' :
  dfg_remove_value gs g v = Some (d, gs', g') →
  d_values g !! v = Some d ∧ v_used_by d = ∅ ∧
  skm gs' = skm gs ∧ skm (d_values g') = delete v (skm (d_values g)) ∧
  pbm (d_bbs g') = pbm (d_bbs g).
Proof.
  intros H. unfold dfg_remove_value in H.
  apply bind_Some in H as (old & Ho & H).
  apply bind_Some in H as ([] & Has & H). apply assert_Some, bool_decide_eq_true in Has.
  apply bind_Some in H as ([gs1 vs1] & Hu & H).
  apply bind_Some in H as (bs1 & Hb & H). injection H as <- <- <-. simpl.
  apply upd_uses_sk in Hu as (E1 & E2 & _). apply upd_bb_uses_pb in Hb.
  split; [done|]. split; [done|]. split; [done|]. by rewrite E2, fmap_delete.
Qed.

Lemma set_value_name_sk g v n g' :
  dfg_set_value_name g v n = Some g' →
  skm (d_values g') = skm (d_values g) ∧ d_bbs g' = d_bbs g.
Proof.
  intros H. unfold dfg_set_value_name in H.
  apply bind_Some in H as (d & Hd & H). apply bind_Some in H as (d' & Hs & H).
  injection H as <-. simpl. split; [|done].
  unfold set_name in Hs. destruct (valid_opt_name n); [|done]. injection Hs as <-.
  rewrite skm_insert. apply insert_id. by rewrite lookup_fmap, Hd.
Qed.

Lemma fresh_local E i gs g v i' :
  dstate E i gs g → next_local_value_id i = Some (v, i') →
  d_values g !! v = None ∧ gs !! v = None ∧ (ub (next_lv i) ≤ v)%N ∧
  (local_value_id_starts_from ≤ v)%N ∧
  (v < ub (next_lv i'))%N ∧
  (∀ x, is_Some (gs !! x) ∨ is_Some (d_values g !! x) → (x < v)%N).
Proof.
  intros Hs H. apply next_local_spec in H as (-> & Hne & ->).
  destruct Hs as [Hinv HE Hgid Hlid Hbid [Hlv1 Hlv2] Hbb].
  set (v := next_lv i) in *.
  assert (Hubv : ub v = v) by (unfold ub; by destruct (N.eqb_spec v 0)).
  assert (Hub' : ub ((v + 1) `mod` two32) = (v + 1)%N) by (by apply ub_next).
  assert (∀ x, is_Some (gs !! x) ∨ is_Some (d_values g !! x) → (x < v)%N) as Hlt.
  { intros x [Hx|Hx]; [apply Hgid in Hx|apply Hlid in Hx]; lia. }
  split.
  { destruct (d_values g !! v) eqn:Ev; [|done].
    assert (v < v)%N by (apply Hlt; by eauto). lia. }
  split.
  { destruct (gs !! v) eqn:Ev; [|done]. assert (v < v)%N by (apply Hlt; by eauto). lia. }
  simpl. split; [lia|]. split; [lia|]. split; [lia|done].
Qed.

(** New block parameters: fresh values of the given types. *)
Lemma new_block_args_sk E ps : ∀ i gs idx g vs i' gs' g',
  dstate E i gs g →
  new_block_args i gs idx ps g = Some (vs, i', gs', g') →
  skm gs' = skm gs ∧ pbm (d_bbs g') = pbm (d_bbs g) ∧
  (∀ x t k, skm (d_values g) !! x = Some (t, k) → skm (d_values g') !! x = Some (t, k)) ∧
  (∀ x t k, skm (d_values g') !! x = Some (t, k) → skm (d_values g) !! x = Some (t, k) ∨
     is_Some (d_values g' !! x) ∧ (∃ n, (n, t) ∈ ps) ∧ ∃ j, k = KBlockArg j) ∧
  (∀ x, x ∈ vs → (ub (next_lv i) ≤ x < ub (next_lv i'))%N ∧ is_Some (d_values g' !! x)).
Proof.
  induction ps as [|[n t] ps IH]; intros i gs idx g vs i' gs' g' Hs H; simpl in H.
  - injection H as <- <- <- <-. split; [done|]. split; [done|]. split; [done|].
    split; [by auto|]. intros x Hx. inversion Hx.
  - apply bind_Some in H as (d & Hd & H).
    apply bind_Some in H as ([[[v i1] gs1] g1] & H1 & H).
    apply bind_Some in H as ([[[vs2 i2] gs2] g2] & H2 & H). injection H as <- <- <- <-.
    assert (v_used_by d = ∅ ∧ sk d = (t, KBlockArg idx)) as [Hub Hsk].
    { unfold set_name in Hd. destruct (valid_opt_name n); [|done]. by injection Hd as <-. }
    pose proof (dfg_new_value_data_post _ _ _ _ _ _ _ _ _ Hs Hub H1) as HP.
    apply new_value_sk in H1 as (Hid & E1 & E2 & E3 & _).
    destruct (fresh_local _ _ _ _ _ _ Hs Hid) as (Hv & Hg & Hlo & _ & Hhi & _).
    pose proof (IH _ _ _ _ _ _ _ _ (dp_st _ _ _ _ _ _ _ HP) H2) as (F1 & F2 & F3 & F4 & F5).
    pose proof (new_block_args_post E ps _ _ _ _ _ _ _ _ (dp_st _ _ _ _ _ _ _ HP) H2) as HP2.
    pose proof (dp_lv _ _ _ _ _ _ _ HP) as Hl1. pose proof (dp_lv _ _ _ _ _ _ _ HP2) as Hl2.
    rewrite E2, Hsk in F3, F4.
    split; [congruence|]. split; [congruence|]. split.
    { intros x t' k Hx. apply F3. rewrite lookup_insert_ne; [done|]. intros <-.
      by rewrite lookup_fmap, Hv in Hx. }
    split.
    { intros x t' k Hx. destruct (F4 _ _ _ Hx) as [Hx'|(? & (m & Hm) & ?)].
      - destruct (decide (x = v)) as [->|Hne].
        + rewrite lookup_insert in Hx'. injection Hx' as <- <-. right. split.
          * rewrite lookup_fmap in Hx. apply fmap_Some in Hx as (? & ? & _). by eauto.
          * split; [exists n; by left|by eauto].
        + rewrite lookup_insert_ne in Hx' by done. by left.
      - right. split; [done|]. split; [exists m; by right|done]. }
    intros x [->|Hx]%elem_of_cons.
    + split; [lia|]. specialize (F3 v t (KBlockArg idx)). rewrite lookup_insert in F3.
      specialize (F3 eq_refl). rewrite lookup_fmap in F3. apply fmap_Some in F3 as (? & ? & _).
      by eauto.
    + destruct (F5 x Hx) as [??]. split; [lia|done].
Qed.

(** New function parameters. *)
Lemma new_func_args_sk ps : ∀ E i idx g vs i' g',
  dstate E i ∅ g →
  new_func_args i idx ps g = Some (vs, i', g') →
  d_bbs g' = d_bbs g ∧
  (∀ x t k, skm (d_values g') !! x = Some (t, k) → skm (d_values g) !! x = Some (t, k) ∨
     (∃ n, (n, t) ∈ ps) ∧ ∃ j, k = KFuncArg j).
Proof.
  induction ps as [|[n t] ps IH]; intros E i idx g vs i' g' Hs H; simpl in H.
  - injection H as <- <- <-. by auto.
  - apply bind_Some in H as ([[[v i1] gs1] g1] & H1 & H).
    apply bind_Some in H as (g2 & H2 & H).
    apply bind_Some in H as ([[vs3 i3] g3] & H3 & H). injection H as <- <- <-.
    assert (gs1 = ∅ ∧ d_bbs g1 = d_bbs g) as [-> Hb].
    { unfold dfg_new_value_data in H1. apply bind_Some in H1 as ([? ?] & _ & H1).
      simpl in H1. by injection H1 as <- <- <- <-. }
    pose proof (λ H, dfg_new_value_data_post _ _ _ _ _ _ _ _ _ Hs H H1) as HP; specialize (HP eq_refl).
    pose proof (dfg_set_value_name_post _ _ ∅ _ _ _ _ (dp_st _ _ _ _ _ _ _ HP) H2) as HP2.
    apply new_value_sk in H1 as (Hid & E1 & E2 & E3 & _).
    apply set_value_name_sk in H2 as [G1 G2].
    pose proof (IH _ _ _ _ _ _ _ (dp_st _ _ _ _ _ _ _ HP2) H3) as (F1 & F2).
    split; [congruence|]. intros x t' k Hx. rewrite G1, E2 in F2.
    destruct (F2 _ _ _ Hx) as [Hx'|((m & Hm) & ?)].
    + destruct (decide (x = v)) as [->|Hne].
      * rewrite lookup_insert in Hx'. injection Hx' as <- <-. right.
        split; [exists n; by left|by eauto].
      * rewrite lookup_insert_ne in Hx' by done. by left.
    + right. split; [exists m; by right|done].
Qed.
