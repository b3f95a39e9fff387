(** Constant folding keeps the use lists. *)
From Coq Require Import Lia.
From Verif Require Import Base IdModel TypeModel IrModel LayoutModel BuilderModel ArithModel UsesSpec UsesProofs DfgSpec DfgProofs
  LayoutSpec WorldSpec WorldProofs DceModel DceSpec DceGraphProofs DceParamProofs DcePassProofs ArithSpec FoldModel FoldSpec InterpFoldProofs.

Section graph.
(** [Q]: the values elsewhere in the program *)
Context (E : value → value → Prop) (Q : value → Prop) (HQ : ∀ x u, E x u → Q u).
Definition bounded (i : ids) (gs : gmap N vdata) (g : dfg) : Prop :=
  ∀ v, Q v ∨ is_Some (gs !! v) ∨ is_Some (d_values g !! v) → low i v.
Record grown (gs : gmap N vdata) (g : dfg) (i' : ids) (gs' : gmap N vdata) (g' : dfg) : Prop := {
  gw_graph : graph_ok E gs' (d_values g') (d_bbs g');
  gw_skel : same_skel gs gs';
  gw_low : bounded i' gs' g';
  gw_new : ∀ v, is_Some (d_values g' !! v) → is_Some (d_values g !! v) ∨ ¬ Q v;
}.
Lemma grown_trans gs g i1 gs1 g1 i2 gs2 g2 : grown gs g i1 gs1 g1 → grown gs1 g1 i2 gs2 g2 → grown gs g i2 gs2 g2.
Proof.
  intros A B. constructor; [apply B|eapply same_skel_trans; [apply A|apply B]|apply B|].
  intros v Hv. destruct (gw_new _ _ _ _ _ B v Hv) as [Hv1|]; [by apply A|by right].
Qed.
Lemma grown_refl i gs g : graph_ok E gs (d_values g) (d_bbs g) → bounded i gs g → grown gs g i gs g.
Proof. intros H1 H2. constructor; [done|apply same_skel_refl|done|by left]. Qed.
Lemma replace_grown i gs g v data gs' g' : graph_ok E gs (d_values g) (d_bbs g) → bounded i gs g →
  dfg_replace_value_with_data gs g v data = Some (gs', g') → grown gs g i gs' g'.
Proof.
  intros Hok Hb H. destruct (replace_graph _ _ _ _ _ _ _ Hok H) as [Hok' [R1 R2 R3 R4]].
  assert (∀ x, is_Some (d_values g' !! x) → is_Some (d_values g !! x)) as Hx.
  { intros x [y Hy]. destruct (decide (x = v)) as [->|Hne]; [destruct R1 as (d & Hd & _); by eauto|].
    specialize (R2 x Hne). rewrite Hy in R2. simpl in R2. symmetry in R2. apply fmap_Some in R2 as (z & Hz & _). by eauto. }
  constructor; [done|done| |].
  - intros x Hs. apply Hb. destruct Hs as [?|[Hs|Hs]]; [by left| |].
    + right; left. by apply (same_skel_is_Some _ _ x R4).
    + right; right. by apply Hx.
  - intros x Hs. left. by apply Hx.
Qed.
Lemma new_grown i gs g data v i' gs' g' x0 : graph_ok E gs (d_values g) (d_bbs g) → bounded i gs g → is_Some (d_values g !! x0) →
  v_used_by data = ∅ →
  dfg_new_value_data i gs g data = Some (v, i', gs', g') → grown gs g i' gs' g'.
Proof.
  intros Hok Hb Hx0 Hub H. pose proof (graph_dinv _ _ _ _ Hok) as Hinv.
  apply dfg_new_value_data_effect in H as (Hid & -> & -> & Hex & Hbex); [|apply Hinv].
  destruct (next_fresh _ _ _ Hid) as [N1 N2].
  assert (¬ low i v) as Hl by (intros Hl; by destruct (N1 v Hl)).
  assert (Hvv : d_values g !! v = None).
  { destruct (d_values g !! v) as [d0|] eqn:Ev; [|done]. exfalso. apply Hl, Hb. right; right. by eauto. }
  assert (Hgv : gs !! v = None).
  { destruct (gs !! v) as [d0|] eqn:Ev; [|done]. exfalso. apply Hl, Hb. right; left. by eauto. }
  assert (HEv : ∀ x, ¬ E x v).
  { intros x Hx. apply Hl, Hb. left. by eapply HQ. }
  assert (Hnouse : ∀ u, ¬ uses (d_values g) u v).
  { intros u Hu. destruct (di_ex _ _ _ _ Hinv _ _ Hu) as [[? ?]|[? ?]]; congruence. }
  assert (HD : dinv E (touch (add_user v) (operands (v_kind data)) gs)
    (<[v := data]> (touch (add_user v) (operands (v_kind data)) (d_values g)))
    (touchb (add_user v) (targets (v_kind data)) (d_bbs g))).
  { destruct Hinv as [I1 I2 I3 I4 I5 I6 I7]. apply attach_inv; try done.
    - intros u x Hux. destruct (I4 _ _ Hux); auto.
    - intros u. rewrite Hub. split; [set_solver|]. intros Hu. by apply Hnouse in Hu. }
  assert (∀ x, is_Some ((<[v := data]> (touch (add_user v) (operands (v_kind data)) (d_values g))) !! x) → x = v ∨ is_Some (d_values g !! x)) as Hx.
  { intros x. destruct (decide (x = v)) as [->|Hne]; [by left|]. rewrite lookup_insert_ne, touch_lookup by done.
    rewrite fmap_is_Some. by right. }
  constructor; simpl.
  - destruct HD as [I1 I2 I3 I4 I5 I6 I7]. constructor; try done.
    intros x u Hxu. pose proof (go_out _ _ _ _ Hok _ _ Hxu) as Hn.
    rewrite lookup_insert_ne by (intros <-; by apply (HEv x)). by rewrite touch_lookup, Hn.
  - apply same_skel_touch.
  - assert (∀ x, low i x → low i' x) as Hup by (intros x Hx'; by apply N1).
    intros x [Hs|[Hs|Hs]].
    + apply Hup, Hb. by left.
    + apply Hup, Hb. right; left. rewrite touch_lookup in Hs. by apply fmap_is_Some in Hs.
    + apply Hx in Hs as [->|Hs]; [|apply Hup, Hb; auto]. apply N2. destruct (Hb x0) as [?|[? ?]]; [by right; right|by left|right].
      split; [done|]. lia.
  - intros x Hs. apply Hx in Hs as [->|Hs]; [|by left]. right. intros Hq. apply Hl, Hb. by left.
Qed.
Lemma replace_param_grown i gs g b j d i' gs' g' : graph_ok E gs (d_values g) (d_bbs g) → bounded i gs g →
  replace_param i gs g b j d = Some (i', gs', g') → grown gs g i' gs' g'.
Proof.
  intros Hok Hb H. unfold replace_param in H. apply bind_Some in H as (bd & _ & H). apply bind_Some in H as (p & _ & H).
  apply bind_Some in H as (pd & _ & H). apply bind_Some in H as ([gs1 g1] & H1 & H).
  apply bind_Some in H as ([[[q i2] gs2] g2] & H2 & H). apply bind_Some in H as (bd' & Hbd & H). injection H as <- <- <-.
  pose proof (replace_grown _ _ _ _ _ _ _ Hok Hb H1) as G1.
  assert (is_Some (d_values g1 !! p)) as Hp.
  { destruct (replace_graph _ _ _ _ _ _ _ Hok H1) as [_ [(x & _ & Hx) _ _ _]]. by eauto. }
  assert (grown gs1 g1 i2 gs2 g2) as G2 by (eapply new_grown; [apply G1|apply G1|exact Hp| |exact H2]; done).
  eapply grown_trans; [exact G1|]. destruct G2 as [A1 A2 A3 A4]. constructor; simpl; [by apply graph_ok_params|done|done|done].
Qed.
Lemma replace_params_grown b evs : ∀ i gs g i' gs' g', graph_ok E gs (d_values g) (d_bbs g) → bounded i gs g →
  replace_params i gs g b evs = Some (i', gs', g') → grown gs g i' gs' g'.
Proof.
  induction evs as [|[j d] evs IH]; intros i gs g i' gs' g' Hok Hb H; cbn [replace_params] in H.
  - injection H as <- <- <-. by apply grown_refl.
  - apply bind_Some in H as ([[i1 gs1] g1] & H1 & H). apply replace_param_grown in H1; [|done..].
    eapply grown_trans; [exact H1|]. eapply IH; [apply H1|apply H1|done].
Qed.
Lemma replace_blocks_grown l : ∀ i gs g i' gs' g', graph_ok E gs (d_values g) (d_bbs g) → bounded i gs g →
  replace_blocks i gs g l = Some (i', gs', g') → grown gs g i' gs' g'.
Proof.
  induction l as [|[b evs] l IH]; intros i gs g i' gs' g' Hok Hb H; cbn [replace_blocks] in H.
  - injection H as <- <- <-. by apply grown_refl.
  - apply bind_Some in H as ([[i1 gs1] g1] & H1 & H). apply replace_params_grown in H1; [|done..].
    eapply grown_trans; [exact H1|]. eapply IH; [apply H1|apply H1|done].
Qed.
Lemma replace_folds_grown es i : ∀ gs g gs' g', graph_ok E gs (d_values g) (d_bbs g) → bounded i gs g →
  replace_folds es gs g = Some (gs', g') → grown gs g i gs' g'.
Proof.
  induction es as [|[[v ans] b] es IH]; intros gs g gs' g' Hok Hb H; cbn [replace_folds] in H.
  - injection H as <- <-. by apply grown_refl.
  - apply bind_Some in H as ([gs1 g1] & H1 & H). eapply replace_grown in H1; [|done..].
    eapply grown_trans; [exact H1|]. eapply IH; [apply H1|apply H1|done].
Qed.
Lemma fold_loop_grown n checks order i : ∀ gs fd gs' fd' c, graph_ok E gs (vals fd) (blks fd) → bounded i gs (f_dfg fd) →
  fold_loop n checks order gs fd = Some (gs', fd', c) → grown gs (f_dfg fd) i gs' (f_dfg fd').
Proof.
  induction n as [|n IH]; intros gs fd gs' fd' c Hok Hb H; cbn [fold_loop] in H.
  - injection H as <- <- _. by apply grown_refl.
  - apply bind_Some in H as ([[ch gs1] fd1] & He & H). unfold eval_const in He.
    apply bind_Some in He as (es & _ & He). apply bind_Some in He as ([gs2 g2] & H1 & He). apply bind_Some in He as (l & _ & He).
    injection He as <- <- <-. eapply replace_folds_grown in H1; [|done..].
    destruct (negb _).
    + eapply grown_trans; [exact H1|]. eapply (IH _ (FData (f_ty fd) (f_name fd) (f_params fd) g2 l)); [apply H1|apply H1|done].
    + by injection H as <- <- _.
Qed.
Lemma fold_run_on_grown fuel checks o i gs fd i' gs' fd' : graph_ok E gs (vals fd) (blks fd) → bounded i gs (f_dfg fd) →
  fold_run_on fuel checks o i gs fd = Dok (i', gs', fd') → grown gs (f_dfg fd) i' gs' (f_dfg fd').
Proof.
  intros Hok Hb H. unfold fold_run_on in H.
  destruct (fold_loop fuel checks (fold_values o) gs fd) as [[[gs1 fd1] c]|] eqn:EL; cbn [dopt dthen] in H; [|done].
  pose proof (fold_loop_grown _ _ _ i _ _ _ _ _ Hok Hb EL) as G1. cbn [fst snd] in H. destruct c; [|done]. unfold eval_bb_params in H.
  destruct (eval_blocks _ _ _ _ _) as [l| |] eqn:Eb; cbn [dthen] in H; try done.
  destruct (replace_blocks i gs1 (f_dfg fd1) l) as [[[i2 gs2] g2]|] eqn:Er; cbn [dopt dthen fst snd] in H; [|done].
  injection H as <- <- <-. eapply grown_trans; [exact G1|]. eapply replace_blocks_grown; [apply G1|apply G1|exact Er].
Qed.
End graph.

Definition linked (p : program) : Prop := use_lists_exact p ∧ no_dangling p ∧ separated p.
Lemma put_linked p f fd gs' fd' : linked p → p_funcs p !! f = Some fd →
  graph_ok (outside p (p_funcs p) f) gs' (vals fd') (blks fd') → same_skel (p_values p) gs' →
  (∀ v, is_Some (vals fd' !! v) → is_Some (vals fd !! v) ∨ ∀ g gd, g ≠ f → p_funcs p !! g = Some gd → vals gd !! v = None) →
  linked (InterpFoldProofs.put p f gs' fd').
Proof.
  intros (HU & HD & HS) Hf Hok' Hsk Hsub. pose proof (program_graph _ _ _ HU HD HS Hf) as Hok.
  destruct HU as (U1 & U2 & U3), HD as (D1 & D2 & D3), HS as [S1 S2 S3].
  assert (Hfs : ∀ g gd, p_funcs (InterpFoldProofs.put p f gs' fd') !! g = Some gd →
    (g = f ∧ gd = fd') ∨ (g ≠ f ∧ p_funcs p !! g = Some gd)).
  { intros g gd. simpl. destruct (decide (g = f)) as [->|Hg].
    - rewrite lookup_insert. intros [= <-]. by left.
    - rewrite lookup_insert_ne by done. by right. }
  assert (Hg : ∀ v, is_Some (gs' !! v) ↔ is_Some (p_values p !! v)).
  { intros v. symmetry. by apply same_skel_is_Some. }
  assert (Hgu : ∀ u v, uses gs' u v ↔ uses (p_values p) u v).
  { intros u v. symmetry. by apply same_skel_uses. }
  assert (Hapart : ∀ v g gd, g ≠ f → p_funcs p !! g = Some gd → is_Some (vals fd' !! v) → vals gd !! v = None).
  { intros v g gd Hne Hgd Hv. destruct (Hsub v Hv) as [Hv1|Hv1]; [|by apply (Hv1 g)]. by apply (S2 f g fd gd). }
  split; [split; [|split]|split; [split; [|split]|constructor]].
  - intros v d Hv u. rewrite (go_glob _ _ _ _ Hok' _ _ Hv). unfold outside, global_user. simpl.
    rewrite Hgu. split.
    + intros [[?|(g & gd & Hne & Hg' & Hu)]|Hu]; [by left|right|right].
      * exists g, gd. by rewrite lookup_insert_ne.
      * exists f, fd'. by rewrite lookup_insert.
    + intros [?|(g & gd & Hg' & Hu)]; [by left; left|].
      apply Hfs in Hg' as [[-> ->]|[Hne Hg']]; [by right|]. left. right. by eauto.
  - intros g gd v d [[-> ->]|[Hne Hg']]%Hfs; [apply (go_loc _ _ _ _ Hok')|by apply (U2 g)].
  - intros g gd v d [[-> ->]|[Hne Hg']]%Hfs; [apply (go_bb _ _ _ _ Hok')|by apply (U3 g)].
  - intros u v. simpl. rewrite Hgu, Hg. apply D1.
  - intros g gd u v [[-> ->]|[Hne Hg']]%Hfs; [apply (go_ex _ _ _ _ Hok')|].
    simpl. rewrite Hg. by apply (D2 g).
  - intros g gd u v [[-> ->]|[Hne Hg']]%Hfs; [apply (go_bex _ _ _ _ Hok')|by apply (D3 g)].
  - intros g gd v [[-> ->]|[Hne Hg']]%Hfs Hv; [by apply (go_disj _ _ _ _ Hok')|].
    apply (S1 g); [done|]. by apply Hg.
  - intros g h gd hd v [[-> ->]|[Hne Hg']]%Hfs [[-> ->]|[Hne' Hh']]%Hfs Hgh Hv; [done| | |].
    + by apply (Hapart v h).
    + destruct (vals fd' !! v) eqn:E; [|done]. exfalso.
      assert (vals gd !! v = None) as Hv' by (apply (Hapart v g); [done|done|by eauto]). rewrite Hv' in Hv. by destruct Hv.
    + by apply (S2 g h gd hd).
  - intros g gd v [[-> ->]|[Hne Hg']]%Hfs; [apply (go_irr _ _ _ _ Hok')|by apply (S3 g)].
Qed.
Lemma fold_pass_linked fuel checks o order : fair_fold o → ∀ i p i' p', fold_pass fuel checks o order i p = Dok (i', p') →
  fold_prog p → lowp i p → linked p → linked p'.
Proof.
  intros Fo. induction order as [|f order IH]; intros i p i' p' H Hp Hl HL; cbn [fold_pass] in H.
  - by injection H as <- <-.
  - destruct (p_funcs p !! f) as [fd|] eqn:Ef; cbn [dopt dthen] in H; [|done].
    destruct (fold_run_on _ _ _ _ _ _) as [[[i1 gs1] fd1]| |] eqn:Er; cbn [dthen fst snd] in H; try done.
    pose proof Hp as Hp0. pose proof Hl as Hl0. rewrite <- (put_id p f fd Ef) in Hp0, Hl0.
    destruct (fold_run_on_better checks p f _ _ _ _ _ _ _ _ Fo Er Hp0 Hl0) as (_ & B2 & B3).
    eapply (IH _ _ _ _ H B2 B3). destruct HL as (HU & HD & HS). pose proof (program_graph _ _ _ HU HD HS Ef) as Hok.
    pose (Q := λ v, is_Some (p_values p !! v) ∨ ∃ g gd, g ≠ f ∧ p_funcs p !! g = Some gd ∧ is_Some (vals gd !! v)).
    assert (grown (outside p (p_funcs p) f) Q (p_values p) (f_dfg fd) i1 gs1 (f_dfg fd1)) as [G1 G2 G3 G4].
    { eapply fold_run_on_grown; [|exact Hok| |exact Er].
      - intros x u [(d & Hd & _)|(g & gd & Hne & Hg & d & Hd & _)]; [left; by eauto|right]. by eauto 6.
      - intros v Hv. apply Hl. destruct Hv as [[Hv|(g & gd & _ & Hg & Hv)]|[Hv|Hv]]; [by left| |by left|].
        + right. exists g, gd. auto.
        + right. exists f, fd. auto. }
    apply put_linked with fd; [done|done|done|done|]. intros v Hv. destruct (G4 v Hv) as [?|Hq]; [by left|right].
    intros g gd Hne Hg. destruct (vals gd !! v) eqn:Ev; [|done]. exfalso. apply Hq. right. exists g, gd. by eauto.
Qed.
