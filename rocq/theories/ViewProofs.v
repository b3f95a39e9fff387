(** The calls that the front end makes, described without use lists: what they do to names,
    types, kinds, parameters and layouts. *)
From Coq Require Import Lia ZifyBool ZifyNat ZifyN.
From Verif Require Import Base IdModel TypeModel IrModel LayoutModel BuilderModel WorldModel
  LexerModel ParserModel ParserSpec FrontModel FrontProofs FlowSpec FlowProofs BlockListProofs
  CleanProofs BuildCleanProofs FunCleanProofs DriverModel DriverSpec DriverProofs UsesSpec UsesProofs
  DfgSpec DfgProofs WorldSpec WorldProofs TypingSpec TypingProofs TypingHistory EqHistory SkelProofs ParamProofs HistoryProofs
  FaithSpec ProgLayoutProofs.

(** ** Views *)
Definition vi (d : vdata) : option string * (ty * vkind) := (v_name d, (v_ty d, v_kind d)).
Notation vim m := (vi <$> (m : gmap N vdata)).
Definition bv (d : bbdata) : option string * list value := (bb_name d, bb_params d).
Notation bvm m := (bv <$> (m : gmap N bbdata)).
Record fview := FView {
  w_fname : string; w_fty : ty; w_pars : list value;
  w_vals : gmap N (option string * (ty * vkind));
  w_bbs : gmap N (option string * list value);
  w_lay : list (bblock * list value) }.
Definition fv (fd : fdata) : fview :=
  FView (f_name fd) (f_ty fd) (f_params fd) (vim (vals fd)) (bvm (blks fd)) (l_bbs (f_layout fd)).
Notation fvs w := (fv <$> p_funcs (w_prog w)).
Notation gvs w := (vim (p_values (w_prog w))).
Definition set_wvals (x : fview) m := FView (w_fname x) (w_fty x) (w_pars x) m (w_bbs x) (w_lay x).
Definition set_wbbs (x : fview) m := FView (w_fname x) (w_fty x) (w_pars x) (w_vals x) m (w_lay x).
Definition set_wlay (x : fview) l := FView (w_fname x) (w_fty x) (w_pars x) (w_vals x) (w_bbs x) l.
Definition w_sk (x : fview) : gmap N (ty * vkind) := snd <$> w_vals x.

(** The function [f] changes from [x] to [x'], nothing else changes. *)
Definition only (f : func) (x x' : fview) (w w' : world) : Prop :=
  fvs w !! f = Some x ∧ fvs w' = <[f := x']> (fvs w) ∧ gvs w' = gvs w ∧
  p_inst_layout (w_prog w') = p_inst_layout (w_prog w) ∧
  p_func_layout (w_prog w') = p_func_layout (w_prog w).
Lemma only_refl f x w : fvs w !! f = Some x → only f x x w w.
Proof. intros H. split_and!; try done. by rewrite insert_id. Qed.
Lemma only_trans f x y z w w1 w2 : only f x y w w1 → only f y z w1 w2 → only f x z w w2.
Proof.
  intros (A1 & A2 & A3 & A4 & A5) (B1 & B2 & B3 & B4 & B5). split_and!; [done| |congruence..].
  by rewrite B2, A2, insert_insert.
Qed.
Lemma only_after f x y w w' : only f x y w w' → fvs w' !! f = Some y.
Proof. intros (_ & -> & _). apply lookup_insert. Qed.

(** ** Use lists do not matter *)
Lemma vim_touched (m : gmap N vdata) v d f : m !! v = Some d → vim (<[v := upd_used_by f d]> m) = vim m.
Proof. intros H. rewrite fmap_insert. apply insert_id. by rewrite lookup_fmap, H. Qed.
Lemma upd_uses_vim f us : ∀ gs vs gs' vs', upd_uses f us gs vs = Some (gs', vs') → vim gs' = vim gs ∧ vim vs' = vim vs.
Proof.
  induction us as [|u us IH]; intros gs vs gs' vs' H; simpl in H; [by injection H as -> ->|].
  apply bind_Some in H as ([gs1 vs1] & H1 & H). apply IH in H as (E1 & E2).
  unfold data_mut_used in H1. destruct (gs !! u) as [d|] eqn:Eg.
  - injection H1 as <- <-. by rewrite vim_touched in E1.
  - destruct (vs !! u) as [d|] eqn:Ev; [|done]. injection H1 as <- <-. by rewrite vim_touched in E2.
Qed.
Lemma upd_guses_vim f us gs gs' : upd_guses f us gs = Some gs' → vim gs' = vim gs.
Proof.
  intros H. rewrite upd_guses_upd_uses in H. apply fmap_Some in H as ([g1 v1] & H & ->).
  by apply upd_uses_vim in H as (? & _).
Qed.
Lemma upd_bb_uses_bvm f us : ∀ m m', upd_bb_uses f us m = Some m' → bvm m' = bvm m.
Proof.
  induction us as [|u us IH]; intros m m' H; simpl in H; [by injection H as ->|].
  apply bind_Some in H as (d & Hd & H). apply IH in H as ->. rewrite fmap_insert. apply insert_id.
  by rewrite lookup_fmap, Hd.
Qed.
Lemma new_value_vim i gs g data v i' gs' g' :
  dfg_new_value_data i gs g data = Some (v, i', gs', g') →
  next_local_value_id i = Some (v, i') ∧ vim gs' = vim gs ∧
  vim (d_values g') = <[v := vi data]> (vim (d_values g)) ∧ bvm (d_bbs g') = bvm (d_bbs g).
Proof.
  intros H. unfold dfg_new_value_data in H.
  apply bind_Some in H as ([v1 i1] & Hi & H). apply bind_Some in H as ([gs1 vs1] & Hu & H).
  apply bind_Some in H as (bs & Hb & H). injection H as <- <- <- <-. simpl.
  apply upd_uses_vim in Hu as [-> E]. apply upd_bb_uses_bvm in Hb. rewrite fmap_insert, E. done.
Qed.

(** ** Fresh handles *)
(** Counters from which fresh handles can be taken. *)
Record counting (i : ids) : Prop := {
  ct_gv : (0 < next_gv i)%N;
  ct_lv : (local_value_id_starts_from ≤ ub (next_lv i))%N ∧ (next_lv i < two32)%N;
  ct_bb : (next_bb i < two32)%N;
  ct_fn : (next_fn i < two32)%N;
}.
Lemma counting0 : counting ids0.
Proof. by constructor. Qed.
(** The program comes from calls like those of the front end, and [n] more global values can be
    made. *)
Definition room (n : N) (w : world) : Prop :=
  ∃ i os, counting i ∧ Forall fe_op os ∧ run os (World i program0) = Some (er w) ∧
    (next_gv i + globals_created os + n ≤ local_value_id_starts_from)%N.
Lemma room_evolves j n w w' : room (j + n) w → evolves_by j w w' → room n w'.
Proof.
  intros (i & o1 & C1 & F1 & R1 & G1) (o2 & F2 & R2 & G2). exists i, (o1 ++ o2).
  split; [done|]. split; [by apply list.Forall_app|]. split.
  - rewrite run_app, R1. done.
  - rewrite globals_created_app. lia.
Qed.
Lemma room_ev {A} n (m : F A) s : Ev m → room n (b_world s) → room n (b_world (m s).2).
Proof. intros Hm H. apply (room_evolves 0 n _ _ H). apply Hm. Qed.
Lemma room_clean {A} n (m : F A) s a s' : Ev m → clean m s a s' → room n (b_world s) → room n (b_world s').
Proof. intros Hm [H _] R. apply (room_ev n m s Hm) in R. by rewrite H in R. Qed.
Lemma room_mono n m w : (m ≤ n)%N → room n w → room m w.
Proof. intros Hm (i & os & C & F & R & G). exists i, os. split; [done|]. split; [done|]. split; [done|]. lia. Qed.
Lemma winv_empty i : counting i → (next_gv i ≤ local_value_id_starts_from)%N → winv i program0 ∅.
Proof.
  intros [C1 C2 C3 C4] H. constructor; simpl; try done; [by intros u v (d & ? & _)|by intros ? [? ?]..].
Qed.
Lemma room_winv n w : room n w → ∃ F, winv (w_ids w) (er_prog (w_prog w)) F.
Proof.
  intros (i & os & C & F & R & G).
  destruct (run_winv os (World i program0) (er w) ∅) as (F' & HW & _); [apply winv_empty; [done|simpl; lia]|by apply fe_tidy|simpl; lia|done|].
  by exists F'.
Qed.
Lemma pinv_empty i : counting i → (next_gv i ≤ local_value_id_starts_from)%N → pinv i program0.
Proof.
  intros [C1 C2 C3 C4] H. constructor; simpl; try done; try (by constructor); try (by intros ? [? ?]).
  - intros v. split; [intros Hx; inversion Hx|intros (d & Hd & _); done].
  - unfold two32, local_value_id_starts_from in *. lia.
  - intros v. split; [intros Hx; inversion Hx|intros [? ?]; done].
Qed.
(** The recorded types of functions are their types. *)
Lemma room_tys n w : room n w → ∀ f, p_func_tys (w_prog w) !! f = f_ty <$> p_funcs (w_prog w) !! f.
Proof.
  intros (i & os & C & F & R & G) f. apply run_pinv in R; [|apply pinv_empty; [done|simpl; lia]].
  pose proof (pi_ft _ _ R f) as E. simpl in E. rewrite lookup_fmap in E. rewrite E. by destruct (p_funcs (w_prog w) !! f).
Qed.
Lemma room_gv n w : room n w → (0 < next_gv (w_ids w) ≤ local_value_id_starts_from)%N ∧
  ∀ v, is_Some (p_values (w_prog w) !! v) → (v < next_gv (w_ids w))%N.
Proof. intros H. apply room_winv in H as [F H]. split; [apply (wi_gv _ _ _ H)|apply (wi_gid _ _ _ H)]. Qed.
Lemma er_lookup w F f fd : winv (w_ids w) (er_prog (w_prog w)) F → p_funcs (w_prog w) !! f = Some fd →
  F !! f = Some (er_fd fd).
Proof.
  intros H Hf. eapply lookup_weaken; [|apply (wi_sub _ _ _ H)]. simpl. by rewrite lookup_fmap, Hf.
Qed.
Lemma room_lv n w : room n w → (local_value_id_starts_from ≤ ub (next_lv (w_ids w)))%N ∧ (next_lv (w_ids w) < two32)%N ∧
  ∀ f x v, fvs w !! f = Some x → is_Some (w_vals x !! v) → (local_value_id_starts_from ≤ v < ub (next_lv (w_ids w)))%N.
Proof.
  intros H. apply room_winv in H as [F H]. destruct (wi_lv _ _ _ H) as [H1 H2]. split; [done|]. split; [done|].
  intros f x v H0 H3. rewrite lookup_fmap in H0; apply fmap_Some in H0 as (fd & Hf & ->).
  apply (er_lookup _ _ _ _ H) in Hf; simpl in H3; rewrite lookup_fmap in H3.
  by apply fmap_is_Some in H3; apply (wi_lid _ _ _ H _ _ _ Hf) in H3.
Qed.
Lemma room_bb n w : room n w → (next_bb (w_ids w) < two32)%N ∧
  ∀ f x b, fvs w !! f = Some x → is_Some (w_bbs x !! b) → (b < ub (next_bb (w_ids w)))%N.
Proof.
  intros H. apply room_winv in H as [F H]. split; [apply (wi_nb _ _ _ H)|].
  intros f x b H0 H3. rewrite lookup_fmap in H0; apply fmap_Some in H0 as (fd & Hf & ->).
  apply (er_lookup _ _ _ _ H) in Hf; simpl in H3; rewrite lookup_fmap in H3.
  by apply fmap_is_Some in H3; apply (wi_bid _ _ _ H _ _ _ Hf) in H3.
Qed.
Lemma room_fn n w : room n w → (next_fn (w_ids w) < two32)%N ∧
  ∀ f, is_Some (p_funcs (w_prog w) !! f) → (f < ub (next_fn (w_ids w)))%N.
Proof.
  intros H. apply room_winv in H as [F H]. split; [apply (wi_nf _ _ _ H)|].
  intros f [fd Hf]. apply (er_lookup _ _ _ _ H) in Hf. apply (wi_fid _ _ _ H). eauto.
Qed.

Lemma room_start i n : counting i → (next_gv i + n ≤ local_value_id_starts_from)%N → room n (World i program0).
Proof.
  intros C H. exists i, []. split; [done|]. split; [constructor|]. split.
  - simpl. f_equal. unfold er, er_prog. simpl. by rewrite fmap_empty.
  - unfold globals_created. simpl. lia.
Qed.
Lemma room0 n : (n < local_value_id_starts_from)%N → room n (b_world (bstate0 ids0 0 0)).
Proof. intros H. apply (room_start ids0 n counting0). simpl. unfold global_value_id_starts_from. lia. Qed.

(** ** The calls *)
Lemma only_dfg f w fd i' gs' g' : p_funcs (w_prog w) !! f = Some fd → vim gs' = gvs w →
  only f (fv fd) (fv (set_dfg fd g')) w (World i' (set_func (set_values (w_prog w) gs') f (set_dfg fd g'))).
Proof.
  intros Hf Hg. split_and!; simpl; try done; [by rewrite lookup_fmap, Hf|by rewrite fmap_insert].
Qed.
Lemma view_new_local k f r w v w' : w_new_local f r w = Some (v, w') → room k w →
  ∃ x t, only f x (set_wvals x (<[v := (None, (t, requested r))]> (w_vals x))) w w' ∧
    w_vals x !! v = None ∧ is_global_id v = false ∧ requested_ty r t.
Proof.
  intros H R. apply on_dfg_inv in H as (fd & i' & gs' & g' & Hf & H & ->).
  apply bind_Some in H as (d & Hd & H). apply build_sound in Hd as (Ed & _ & Ht).
  apply new_value_vim in H as (Hi & Hg & Hv & Hb).
  exists (fv fd), (v_ty d). destruct (room_lv _ _ R) as (R1 & R2 & R3).
  apply next_local_spec in Hi as (-> & Hne & ->).
  assert (Hub : ub (next_lv (w_ids w)) = next_lv (w_ids w)).
  { unfold ub. by destruct (N.eqb_spec (next_lv (w_ids w)) 0). }
  split_and!.
  - pose proof (only_dfg f w fd (Ids (next_gv (w_ids w)) ((next_lv (w_ids w) + 1) `mod` two32) (next_bb (w_ids w)) (next_fn (w_ids w))) gs' g' Hf Hg) as H.
    replace (set_wvals _ _) with (fv (set_dfg fd g')); [exact H|].
    unfold fv, set_wvals. simpl. f_equal; [|done]. rewrite Hv. f_equal. by rewrite Ed.
  - apply eq_None_not_Some. intros Hs. eapply R3 in Hs; [lia|]. by rewrite lookup_fmap, Hf.
  - unfold is_global_id. lia.
  - done.
Qed.
Lemma view_name_local f v n w w' : w_name_local f v n w = Some w' →
  ∃ x y, only f x (set_wvals x (<[v := (n, y.2)]> (w_vals x))) w w' ∧ w_vals x !! v = Some y.
Proof.
  unfold w_name_local. intros H. apply bind_Some in H as ([[] w1] & H & E). injection E as ->.
  apply on_dfg_inv in H as (fd & i' & gs' & g' & Hf & H & ->).
  apply bind_Some in H as (g1 & H & E). injection E as <- <- <-.
  unfold dfg_set_value_name in H. apply bind_Some in H as (d & Hd & H).
  apply bind_Some in H as (d' & Hs & H). injection H as <-.
  exists (fv fd), (vi d). split; [|simpl; by rewrite lookup_fmap, Hd].
  match goal with |- only _ _ ?a _ (World _ (set_func _ _ (set_dfg _ ?g))) => assert (E : a = fv (set_dfg fd g)) end.
  { unfold fv, set_wvals. simpl. f_equal. rewrite fmap_insert. f_equal.
    unfold set_name in Hs. destruct (valid_opt_name n); [|done]. by injection Hs as <-. }
  rewrite E. by apply only_dfg.
Qed.
Lemma view_push_bb f b w w' : w_push_bb f b w = Some w' →
  ∃ x, only f x (set_wlay x (w_lay x ++ [(b, [])])) w w'.
Proof.
  unfold w_push_bb. intros H. apply bind_Some in H as (fd & Hf & H).
  apply bind_Some in H as ([l|] & Hl & H); [|done]. injection H as <-.
  unfold bb_insert in Hl. destruct (has_key _ _ _); [done|]. simpl in Hl. injection Hl as <-.
  exists (fv fd). split_and!; simpl; try done; [by rewrite lookup_fmap, Hf|by rewrite fmap_insert].
Qed.
Lemma view_push_inst f b v w w' : w_push_inst f b v w = Some w' →
  ∃ x is, only f x (set_wlay x (set_bb b (is ++ [v]) (w_lay x))) w w' ∧ find_bb b (w_lay x) = Some is.
Proof.
  unfold w_push_inst. intros H. apply bind_Some in H as (fd & Hf & H).
  apply bind_Some in H as ([l|] & Hl & H); [|done]. injection H as <-.
  unfold inst_insert in Hl. destruct (find_bb b (l_bbs (f_layout fd))) as [is|] eqn:Hi; [|done]. simpl in Hl.
  destruct (has_key _ _ _); [done|]. simpl in Hl. injection Hl as <-.
  exists (fv fd), is. split; [|done].
  split_and!; simpl; try done; [by rewrite lookup_fmap, Hf|by rewrite fmap_insert].
Qed.
(** The values [vs] with the data [ds] are added to [m]. *)
Definition adds_views (m m' : gmap N (option string * (ty * vkind))) (arg : N → vkind)
    (ps : list (option string * ty)) (vs : list value) : Prop :=
  NoDup vs ∧ length vs = length ps ∧ (∀ v, v ∈ vs → m !! v = None ∧ is_global_id v = false) ∧
  (∀ v, v ∉ vs → m' !! v = m !! v) ∧
  ∀ (j : nat) v n t, vs !! j = Some v → ps !! j = Some (n, t) → m' !! v = Some (n, (t, arg (N.of_nat j))).
Lemma view_new_bb k f n ps w b w' : w_new_bb f n ps w = Some (b, w') → room k w →
  ∃ x m vs, only f x (set_wbbs (set_wvals x m) (<[b := (n, vs)]> (w_bbs x))) w w' ∧
    w_bbs x !! b = None ∧ adds_views (w_vals x) m KBlockArg ps vs.
Proof.
  intros H R. apply on_dfg_inv in H as (fd & i' & gs' & g' & Hf & H & ->).
  unfold basic_block_with_param_names in H.
  apply bind_Some in H as ([] & _ & H). apply bind_Some in H as ([] & _ & H).
  apply bind_Some in H as ([[[vs i1] gs1] g1] & Ha & H).
  apply bind_Some in H as ([[b1 i2] g2] & Hb & H). injection H as <- <- <- <-.
  destruct (room_lv _ _ R) as (R1 & R2 & R3). destruct (room_bb _ _ R) as (R4 & R5).
  apply new_block_args_exact in Ha as (-> & E1 & E2 & E3 & E4 & E5); [|done].
  unfold dfg_new_bb_data in Hb. apply bind_Some in Hb as ([b2 i3] & Hid & Hb).
  injection Hb as <- <- <-. apply next_bb_spec in Hid as (-> & Hne & ->). simpl.
  assert (Hx : fvs w !! f = Some (fv fd)) by (by rewrite lookup_fmap, Hf).
  exists (fv fd), (vim (d_values g1)), vs. split_and!.
  - match goal with |- only _ _ ?a _ (World _ (set_func _ _ (set_dfg _ ?g))) => assert (E : a = fv (set_dfg fd g)) end.
    { unfold fv, set_wvals, set_wbbs. simpl. f_equal. by rewrite fmap_insert, E1. }
    rewrite E. by apply only_dfg.
  - apply eq_None_not_Some. intros Hs. eapply R5 in Hs; [|done]. rewrite E2 in Hs, Hne. unfold ub in Hs.
    destruct (N.eqb_spec (next_bb (w_ids w)) 0); lia.
  - destruct E4 as (C1 & C2 & C3). split_and!; [done|done| | |].
    + intros v Hv. apply E3 in Hv. split; [|unfold is_global_id; lia].
      apply eq_None_not_Some. intros Hs. eapply R3 in Hs; [|done]. lia.
    + intros v Hv. simpl. rewrite !lookup_fmap. by rewrite E5.
    + intros j v n' t Hj Hp. apply C3 in Hp as (v' & Hv' & Hp). rewrite Hj in Hv'. injection Hv' as <-.
      by rewrite lookup_fmap, Hp.
Qed.
Lemma view_new_def k n ps r w f w' : w_new_func_def n ps r w = Some (f, w') → room k w →
  ∃ m vs, fvs w !! f = None ∧
    fvs w' = <[f := FView n (TFun (map snd ps) r) vs m ∅ []]> (fvs w) ∧ gvs w' = gvs w ∧
    p_inst_layout (w_prog w') = p_inst_layout (w_prog w) ∧
    p_func_layout (w_prog w') = p_func_layout (w_prog w) ++ [f] ∧
    adds_views ∅ m KFuncArg ps vs.
Proof.
  intros H R. unfold w_new_func_def, prog_new_func_def, prog_new_func in H.
  apply bind_Some in H as ([[f1 i1] p1] & H & E). injection E as <- <-.
  apply bind_Some in H as ([d i2] & Hd & H). apply bind_Some in H as ([f' i3] & Hf & E). injection E as <- <- <-.
  unfold fdata_with_param_names in Hd.
  apply bind_Some in Hd as ([] & _ & Hd). apply bind_Some in Hd as ([[vs i4] g4] & Ha & E). injection E as <- <-.
  destruct (room_lv _ _ R) as (R1 & R2 & R3). destruct (room_fn _ _ R) as (R4 & R5).
  assert (En : next_fn i4 = next_fn (w_ids w)).
  { clear -Ha. revert Ha. generalize dfg0, 0%N, (w_ids w). revert vs i4 g4.
    induction ps as [|[n t] ps IH]; intros vs i4 g4 g z i H; simpl in H; [by injection H as _ <- _|].
    apply bind_Some in H as ([[[v i1] gs1] g1] & H1 & H). apply bind_Some in H as (g2 & H2 & H).
    apply bind_Some in H as ([[vs3 i3] g3] & H3 & H). injection H as <- <- <-. apply IH in H3 as ->.
    apply new_value_vim in H1 as (Hi & _). by apply next_local_spec in Hi as (_ & _ & ->). }
  apply new_func_args_exact in Ha as (Eb & (R6 & R7 & R8) & (C1 & C2 & C3) & Hold); [|done].
  apply next_func_spec in Hf as (-> & Hne & ->). simpl.
  exists (vim (d_values g4)), vs. split_and!; try done.
  - rewrite lookup_fmap. apply fmap_None. apply eq_None_not_Some. intros Hs. apply R5 in Hs. rewrite En in Hs, Hne.
    unfold ub in Hs. destruct (N.eqb_spec (next_fn (w_ids w)) 0); lia.
  - rewrite fmap_insert. f_equal. unfold fv. simpl. f_equal. rewrite Eb. apply fmap_empty.
  - split_and!; try done.
    { intros v Hv. apply R8 in Hv. split; [done|]. unfold is_global_id. lia. }
    { intros v Hv. rewrite lookup_fmap, Hold by done. done. }
    intros j v n' t Hj Hp. apply C3 in Hp as (v' & Hv' & Hp). rewrite Hj in Hv'. injection Hv' as <-.
    by rewrite lookup_fmap, Hp.
Qed.
Lemma view_new_decl k n ps r w f w' : w_new_func_decl n ps r w = Some (f, w') → room k w →
    fvs w !! f = None ∧
    fvs w' = <[f := FView n (TFun ps r) [] ∅ ∅ []]> (fvs w) ∧ gvs w' = gvs w ∧
    p_inst_layout (w_prog w') = p_inst_layout (w_prog w) ∧
    p_func_layout (w_prog w') = p_func_layout (w_prog w) ++ [f].
Proof.
  intros H R. unfold w_new_func_decl, prog_new_func_decl, prog_new_func in H.
  apply bind_Some in H as ([[f1 i1] p1] & H & E). injection E as <- <-.
  apply bind_Some in H as (d & Hd & H). apply bind_Some in H as ([f' i3] & Hf & E). injection E as <- <- <-.
  unfold fdata_new_decl in Hd. apply bind_Some in Hd as ([] & _ & E). injection E as <-.
  destruct (room_fn _ _ R) as (R4 & R5). apply next_func_spec in Hf as (-> & Hne & ->). simpl.
  split_and!; try done.
  - rewrite lookup_fmap. apply fmap_None. apply eq_None_not_Some. intros Hs. apply R5 in Hs.
    unfold ub in Hs. destruct (N.eqb_spec (next_fn (w_ids w)) 0); lia.
  - rewrite fmap_insert. f_equal. unfold fv. simpl. by rewrite !fmap_empty.
Qed.
Lemma evolves_global r w v w' : global_req r = true → w_new_global r w = Some (v, w') → evolves_by 1 w w'.
Proof.
  intros Hr E. exists [ONewGlobal r]. split_and!; [by constructor| |done]. cbn [run].
  rewrite (er_step (ONewGlobal r) w w'); [done|done|]. cbn [step]. by rewrite E.
Qed.
Lemma view_new_global k r w v w' : w_new_global r w = Some (v, w') → global_req r = true → room (1 + k) w →
  ∃ d, build (global_querier (w_prog w)) r = Some d ∧
    gvs w !! v = None ∧ is_global_id v = true ∧
    gvs w' = <[v := (None, (v_ty d, requested r))]> (gvs w) ∧ fvs w' = fvs w ∧
    p_func_layout (w_prog w') = p_func_layout (w_prog w) ∧
    p_inst_layout (w_prog w') = p_inst_layout (w_prog w) ++ (if is_global_alloc (requested r) then [v] else []) ∧
    room k w'.
Proof.
  intros H Hr R. pose proof (evolves_global _ _ _ _ Hr H) as Hev. pose proof (room_evolves _ _ _ _ R Hev) as R'.
  unfold w_new_global, w_new_global_data, global_insert_value, prog_new_value_data in H.
  apply bind_Some in H as (d & Hd & H). apply bind_Some in H as ([[v1 i1] p1] & H & E). injection E as <- <-.
  apply bind_Some in H as ([[v' i'] p'] & H & E). injection E as -> -> <-.
  apply bind_Some in H as ([v' i'] & Hi & H). apply bind_Some in H as (gs & Hg & E). injection E as -> -> <-.
  exists d. pose proof Hd as Hb. apply build_sound in Hb as (Ed & _). apply upd_guses_vim in Hg.
  destruct (room_gv _ _ R) as [R1 R2]. destruct (room_gv _ _ R') as [R3 _]. simpl in R3.
  assert (v1 = next_gv (w_ids w) ∧ next_gv i1 = ((next_gv (w_ids w) + 1) `mod` two32)%N) as [Ev Ei].
  { unfold next_global_value_id in Hi. destruct (fetch_add1 (next_gv (w_ids w))) as [id c] eqn:E.
    apply bind_Some in Hi as (z & Hz & Ez). injection Ez as <- <-. unfold fetch_add1 in E. injection E as <- <-.
    unfold new_unchecked in Hz. simpl. split; [|done]. destruct (next_gv (w_ids w)); [done|]. by injection Hz as <-. }
  assert (Hlt : (next_gv (w_ids w) < local_value_id_starts_from)%N).
  { rewrite Ei, N.mod_small in R3 by (unfold two32, local_value_id_starts_from in *; lia). lia. }
  split; [done|]. split.
  { rewrite lookup_fmap. apply fmap_None, eq_None_not_Some. intros Hs. apply R2 in Hs. lia. }
  split; [unfold is_global_id, global_value_id_starts_from; lia|].
  assert (Ek : v_kind d = requested r) by (by rewrite Ed).
  rewrite Ek in *. split_and!; try done.
  - destruct (is_global_alloc (requested r)); simpl; rewrite fmap_insert, Hg; by rewrite Ed.
  - by destruct (is_global_alloc (requested r)).
  - by destruct (is_global_alloc (requested r)).
  - destruct (is_global_alloc (requested r)); simpl; [done|by rewrite app_nil_r].
Qed.
Lemma view_name_global v n w w' : w_name_global v n w = Some w' →
  ∃ y, gvs w !! v = Some y ∧ gvs w' = <[v := (n, y.2)]> (gvs w) ∧ fvs w' = fvs w ∧
    p_func_layout (w_prog w') = p_func_layout (w_prog w) ∧
    p_inst_layout (w_prog w') = p_inst_layout (w_prog w).
Proof.
  intros H. unfold w_name_global, prog_set_value_name in H.
  apply bind_Some in H as (p1 & H & E). injection E as <-.
  apply bind_Some in H as (d & Hd & H). apply bind_Some in H as (d' & Hd' & E). injection E as <-.
  exists (vi d). split_and!; try done; [by rewrite lookup_fmap, Hd|]. simpl. rewrite fmap_insert. f_equal.
  unfold set_name in Hd'. destruct (valid_opt_name n); [|done]. by injection Hd' as <-.
Qed.
