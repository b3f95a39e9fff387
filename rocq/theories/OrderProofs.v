(** The order of functions and variables in the programs of the front end. *)
From Coq Require Import Sorted Lia ZifyBool ZifyNat ZifyN.
From Verif Require Import Base IdModel TypeModel IrModel LayoutModel BuilderModel WorldModel
  LexerModel ParserModel FrontModel DriverModel UsesSpec DfgSpec WorldSpec DfgProofs WorldProofs SkelProofs
  EqHistory TypingSpec TypingProofs TypingHistory HistoryProofs ParamProofs DriverSpec PresProofs.

(** [w'] is [w] with new values in the function [f], of kinds that satisfy [Q]. *)
Record fstep (Q : vkind → Prop) (f : func) (w w' : world) : Prop := {
  fs_fn : next_fn (w_ids w') = next_fn (w_ids w);
  fs_tys : p_func_tys (w_prog w') = p_func_tys (w_prog w);
  fs_layout : p_func_layout (w_prog w') = p_func_layout (w_prog w);
  fs_insts : p_inst_layout (w_prog w') = p_inst_layout (w_prog w);
  fs_values : skm (p_values (w_prog w')) = skm (p_values (w_prog w));
  fs_funcs : ∃ fd fd', p_funcs (w_prog w) !! f = Some fd ∧
    p_funcs (w_prog w') = <[f := fd']> (p_funcs (w_prog w)) ∧ f_ty fd' = f_ty fd ∧ f_name fd' = f_name fd ∧
    f_params fd' = f_params fd ∧
    ∀ x d', vals fd' !! x = Some d' → Q (v_kind d') ∨ ∃ d, vals fd !! x = Some d ∧ v_kind d = v_kind d';
}.
Lemma skm_kind (m m' : gmap N vdata) x d' : skm m' = skm m → m' !! x = Some d' →
  ∃ d, m !! x = Some d ∧ v_kind d = v_kind d'.
Proof.
  intros H Hx. assert (E : skm m' !! x = Some (sk d')) by (by rewrite lookup_fmap, Hx).
  rewrite H, lookup_fmap in E. apply fmap_Some in E as (d & Hd & E). injection E as _ E. by exists d.
Qed.
Lemma fstep_dfg Q f fd w i' gs' g' :
  p_funcs (w_prog w) !! f = Some fd → next_fn i' = next_fn (w_ids w) →
  skm gs' = skm (p_values (w_prog w)) →
  (∀ x d', d_values g' !! x = Some d' → Q (v_kind d') ∨ ∃ d, vals fd !! x = Some d ∧ v_kind d = v_kind d') →
  fstep Q f w (World i' (set_func (set_values (w_prog w) gs') f (set_dfg fd g'))).
Proof. intros Hf Hi Hg Hd. split; try done. by eexists _, _. Qed.
Lemma fstep_new_local f r w v w' : w_new_local f r w = Some (v, w') →
  fstep (λ k, k = requested r ∧ ∀ c args, k = KCall c args → is_Some (p_func_tys (w_prog w) !! c)) f w w'.
Proof.
  intros H. apply on_dfg_inv in H as (fd & i' & gs' & g' & Hf & H & ->).
  apply bind_Some in H as (d & Hd & H).
  apply new_value_sk in H as (Hi & E1 & E2 & _ & _).
  apply next_local_spec in Hi as (_ & _ & ->).
  apply fstep_dfg; [done..|]. intros x d' Hx.
  assert (E : skm (d_values g') !! x = Some (sk d')) by (by rewrite lookup_fmap, Hx).
  rewrite E2 in E. apply lookup_insert_Some in E as [[-> E]|[_ E]].
  - left. injection E as _ <-. pose proof (build_sound _ _ _ Hd) as (H1 & H2 & _).
    rewrite H1. simpl. split; [done|]. intros c args Hc. rewrite H1 in H2. simpl in H2. rewrite Hc in H2.
    inversion H2 as [| | | | | | | | | | | | |? ? ? ? G| |]; subst. simpl in G. by rewrite G.
  - right. rewrite lookup_fmap in E. apply fmap_Some in E as (d0 & Hd0 & E). injection E as _ E. by exists d0.
Qed.
Lemma new_block_args_kinds ps : ∀ i gs idx g vs i' gs' g',
  new_block_args i gs idx ps g = Some (vs, i', gs', g') →
  gs' = gs ∧ next_fn i' = next_fn i ∧
  ∀ x d', d_values g' !! x = Some d' → is_param (v_kind d') = true ∨
    ∃ d, d_values g !! x = Some d ∧ v_kind d = v_kind d'.
Proof.
  induction ps as [|[n t] ps IH]; intros i gs idx g vs i' gs' g' H; simpl in H.
  - injection H as <- <- <- <-. split_and!; [done..|]. eauto.
  - apply bind_Some in H as (d & Hd & H).
    apply bind_Some in H as ([[[v i1] gs1] g1] & H1 & H).
    apply bind_Some in H as ([[[vs2 i2] gs2] g2] & H2 & H). injection H as <- <- <- <-.
    assert (d = VData t n (KBlockArg idx) ∅) as ->.
    { unfold set_name in Hd. destruct (valid_opt_name n); [|done]. by injection Hd as <-. }
    apply new_leaf in H1 as (Hi & -> & Eb & Ev); [|done|done].
    apply next_local_spec in Hi as (_ & _ & ->).
    apply IH in H2 as (-> & F2 & F3). split_and!; [done..|].
    intros x d' Hx. destruct (F3 x d' Hx) as [?|(d & Hd' & E)]; [by left|].
    rewrite Ev in Hd'. apply lookup_insert_Some in Hd' as [[<- <-]|[_ Hd']]; [left; by rewrite <- E|eauto].
Qed.
Lemma fstep_new_bb f n ps w b w' : w_new_bb f n ps w = Some (b, w') →
  fstep (λ k, is_param k = true) f w w'.
Proof.
  intros H. apply on_dfg_inv in H as (fd & i' & gs' & g' & Hf & H & ->).
  unfold basic_block_with_param_names in H.
  apply bind_Some in H as ([] & _ & H). apply bind_Some in H as ([] & _ & H).
  apply bind_Some in H as ([[[vs i1] gs1] g1] & Ha & H).
  apply bind_Some in H as ([[b1 i2] g2] & Hb & H). injection H as <- <- <- <-.
  apply new_block_args_kinds in Ha as (-> & F1 & F2).
  unfold dfg_new_bb_data in Hb. apply bind_Some in Hb as ([b2 i3] & Hid & Hb).
  injection Hb as _ <- <-. apply next_bb_spec in Hid as (_ & _ & ->).
  by apply fstep_dfg.
Qed.
Lemma fstep_name f v n w w' : w_name_local f v n w = Some w' → fstep (λ _, False) f w w'.
Proof.
  unfold w_name_local. intros H. apply bind_Some in H as ([[] w1] & H & E). injection E as ->.
  apply on_dfg_inv in H as (fd & i' & gs' & g' & Hf & H & ->).
  apply bind_Some in H as (g1 & H & E). injection E as <- <- <-.
  apply set_value_name_sk in H as [E _].
  apply fstep_dfg; [done..|]. intros x d' Hx. right. by eapply skm_kind.
Qed.
Lemma fstep_set_layout f fd w l : p_funcs (w_prog w) !! f = Some fd →
  fstep (λ _, False) f w (World (w_ids w) (set_func (w_prog w) f (set_layout fd l))).
Proof. intros Hf. split; try done. eexists fd, _. split_and!; try done. intros x d' Hx. right. by exists d'. Qed.
Lemma fstep_push_bb f b w w' : w_push_bb f b w = Some w' → fstep (λ _, False) f w w'.
Proof.
  unfold w_push_bb. intros H. apply bind_Some in H as (fd & Hf & H).
  apply bind_Some in H as ([l|] & _ & H); [|done]. injection H as <-. by apply fstep_set_layout.
Qed.
Lemma fstep_push_inst f b v w w' : w_push_inst f b v w = Some w' → fstep (λ _, False) f w w'.
Proof.
  unfold w_push_inst. intros H. apply bind_Some in H as (fd & Hf & H).
  apply bind_Some in H as ([l|] & _ & H); [|done]. injection H as <-. by apply fstep_set_layout.
Qed.

(** ** The invariant *)
Record olds (w : world) : Prop := {
  od_fn : (next_fn (w_ids w) < two32)%N;
  od_sorted : StronglySorted N.lt (p_func_layout (w_prog w));
  od_below : ∀ f, f ∈ p_func_layout (w_prog w) → (f < ub (next_fn (w_ids w)))%N;
  od_funcs : ∀ f, is_Some (p_funcs (w_prog w) !! f) ↔ f ∈ p_func_layout (w_prog w);
  od_tys : ∀ f, is_Some (p_func_tys (w_prog w) !! f) → f ∈ p_func_layout (w_prog w);
  od_calls : ∀ f fd v d c args, p_funcs (w_prog w) !! f = Some fd → vals fd !! v = Some d →
    v_kind d = KCall c args → (c ≤ f)%N ∧ c ∈ p_func_layout (w_prog w);
  od_locals : ∀ f fd v d, p_funcs (w_prog w) !! f = Some fd → vals fd !! v = Some d →
    is_global_alloc (v_kind d) = false;
  od_globals : ∀ v d, p_values (w_prog w) !! v = Some d → is_global_alloc (v_kind d) = true →
    v ∈ p_inst_layout (w_prog w);
}.
Definition newest (f : func) (w : world) : Prop :=
  olds w ∧ ∀ c, c ∈ p_func_layout (w_prog w) → (c ≤ f)%N.

Lemma fstep_newest Q f w w' : fstep Q f w w' →
  (∀ k, Q k → is_global_alloc k = false ∧ ∀ c args, k = KCall c args → is_Some (p_func_tys (w_prog w) !! c)) →
  newest f w → newest f w'.
Proof.
  intros [S1 S2 S3 S4 S5 (fd & fd' & Hf & S6 & _ & _ & _ & S7)] HQ [HO HN].
  split; [|by rewrite S3].
  assert (Hk : ∀ g gd v d, p_funcs (w_prog w') !! g = Some gd → vals gd !! v = Some d →
    (g = f ∧ Q (v_kind d)) ∨ ∃ gd0 d0, p_funcs (w_prog w) !! g = Some gd0 ∧ vals gd0 !! v = Some d0 ∧ v_kind d0 = v_kind d).
  { intros g gd v d Hg Hv. rewrite S6 in Hg. apply lookup_insert_Some in Hg as [[<- <-]|[_ Hg]].
    - destruct (S7 v d Hv) as [?|(d0 & ? & ?)]; [by left|right]. by exists fd, d0.
    - right. by exists gd, d. }
  split; rewrite ?S1, ?S2, ?S3, ?S4.
  - apply HO.
  - apply HO.
  - apply HO.
  - intros g. rewrite <- (od_funcs _ HO). rewrite S6. destruct (decide (g = f)) as [-> |Hne].
    + rewrite lookup_insert, Hf. split; eauto.
    + by rewrite lookup_insert_ne.
  - apply HO.
  - intros g gd v d c args Hg Hv Hc. destruct (Hk _ _ _ _ Hg Hv) as [[-> Hq]|(gd0 & d0 & H1 & H2 & H3)].
    + apply HQ in Hq as [_ Hq]. apply Hq in Hc. apply (od_tys _ HO) in Hc. split; [by apply HN|done].
    + rewrite <- H3 in Hc. by eapply (od_calls _ HO).
  - intros g gd v d Hg Hv. destruct (Hk _ _ _ _ Hg Hv) as [[-> Hq]|(gd0 & d0 & H1 & H2 & H3)].
    + by apply HQ in Hq as [Hq _].
    + rewrite <- H3. by eapply (od_locals _ HO).
  - intros v d Hv Hg. apply (skm_kind _ _ _ _ S5) in Hv as (d0 & Hd0 & E). rewrite <- E in Hg.
    by eapply (od_globals _ HO).
Qed.
Lemma newest_in f : kept_in f (newest f).
Proof.
  split.
  - intros r w v w' Hr H. apply fstep_new_local in H. apply (fstep_newest _ _ _ _ H).
    intros k [-> Hk]. split; [|done]. by destruct r.
  - intros n ps w b w' H. apply fstep_new_bb in H. apply (fstep_newest _ _ _ _ H).
    intros k Hk. by destruct k.
  - intros v n w w' H. apply fstep_name in H. by apply (fstep_newest _ _ _ _ H).
  - intros b w w' H. apply fstep_push_bb in H. by apply (fstep_newest _ _ _ _ H).
  - intros b v w w' H. apply fstep_push_inst in H. by apply (fstep_newest _ _ _ _ H).
Qed.
Lemma sorted_snoc l (x : N) : StronglySorted N.lt l → (∀ y, y ∈ l → (y < x)%N) → StronglySorted N.lt (l ++ [x]).
Proof.
  induction 1 as [|a l H IH HF]; intros Hx; simpl.
  - repeat constructor.
  - constructor; [apply IH; intros; apply Hx; by right|]. apply list.Forall_app. split; [done|].
    constructor; [|constructor]. apply Hx. by left.
Qed.
Lemma olds_new_func w f i i' fd : olds w → next_fn i = next_fn (w_ids w) → next_func_id i = Some (f, i') →
  (∀ v d, vals fd !! v = Some d → is_param (v_kind d) = true) →
  newest f (World i' (Program (p_values (w_prog w)) (p_inst_layout (w_prog w))
    (<[f := fd]> (p_funcs (w_prog w))) (<[f := f_ty fd]> (p_func_tys (w_prog w)))
    (p_func_layout (w_prog w) ++ [f]))).
Proof.
  intros HO Ei Hf Hp. apply next_func_spec in Hf as (-> & Hne & ->). rewrite Ei in *.
  set (x := next_fn (w_ids w)) in *.
  assert (Hub : ub x = x) by (unfold ub; by destruct (N.eqb_spec x 0)).
  assert (Hl : ∀ y, y ∈ p_func_layout (w_prog w) → (y < x)%N).
  { intros y Hy. apply (od_below _ HO) in Hy. fold x in Hy. lia. }
  pose proof (od_fn _ HO) as Hx. fold x in Hx.
  split; simpl.
  2: { intros c [Hc|Hc%elem_of_list_singleton]%elem_of_app; [apply Hl in Hc; lia|subst; lia]. }
  split; simpl.
  - by apply N.mod_lt.
  - apply sorted_snoc; [apply HO|done].
  - rewrite ub_next by done. intros c [Hc|Hc%elem_of_list_singleton]%elem_of_app; [apply Hl in Hc; lia|subst; lia].
  - intros g. rewrite elem_of_app, elem_of_list_singleton, <- (od_funcs _ HO).
    destruct (decide (g = x)) as [-> |Hg]; [rewrite lookup_insert; split; eauto|].
    rewrite lookup_insert_ne by done. split; [by left|]. by intros [?|?].
  - intros g. rewrite elem_of_app, elem_of_list_singleton.
    destruct (decide (g = x)) as [-> |Hg]; [by right|].
    rewrite lookup_insert_ne by done. left. by apply (od_tys _ HO).
  - intros g gd v d c args Hg Hv Hc. apply lookup_insert_Some in Hg as [[<- <-]|[_ Hg]].
    + apply Hp in Hv. by rewrite Hc in Hv.
    + destruct (od_calls _ HO _ _ _ _ _ _ Hg Hv Hc). split; [done|]. apply elem_of_app. by left.
  - intros g gd v d Hg Hv. apply lookup_insert_Some in Hg as [[<- <-]|[_ Hg]].
    + apply Hp in Hv. by destruct (v_kind d).
    + by eapply (od_locals _ HO).
  - apply HO.
Qed.
Lemma new_func_args_kinds ps : ∀ i idx g vs i' g',
  new_func_args i idx ps g = Some (vs, i', g') → next_fn i' = next_fn i ∧
  ∀ x d', d_values g' !! x = Some d' → is_param (v_kind d') = true ∨
    ∃ d, d_values g !! x = Some d ∧ v_kind d = v_kind d'.
Proof.
  induction ps as [|[n t] ps IH]; intros i idx g vs i' g' H; simpl in H.
  - injection H as <- <- <-. split; [done|]. eauto.
  - apply bind_Some in H as ([[[v i1] gs1] g1] & H1 & H).
    apply bind_Some in H as (g2 & H2 & H).
    apply bind_Some in H as ([[vs3 i3] g3] & H3 & H). injection H as <- <- <-.
    apply new_leaf in H1 as (Hi & -> & Eb & Ev); [|done|done].
    apply next_local_spec in Hi as (_ & _ & ->).
    apply set_value_name_sk in H2 as [E2 _].
    apply IH in H3 as (F2 & F3). split; [done|].
    intros x d' Hx. destruct (F3 x d' Hx) as [?|(d & Hd' & E)]; [by left|].
    apply (skm_kind _ _ _ _ E2) in Hd' as (d1 & Hd1 & E1). rewrite Ev in Hd1.
    apply lookup_insert_Some in Hd1 as [[<- <-]|[_ Hd1]]; [left; by rewrite <- E, <- E1|].
    right. exists d1. split; [done|congruence].
Qed.
Lemma olds_kept : kept olds newest.
Proof.
  split.
  - intros r w v w' Hr H HO.
    unfold w_new_global, w_new_global_data, global_insert_value, prog_new_value_data in H.
    apply bind_Some in H as (d & _ & H). apply bind_Some in H as ([[v1 i1] p1] & H & E). injection E as <- <-.
    apply bind_Some in H as ([[v' i'] p'] & H & E). injection E as -> -> <-.
    apply bind_Some in H as ([v' i'] & Hi & H). apply bind_Some in H as (gs & Hg & E). injection E as -> -> <-.
    unfold next_global_value_id in Hi. destruct (fetch_add1 (next_gv (w_ids w))) as [id c].
    apply bind_Some in Hi as (id1 & _ & E). injection E as _ <-.
    apply upd_guses_sk in Hg as [Hg _].
    destruct HO as [O1 O2 O3 O4 O5 O6 O7 O8].
    assert (Hv : ∀ x y, <[v1 := d]> gs !! x = Some y → is_global_alloc (v_kind y) = true →
      x ∈ p_inst_layout (w_prog w) ∨ (x = v1 ∧ y = d)).
    { intros x y Hx Hy. apply lookup_insert_Some in Hx as [[<- <-]|[_ Hx]]; [by right|left].
      apply (skm_kind _ _ _ _ Hg) in Hx as (y0 & Hy0 & E). rewrite <- E in Hy. by eapply O8. }
    destruct (is_global_alloc (v_kind d)) eqn:Eg; split; simpl; try done.
    + intros x y Hx Hy. apply elem_of_app. destruct (Hv x y Hx Hy) as [?|[-> ->]]; [by left|right; by left].
    + intros x y Hx Hy. destruct (Hv x y Hx Hy) as [?|[-> ->]]; [done|]. by rewrite Eg in Hy.
  - intros v n w w' H HO. unfold w_name_global, prog_set_value_name in H.
    apply bind_Some in H as (p1 & H & E). injection E as <-.
    apply bind_Some in H as (d & Hd & H). apply bind_Some in H as (d' & Hd' & E). injection E as <-.
    destruct HO as [O1 O2 O3 O4 O5 O6 O7 O8]. split; simpl; try done.
    intros x y Hx Hy. apply lookup_insert_Some in Hx as [[<- <-]|[_ Hx]]; [|by eapply O8].
    apply (O8 v d Hd). unfold set_name in Hd'. destruct (valid_opt_name n); [|done]. by injection Hd' as <-.
  - intros n ps r w f w' H HO. unfold w_new_func_decl, prog_new_func_decl, prog_new_func in H.
    apply bind_Some in H as ([[f1 i1] p1] & H & E). injection E as <- <-.
    apply bind_Some in H as (d & H1 & H). apply bind_Some in H as ([f' i3] & H2 & E). injection E as <- <- <-.
    unfold fdata_new_decl in H1. apply bind_Some in H1 as ([] & _ & E). injection E as <-.
    eapply (proj1 (olds_new_func _ _ _ _ _ HO eq_refl H2 _)).
    Unshelve. intros v d. simpl. by rewrite lookup_empty.
  - intros n ps r w f w' H HO. unfold w_new_func_def, prog_new_func_def, prog_new_func in H.
    apply bind_Some in H as ([[f1 i1] p1] & H & E). injection E as <- <-.
    apply bind_Some in H as ([d i2] & H1 & H). apply bind_Some in H as ([f' i3] & H2 & E). injection E as <- <- <-.
    unfold fdata_with_param_names in H1.
    apply bind_Some in H1 as ([] & _ & H1). apply bind_Some in H1 as ([[vs i4] g4] & Ha & E). injection E as <- <-.
    apply new_func_args_kinds in Ha as [F1 F2].
    eapply olds_new_func; [done|exact F1|done|]. simpl. intros v d Hv.
    destruct (F2 v d Hv) as [?|(d0 & Hd0 & _)]; [done|]. simpl in Hd0; by rewrite lookup_empty in Hd0.
  - apply newest_in.
  - by intros f w [H _].
Qed.
Lemma olds0 : olds world0.
Proof.
  split; simpl; try done; try (intros; by rewrite ?lookup_empty in *).
  - constructor.
  - intros f Hf. inversion Hf.
  - intros f. rewrite lookup_empty. split; [by intros []|]. intros Hf; inversion Hf.
  - intros f [? Hf]. by rewrite lookup_empty in Hf.
Qed.
Lemma built_olds ts b : builds (bstate0 ids0 0 0) ts b → olds (b_world b).
Proof. intros H. exact (builds_kept _ _ olds_kept _ _ _ H olds0). Qed.
Lemma read_olds r p n b : read_program r = (Rok p, n, b) → ∃ w, olds w ∧ w_prog w = p.
Proof. intros H. exact (read_kept _ _ olds_kept _ _ _ _ H olds0). Qed.
