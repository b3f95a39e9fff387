(** The numbers of the values of a program of the front end. *)
From Coq Require Import Lia ZifyBool ZifyNat ZifyN.
From Verif Require Import Base IdModel TypeModel IrModel LayoutModel BuilderModel WorldModel
  LexerModel ParserModel ParserSpec ParserProofs FrontModel DriverModel UsesSpec DfgSpec WorldSpec DfgProofs WorldProofs SkelProofs
  EqHistory TypingSpec TypingProofs TypingHistory HistoryProofs ParamProofs DriverSpec DriverProofs PresProofs OrderProofs FrontShapeProofs
  FlowSpec FoldSpec DceProperties.

(** The parameters of functions are values of the functions. *)
Definition params_alive (w : world) : Prop := ∀ f fd v, p_funcs (w_prog w) !! f = Some fd → v ∈ f_params fd → is_Some (vals fd !! v).
Lemma alive_dfg f fd w i' gs' g' : p_funcs (w_prog w) !! f = Some fd → (∀ v, is_Some (vals fd !! v) → is_Some (d_values g' !! v)) →
  params_alive w → params_alive (World i' (set_func (set_values (w_prog w) gs') f (set_dfg fd g'))).
Proof.
  intros Hf Hm HP g gd v Hg Hv. simpl in Hg. apply lookup_insert_Some in Hg as [[<- <-]|[_ Hg]]; [|by eapply HP].
  apply Hm. by apply (HP f fd v).
Qed.
Lemma alive_skm (m m' : gmap N vdata) v : (is_Some (skm m !! v) → is_Some (skm m' !! v)) → is_Some (m !! v) → is_Some (m' !! v).
Proof. rewrite !lookup_fmap, !fmap_is_Some. done. Qed.
Lemma new_block_args_alive ps : ∀ i gs idx g vs i' gs' g', new_block_args i gs idx ps g = Some (vs, i', gs', g') →
  ∀ v, is_Some (d_values g !! v) → is_Some (d_values g' !! v).
Proof.
  induction ps as [|[n t] ps IH]; intros i gs idx g vs i' gs' g' H v Hv; simpl in H.
  - by injection H as <- <- <- <-.
  - apply bind_Some in H as (d & Hd & H).
    apply bind_Some in H as ([[[v1 i1] gs1] g1] & H1 & H).
    apply bind_Some in H as ([[[vs2 i2] gs2] g2] & H2 & H). injection H as <- <- <- <-.
    assert (d = VData t n (KBlockArg idx) ∅) as ->.
    { unfold set_name in Hd. destruct (valid_opt_name n); [|done]. by injection Hd as <-. }
    apply new_leaf in H1 as (_ & -> & _ & Ev); [|done|done].
    apply (IH _ _ _ _ _ _ _ _ H2). rewrite Ev. destruct (decide (v = v1)) as [->|]; [by rewrite lookup_insert; eauto|].
    by rewrite lookup_insert_ne.
Qed.
Lemma new_func_args_alive ps : ∀ i idx g vs i' g', new_func_args i idx ps g = Some (vs, i', g') →
  ∀ v, is_Some (d_values g !! v) ∨ v ∈ vs → is_Some (d_values g' !! v).
Proof.
  induction ps as [|[n t] ps IH]; intros i idx g vs i' g' H v Hv; simpl in H.
  - injection H as <- <- <-. destruct Hv as [?|Hv]; [done|by apply elem_of_nil in Hv].
  - apply bind_Some in H as ([[[v1 i1] gs1] g1] & H1 & H).
    apply bind_Some in H as (g2 & H2 & H).
    apply bind_Some in H as ([[vs3 i3] g3] & H3 & H). injection H as <- <- <-.
    apply new_leaf in H1 as (_ & -> & _ & Ev); [|done|done].
    apply set_value_name_sk in H2 as [E2 _]. apply (IH _ _ _ _ _ _ H3).
    destruct Hv as [Hv|[->|Hv]%elem_of_cons]; [left|left|by right].
    + revert Hv. apply alive_skm. rewrite E2, Ev, fmap_insert. destruct (decide (v = v1)) as [->|]; [by rewrite lookup_insert; eauto|].
      by rewrite lookup_insert_ne.
    + assert (is_Some (skm (d_values g2) !! v1)) as Hs by (rewrite E2, Ev, fmap_insert, lookup_insert; eauto).
      rewrite lookup_fmap in Hs. by apply fmap_is_Some in Hs.
Qed.
Lemma alive_in f : kept_in f params_alive.
Proof.
  split.
  - intros r w v w' _ H. apply on_dfg_inv in H as (fd & i' & gs' & g' & Hf & H & ->). apply bind_Some in H as (d & Hd & H).
    apply new_value_sk in H as (_ & _ & E2 & _ & _). apply alive_dfg; [done|]. intros x. apply alive_skm. rewrite E2.
    destruct (decide (x = v)) as [->|]; [by rewrite lookup_insert; eauto|]. by rewrite lookup_insert_ne.
  - intros n ps w b w' H. apply on_dfg_inv in H as (fd & i' & gs' & g' & Hf & H & ->).
    unfold basic_block_with_param_names in H.
    apply bind_Some in H as ([] & _ & H). apply bind_Some in H as ([] & _ & H).
    apply bind_Some in H as ([[[vs i1] gs1] g1] & Ha & H).
    apply bind_Some in H as ([[b1 i2] g2] & Hb & H). injection H as <- <- <- <-.
    unfold dfg_new_bb_data in Hb. apply bind_Some in Hb as ([b2 i3] & Hid & Hb). injection Hb as _ _ <-.
    apply alive_dfg; [done|]. simpl. by eapply new_block_args_alive.
  - intros v n w w' H. unfold w_name_local in H. apply bind_Some in H as ([[] w1] & H & E). injection E as ->.
    apply on_dfg_inv in H as (fd & i' & gs' & g' & Hf & H & ->).
    apply bind_Some in H as (g1 & H & E). injection E as <- <- <-.
    apply set_value_name_sk in H as [E _]. apply alive_dfg; [done|]. intros x. apply alive_skm. by rewrite E.
  - intros b w w' H HP. unfold w_push_bb in H. apply bind_Some in H as (fd & Hf & H).
    apply bind_Some in H as ([l|] & _ & H); [|done]. injection H as <-. intros g gd v Hg Hv. simpl in Hg.
    apply lookup_insert_Some in Hg as [[<- <-]|[_ Hg]]; [by apply (HP f fd v)|by eapply HP].
  - intros b v0 w w' H HP. unfold w_push_inst in H. apply bind_Some in H as (fd & Hf & H).
    apply bind_Some in H as ([l|] & _ & H); [|done]. injection H as <-. intros g gd v Hg Hv. simpl in Hg.
    apply lookup_insert_Some in Hg as [[<- <-]|[_ Hg]]; [by apply (HP f fd v)|by eapply HP].
Qed.
Lemma alive_kept : kept params_alive (λ _, params_alive).
Proof.
  split.
  - intros r w v w' Hr H HP.
    unfold w_new_global, w_new_global_data, global_insert_value, prog_new_value_data in H.
    apply bind_Some in H as (d & _ & H). apply bind_Some in H as ([[v1 i1] p1] & H & E). injection E as <- <-.
    apply bind_Some in H as ([[v' i'] p'] & H & E). injection E as -> -> <-.
    apply bind_Some in H as ([v' i'] & Hi & H). apply bind_Some in H as (gs & Hg & E). injection E as -> -> <-.
    destruct (is_global_alloc (v_kind d)); exact HP.
  - intros v n w w' H HP. unfold w_name_global, prog_set_value_name in H.
    apply bind_Some in H as (p1 & H & E). injection E as <-.
    apply bind_Some in H as (d & Hd & H). apply bind_Some in H as (d' & Hd' & E). injection E as <-. exact HP.
  - intros n ps r w f w' H HP. unfold w_new_func_decl, prog_new_func_decl, prog_new_func in H.
    apply bind_Some in H as ([[f1 i1] p1] & H & E). injection E as <- <-.
    apply bind_Some in H as (d & H1 & H). apply bind_Some in H as ([f' i3] & H2 & E). injection E as <- <- <-.
    unfold fdata_new_decl in H1. apply bind_Some in H1 as ([] & _ & E). injection E as <-.
    intros g gd v Hg Hv. simpl in Hg. apply lookup_insert_Some in Hg as [[<- <-]|[_ Hg]]; [by apply elem_of_nil in Hv|by eapply HP].
  - intros n ps r w f w' H HP. unfold w_new_func_def, prog_new_func_def, prog_new_func in H.
    apply bind_Some in H as ([[f1 i1] p1] & H & E). injection E as <- <-.
    apply bind_Some in H as ([d i2] & H1 & H). apply bind_Some in H as ([f' i3] & H2 & E). injection E as <- <- <-.
    unfold fdata_with_param_names in H1.
    apply bind_Some in H1 as ([] & _ & H1). apply bind_Some in H1 as ([[vs i4] g4] & Ha & E). injection E as <- <-.
    intros g gd v Hg Hv. simpl in Hg. apply lookup_insert_Some in Hg as [[<- <-]|[_ Hg]]; [|by eapply HP].
    simpl in *. apply (new_func_args_alive _ _ _ _ _ _ _ Ha). by right.
  - apply alive_in.
  - done.
Qed.
Lemma read_params r p n b : read_program r = (Rok p, n, b) → ∀ f fd v, p_funcs p !! f = Some fd → v ∈ f_params fd → is_Some (vals fd !! v).
Proof.
  intros H. destruct (read_kept _ _ alive_kept _ _ _ _ H) as (w & Hw & <-); [|exact Hw].
  intros f fd v Hf. simpl in Hf. by rewrite lookup_empty in Hf.
Qed.

(** When the front end is done, the numbers that are given next are not in use. *)
Lemma read_unused r p n b s ts s' :
  read_program r = (Rok p, n, b) → driver_new r = (Rok s, 0%N) → parses s ts s' →
  (foldr (λ t n, globals_in t + n) 0 ts < local_value_id_starts_from)%N →
  numbers_unused (w_ids (b_world b)) p.
Proof.
  intros Hr Hd Hp Hg. pose proof (read_params _ _ _ _ Hr) as Hpar. unfold read_program in Hr. rewrite Hd in Hr.
  destruct (generate_ok _ _ _ _ _ _ _ _ _ Hd Hr) as (_ & _ & s1 & ts' & s2 & E & Hp' & _ & _ & _ & Hb & _ & ->).
  injection E as <-. assert (ts' = ts) as -> by (by eapply parses_det).
  destruct (builds_evolves _ _ _ Hb) as (os & F & R & G).
  assert (E : er (b_world (bstate0 ids0 0 0)) = world0).
  { unfold er, er_prog. simpl. by rewrite fmap_empty. }
  rewrite E in R.
  assert (G' : (globals_created os < local_value_id_starts_from)%N) by lia.
  destruct (reach_winv os _ R (fe_tidy _ F _) G') as (F' & HW & _). clear R G G' Hg Hp Hp' Hr Hd.
  pose proof (wi_lv _ _ _ HW) as [L1 L2]. change (w_ids (er (b_world b))) with (w_ids (b_world b)) in *.
  destruct (N.eq_dec (next_lv (w_ids (b_world b))) 0) as [|Hne]; [by left|right]. split; [done|].
  assert (ub (next_lv (w_ids (b_world b))) = next_lv (w_ids (b_world b))) as Hub by (unfold ub; destruct (N.eqb_spec (next_lv (w_ids (b_world b))) 0); done).
  rewrite Hub in *.
  assert (∀ f fd v, p_funcs (w_prog (b_world b)) !! f = Some fd → is_Some (vals fd !! v) → (v < next_lv (w_ids (b_world b)))%N) as Hloc.
  { intros f fd v Hf Hv. assert (F' !! f = Some (er_fd fd)) as Hf'.
    { eapply lookup_weaken; [|apply (wi_sub _ _ _ HW)]. simpl. by rewrite lookup_fmap, Hf. }
    pose proof (wi_lid _ _ _ HW _ _ v Hf' Hv). rewrite Hub in *. lia. }
  intros v [Hv|(f & fd & Hf & [Hv|Hv])].
  - pose proof (wi_gid _ _ _ HW v Hv). pose proof (wi_gv _ _ _ HW). lia.
  - by eapply Hloc.
  - eapply Hloc; [exact Hf|]. by eapply Hpar.
Qed.
