(** The front end accepts well-formed texts (C49): operands and instructions. *)
From Coq Require Import Lia ZifyBool ZifyNat ZifyN.
From Verif Require Import Base IdModel TypeModel IrModel LayoutModel BuilderModel WorldModel
  LexerModel ParserModel ParserSpec FrontModel FrontProofs FlowSpec FlowProofs BlockListProofs
  CleanProofs BuildCleanProofs FunCleanProofs DriverModel DriverSpec DriverProofs UsesSpec UsesProofs
  DfgSpec DfgProofs WorldSpec WorldProofs TypingSpec TypingProofs TypingHistory EqHistory SkelProofs ParamProofs HistoryProofs
  FaithSpec RoundProofs ViewProofs FaithProofs AcceptSpec.

(** ** Types *)
Lemma type_gen a : ∀ t, type_of a t → gen_type a = Some t.
Proof.
  induction a as [|b n IH|b IH|ps r IHps IHr] using aty_ind'; intros t H; inversion H; subst; cbn [gen_type].
  - done.
  - rewrite (IH _ ltac:(eassumption)). simpl. unfold get_array. by destruct (N.eqb_spec n 0).
  - by rewrite (IH _ ltac:(eassumption)).
  - rewrite gen_types_eq. replace (gen_types ps) with (Some ts); [done|]. symmetry.
    match goal with H : Forall2 _ ps ts |- _ => revert H end. clear -IHps. revert ts.
    induction IHps as [|a l Ha _ IH]; intros ts F; inversion F; subst; [done|]. cbn [gen_types].
    rewrite (Ha _ ltac:(eassumption)). simpl. by rewrite (IH _ ltac:(eassumption)).
  - rewrite gen_types_eq. replace (gen_types ps) with (Some ts).
    + simpl. by rewrite (IHr _ eq_refl _ ltac:(eassumption)).
    + symmetry. match goal with H : Forall2 _ ps ts |- _ => revert H end. clear -IHps. revert ts.
      induction IHps as [|a l Ha _ IH]; intros ts F; inversion F; subst; [done|]. cbn [gen_types].
      rewrite (Ha _ ltac:(eassumption)). simpl. by rewrite (IH _ ltac:(eassumption)).
Qed.
Lemma types_gen l ts : Forall2 type_of l ts → gen_types l = Some ts.
Proof. induction 1 as [|a t l ts H _ IH]; [done|]. cbn [gen_types]. rewrite (type_gen _ _ H). simpl. by rewrite IH. Qed.
Lemma ret_gen r t : ret_of r t → gen_ret r = Some t.
Proof. destruct r; simpl; [apply type_gen|by intros ->]. Qed.
Lemma type_not_unit a t : type_of a t → t ≠ TUnit.
Proof. by inversion 1. Qed.
Lemma type_fun a t t' : type_of a t → type_of a t' → t = t'.
Proof. intros H%type_gen H'%type_gen. congruence. Qed.
Lemma types_fun l ts ts' : Forall2 type_of l ts → Forall2 type_of l ts' → ts = ts'.
Proof. intros H%types_gen H'%types_gen. congruence. Qed.
Lemma params_gen (ps : list (string * aty)) (Ty : string → ty) : (∀ n a, (n, a) ∈ ps → type_of a (Ty n)) →
  gen_params ps = Some (map (λ p, (opt_name p.1, Ty p.1)) ps) ∧ Forall2 type_of (map snd ps) (map (λ p, Ty p.1) ps).
Proof.
  induction ps as [|[n a] ps IH]; intros H; [by split; [|constructor]|]. cbn [gen_params map].
  destruct IH as [IH1 IH2]; [intros; apply H; by right|].
  assert (type_of a (Ty n)) as Ha by (apply H; by left). rewrite (type_gen _ _ Ha). simpl. rewrite IH1. split; [done|].
  by constructor.
Qed.
Lemma init_not_unit i t : init_of i t → t ≠ TUnit.
Proof. by destruct 1. Qed.

(** ** Clean runs *)
Lemma goes_mthen {A B} (m : F A) (k : A → F B) s a s1 b s2 : clean m s a s1 → clean (k a) s1 b s2 → clean (mthen m k) s b s2.
Proof. intros [H1 E1] [H2 E2]. split; [|congruence]. unfold mthen. by rewrite H1. Qed.
Lemma goes_mok {A} (a : A) s : clean (mok a) s a s.
Proof. done. Qed.
Lemma goes_some {A} (o : option A) a s : o = Some a → clean (b_some o) s a s.
Proof. by intros ->. Qed.
Lemma goes_prog {A} (f : world → option (A * world)) s a w : f (b_world s) = Some (a, w) → clean (b_prog f) s a (set_world w s).
Proof. unfold clean, b_prog. by intros ->. Qed.
Lemma goes_prog_ (f : world → option world) s w : f (b_world s) = Some w → clean (b_prog_ f) s tt (set_world w s).
Proof. unfold clean, b_prog_. by intros ->. Qed.
Lemma goes_upd f s : b_errs (f s) = b_errs s → clean (b_upd f) s tt (f s).
Proof. done. Qed.

(** ** Counters *)
(** [k] more values, blocks and functions can be made. *)
Definition left_in (k : N) (i : ids) : Prop :=
  (0 < next_lv i ∧ next_lv i + k < two32 ∧ 0 < next_bb i ∧ next_bb i + k < two32 ∧
   0 < next_fn i ∧ next_fn i + k < two32)%N.
Notation left_ k s := (left_in k (w_ids (b_world s))).
Lemma left_mono k k' i : (k' ≤ k)%N → left_in k i → left_in k' i.
Proof. unfold left_in. lia. Qed.
Lemma left_lv k i : left_in (1 + k) i → ∃ v i', next_local_value_id i = Some (v, i') ∧ left_in k i' ∧ next_gv i' = next_gv i.
Proof.
  intros (H1 & H2 & H3 & H4 & H5 & H6). unfold next_local_value_id, fetch_add1, new_unchecked.
  destruct (N.eqb_spec (next_lv i) 0); [lia|]. eexists _, _. split; [reflexivity|]. split; [|done].
  unfold left_in. simpl. rewrite N.mod_small by lia. lia.
Qed.
Lemma left_bb k i : left_in (1 + k) i → ∃ v i', next_bb_id i = Some (v, i') ∧ left_in k i' ∧ next_gv i' = next_gv i.
Proof.
  intros (H1 & H2 & H3 & H4 & H5 & H6). unfold next_bb_id, fetch_add1, new_unchecked.
  destruct (N.eqb_spec (next_bb i) 0); [lia|]. eexists _, _. split; [reflexivity|]. split; [|done].
  unfold left_in. simpl. rewrite N.mod_small by lia. lia.
Qed.
Lemma left_fn k i : left_in (1 + k) i → ∃ v i', next_func_id i = Some (v, i') ∧ left_in k i' ∧ next_gv i' = next_gv i.
Proof.
  intros (H1 & H2 & H3 & H4 & H5 & H6). unfold next_func_id, fetch_add1, new_unchecked.
  destruct (N.eqb_spec (next_fn i) 0); [lia|]. eexists _, _. split; [reflexivity|]. split; [|done].
  unfold left_in. simpl. rewrite N.mod_small by lia. lia.
Qed.

(** ** New values *)
Notation views := (gmap N (option string * (ty * vkind))).
(** What a new value can refer to: global values [Gs], functions of types [Fs], and what is in
    the function *)
Definition venv (Gs : views) (Fs : gmap N ty) (x : fview) : env :=
  Env (λ v, (λ y, y.2.1) <$> (Gs ∪ w_vals x) !! v)
      (λ v, match (Gs ∪ w_vals x) !! v with Some y => is_const y.2.2 | None => false end)
      (λ b, snd <$> w_bbs x !! b) (λ g, Fs !! g).
Notation fts w := (w_fty <$> fvs w).
Lemma goes_new f x r t k s : fvs (b_world s) !! f = Some x → room 0 (b_world s) → LReq r → left_ (1 + k) s →
  has_type (venv (gvs (b_world s)) (fts (b_world s)) x) (requested r) t → requested_ty r t →
  ∃ v s', clean (new_local f r) s v s' ∧ mv f x s (<[v := (None, (t, requested r))]> (w_vals x)) s' ∧
    w_vals x !! v = None ∧ is_global_id v = false ∧ left_ k s'.
Proof.
  intros Hx R Hr Hk Ht Hty. destruct (left_lv _ _ Hk) as (v & i' & Hi & Hk' & _).
  pose proof Hx as Hf. rewrite lookup_fmap in Hf. apply fmap_Some in Hf as (fd & Hf & ->).
  set (p := w_prog (b_world s)) in *.
  assert (Hfst : ∀ g, p_func_tys p !! g = f_ty <$> p_funcs p !! g) by (intros g; by eapply room_tys).
  assert (Hb : build (local_querier (p_values p) (p_func_tys p) (f_dfg fd)) r = Some (new_vdata t (requested r))).
  { apply build_complete; [apply q_ok_local| |done]. eapply has_type_ext; [..|exact Ht].
    - intros u. simpl. unfold dfg_data. rewrite <- map_fmap_union, lookup_fmap. destruct (p_values p !! u) as [d|] eqn:E.
      + by rewrite (lookup_union_Some_l _ _ _ _ E).
      + rewrite lookup_union_r by done. by destruct (vals fd !! u).
    - intros u. simpl. unfold dfg_data. rewrite <- map_fmap_union, lookup_fmap. destruct (p_values p !! u) as [d|] eqn:E.
      + by rewrite (lookup_union_Some_l _ _ _ _ E).
      + rewrite lookup_union_r by done. by destruct (vals fd !! u).
    - intros b. simpl. rewrite lookup_fmap. by destruct (blks fd !! b).
    - intros g. simpl. rewrite !lookup_fmap, Hfst. by destruct (p_funcs p !! g). }
  assert (Hd : vdisj (p_values p) (vals fd)).
  { intros u Hu. apply eq_None_not_Some. intros Hl. destruct (room_gv _ _ R) as [G1 G2]. apply G2 in Hu.
    destruct (room_lv _ _ R) as (_ & _ & L). destruct (L f (fv fd) u) as [L1 _]; [done|simpl; rewrite lookup_fmap; by apply fmap_is_Some|]. lia. }
  assert (Hn : ∃ gs' g', dfg_new_value_data (w_ids (b_world s)) (p_values p) (f_dfg fd) (new_vdata t (requested r)) = Some (v, i', gs', g')).
  { unfold dfg_new_value_data. rewrite Hi. simpl.
    assert (Ho : ∀ u, u ∈ value_uses (requested r) → is_Some (p_values p !! u) ∨ is_Some (vals fd !! u)).
    { intros u Hu. assert (u ∈ operands (requested r)) as Hu' by (by rewrite <- value_uses_operands || exact Hu).
      apply (has_type_operands _ _ _ Ht) in Hu'. simpl in Hu'. apply fmap_is_Some in Hu' as [y Hy].
      apply lookup_union_Some_raw in Hy as [Hy|[_ Hy]]; rewrite lookup_fmap in Hy; apply fmap_Some in Hy as (d & Hy & _); eauto. }
    destruct (upd_uses_spec (add_user v) (value_uses (requested r)) (add_user_idem v) (p_values p) (d_values (f_dfg fd)) Hd) as [[-> _]|[_ (u & Hu & N1 & N2)]].
    2: { destruct (Ho u Hu) as [[? ?]|[? ?]]; congruence. }
    simpl. destruct (upd_bb_uses_spec (add_user v) (bb_uses (requested r)) (add_user_idem v) (d_bbs (f_dfg fd))) as [[-> _]|[_ (u & Hu & N1)]].
    2: { assert (u ∈ UsesSpec.targets (requested r)) as Hu' by (by rewrite <- bb_uses_targets || exact Hu).
         apply (has_type_targets _ _ _ Ht) in Hu'. simpl in Hu'. apply fmap_is_Some in Hu' as [? Hu']. rewrite lookup_fmap in Hu'. simpl in *. by rewrite N1 in Hu'. }
    simpl. eauto. }
  destruct Hn as (gs' & g' & Hn).
  assert (Hw : w_new_local f r (b_world s) = Some (v, World i' (set_func (set_values p gs') f (set_dfg fd g')))).
  { unfold w_new_local, on_dfg. fold p. rewrite Hf. simpl. rewrite Hb. simpl. by rewrite Hn. }
  pose proof (goes_prog (w_new_local f r) s v _ Hw) as Hc. eexists v, _. split; [exact Hc|].
  pose proof (faith_new f (fv fd) r s v _ Hx R Hr Hc) as (t' & M & A1 & A2 & _).
  assert (t' = t) as ->; [|by split_and!].
  pose proof (mv_after _ _ _ _ _ M) as Ha. simpl in Ha. rewrite fmap_insert, lookup_insert in Ha. apply (inj Some) in Ha.
  apply (f_equal w_vals) in Ha. simpl in Ha. apply new_value_vim in Hn as (_ & _ & Hv & _). simpl in Ha. rewrite Hv in Ha.
  apply (f_equal (λ m : views, m !! v)) in Ha. rewrite !lookup_insert in Ha. apply (inj Some) in Ha. unfold vi in Ha. simpl in Ha. congruence.
Qed.

(** ** Runs that only make values of one function *)
Definition goes {A} (f : func) (x : fview) (m : F A) (c : N) (s : bstate) (P : views → A → Prop) : Prop :=
  ∀ k, left_ (c + k) s → ∃ a s' M, clean m s a s' ∧ mv f x s M s' ∧ left_ k s' ∧ P M a.
Lemma goes_imp {A} f x (m : F A) c c' s (P Q : views → A → Prop) : (c ≤ c')%N →
  (∀ M a, w_vals x ⊆ M → P M a → Q M a) → goes f x m c s P → goes f x m c' s Q.
Proof.
  intros Hc HPQ H k Hk. destruct (H k) as (a & s' & M & H1 & H2 & H3 & H4); [eapply left_mono; [|exact Hk]; lia|].
  exists a, s', M. split_and!; [done..|]. apply HPQ; [apply H2|done].
Qed.
Lemma goes_bind {A B} f x (m : F A) (g : A → F B) c1 c2 s P Q : goes f x m c1 s P →
  (∀ a s1 M, mv f x s M s1 → P M a → goes f (set_wvals x M) (g a) c2 s1 Q) → goes f x (mthen m g) (c1 + c2) s Q.
Proof.
  intros H1 H2 k Hk. destruct (H1 (c2 + k)%N) as (a & s1 & M & A1 & A2 & A3 & A4); [by rewrite N.add_assoc|].
  destruct (H2 _ _ _ A2 A4 k A3) as (b & s2 & M' & B1 & B2 & B3 & B4). exists b, s2, M'.
  split; [by eapply goes_mthen|]. split; [by eapply mv_trans|]. done.
Qed.
Lemma goes_still {A} f x (m : F A) a s (P : views → A → Prop) : fvs (b_world s) !! f = Some x → room 0 (b_world s) →
  clean m s a s → P (w_vals x) a → goes f x m 0 s P.
Proof. intros H1 H2 H3 H4 k Hk. exists a, s, (w_vals x). split_and!; [done|by apply mv_refl|done..]. Qed.

(** The type of a value *)
Definition vty (Gs M : views) (v : value) : option ty := (λ y, y.2.1) <$> (Gs ∪ M) !! v.
Lemma vty_mono Gs M M' v t : M ⊆ M' → vty Gs M v = Some t → vty Gs M' v = Some t.
Proof.
  intros H. unfold vty. rewrite !fmap_Some. intros (y & Hy & ->). exists y. split; [|done].
  eapply lookup_weaken; [exact Hy|]. by apply map_union_mono_l.
Qed.
Definition vcst (Gs M : views) (v : value) : Prop := ∃ y, (Gs ∪ M) !! v = Some y ∧ is_const y.2.2 = true.
Lemma vcst_mono Gs M M' v : M ⊆ M' → vcst Gs M v → vcst Gs M' v.
Proof.
  intros H (y & Hy & Hc). exists y. split; [|done]. eapply lookup_weaken; [exact Hy|]. by apply map_union_mono_l.
Qed.

(** ** What the builder knows *)
(** [gt]: the types of the global variables, [ft]: the signatures of the functions,
    [Ty]: the types of the local symbols, [bt]: the types of the parameters of the blocks. *)
Section in_fun.
Context (f : func) (Gs : views) (Fs : gmap N ty) (gt : string → ty → Prop) (ft : string → list ty → ty → Prop)
  (Ty : string → ty) (bt : string → list ty → Prop).
Record pi (x : fview) (s : bstate) : Prop := {
  pi_view : fvs (b_world s) !! f = Some x;
  pi_room : room 0 (b_world s);
  pi_Gs : gvs (b_world s) = Gs;
  pi_Fs : fts (b_world s) = Fs;
  pi_gvars : ∀ n v, b_gvars s !! n = Some v → is_global_id v = true ∧ ∃ t, gt n t ∧ vty Gs ∅ v = Some t;
  pi_gt : ∀ n t, gt n t → is_Some (b_gvars s !! n);
  pi_gt_fun : ∀ n t t', gt n t → gt n t' → t = t';
  pi_ft : ∀ n ts r, ft n ts r → ∃ c, b_gfuncs s !! n = Some c ∧ Fs !! c = Some (TFun ts r);
  pi_defs : ∀ b n v, defines (b_bbs s) b n v → is_global_id v = false ∧ ∃ y, w_vals x !! v = Some y ∧ y.2.1 = Ty n;
  pi_bt : ∀ n ts, bt n ts → ∃ i o ps, b_bbs s !! n = Some i ∧ w_bbs x !! bi_bb i = Some (o, ps) ∧
    Forall2 (λ p t, ∃ y, w_vals x !! p = Some y ∧ y.2.1 = t) ps ts;
  pi_inj : ∀ n n' i i', b_bbs s !! n = Some i → b_bbs s !! n' = Some i' → bi_bb i = bi_bb i' → n = n';
  pi_closed : preds_closed (b_bbs s);
}.
Lemma pi_mv x s M s' : pi x s → mv f x s M s' → pi (set_wvals x M) s'.
Proof.
  intros [H1 H2 H3 H4 H5 H6 H6' H7 H8 H9 H10 H11] Hm. pose proof (mv_after _ _ _ _ _ Hm) as Ha.
  destruct Hm as [[w ->] A2 A5 A3 A4]. simpl in *. destruct A3 as (B1 & B2 & B3 & _).
  constructor; try done; simpl.
  - congruence.
  - rewrite B2, fmap_insert. simpl. rewrite <- H4. apply insert_id. by rewrite lookup_fmap, B1.
  - intros b n v Hd. destruct (H8 _ _ _ Hd) as (? & y & Hy & ?). split; [done|]. exists y. split; [by eapply lookup_weaken|done].
  - intros n ts Hb. destruct (H9 _ _ Hb) as (i & o & ps & B4 & B5 & B6). exists i, o, ps. split_and!; [done..|].
    eapply list.Forall2_impl; [exact B6|]. intros p t (y & Hy & ?). exists y. split; [by eapply lookup_weaken|done].
Qed.
Lemma pi_disj x s v y : pi x s → w_vals x !! v = Some y → is_global_id v = false ∧ Gs !! v = None.
Proof.
  intros I Hv. destruct (room_lv _ _ (pi_room _ _ I)) as (_ & _ & L). destruct (L f x v (pi_view _ _ I)) as [L1 _]; [by eauto|].
  split.
  - unfold is_global_id, local_value_id_starts_from, global_value_id_starts_from in *. lia.
  - apply eq_None_not_Some. intros Hg. destruct (room_gv _ _ (pi_room _ _ I)) as [G1 G2].
    rewrite <- (pi_Gs _ _ I), lookup_fmap in Hg. apply fmap_is_Some in Hg. apply G2 in Hg. lia.
Qed.
Lemma pi_vty x s v y : pi x s → w_vals x !! v = Some y → vty Gs (w_vals x) v = Some y.2.1.
Proof.
  intros I Hv. destruct (pi_disj _ _ _ _ I Hv) as [_ Hg]. unfold vty. rewrite lookup_union_r by done. by rewrite Hv.
Qed.
Definition env_now (x : fview) : env := venv Gs Fs x.
Lemma goes_new_in x r t s (P : views → value → Prop) : pi x s → LReq r → has_type (venv Gs Fs x) (requested r) t → requested_ty r t →
  (∀ v M, M = <[v := (None, (t, requested r))]> (w_vals x) → w_vals x !! v = None → is_global_id v = false → vty Gs M v = Some t →
     ((Gs ∪ M) !! v = Some (None, (t, requested r))) → P M v) →
  goes f x (new_local f r) 1 s P.
Proof.
  intros I Hr Ht Hty HP k Hk. rewrite <- (pi_Gs _ _ I), <- (pi_Fs _ _ I) in Ht.
  destruct (goes_new f x r t k s (pi_view _ _ I) (pi_room _ _ I) Hr Hk Ht Hty) as (v & s' & A1 & A2 & A3 & A4 & A5).
  eexists v, s', _. split; [done|]. split; [exact A2|]. split; [done|].
  pose proof (pi_mv _ _ _ _ I A2) as I'. assert (Hv : w_vals (set_wvals x (<[v:=(None, (t, requested r))]> (w_vals x))) !! v = Some (None, (t, requested r))) by (simpl; by rewrite lookup_insert).
  apply HP; try done.
  - pose proof (pi_vty _ _ _ _ I' Hv) as E. simpl in E. done.
  - destruct (pi_disj _ _ _ _ I' Hv) as [_ Hg]. rewrite lookup_union_r by done. by rewrite lookup_insert.
Qed.

(** *** Constants *)
Definition typed_const (t : ty) (M : views) (v : value) : Prop := vty Gs M v = Some t ∧ vcst Gs M v.
Lemma typed_const_mono t M M' v : M ⊆ M' → typed_const t M v → typed_const t M' v.
Proof. intros H [A B]. split; [by eapply vty_mono|by eapply vcst_mono]. Qed.
Lemma goes_init i : ∀ t x s, init_of i t → pi x s → goes f x (gen_local_init f t i) (init_nodes i) s (typed_const t).
Proof.
  assert (Hnew : ∀ x s r t, pi x s → LReq r → is_const (requested r) = true → has_type (venv Gs Fs x) (requested r) t → requested_ty r t →
    goes f x (new_local f r) 1 s (typed_const t)).
  { intros x s r t I Hr Hc Ht Hq. eapply goes_new_in; [done..|]. intros v M -> _ _ Hv Hy. split; [done|]. by eexists. }
  unfold gen_local_init. induction i as [z| | |l IH] using ainit_ind'; intros t x s H I; cbn [gen_init init_nodes]; inversion H; subst.
  - simpl. apply Hnew; [done..|constructor|done].
  - apply Hnew; [done..|by constructor|done].
  - apply Hnew; [done..|by constructor|done].
  - rewrite N.eqb_refl. rename select (Forall _ l) into HF. rename t0 into t.
    assert (Hl : ∀ x s, pi x s → goes f x (b_map (gen_init (new_local f) t) l) (foldr (λ i n, init_nodes i + n)%N 0%N l) s (λ M vs, length vs = length l ∧ Forall (typed_const t M) vs)).
    { clear -IH HF Hnew. induction IH as [|i l Hi _ IHl]; intros x s I; cbn [b_map foldr].
      - eapply goes_still; [apply I|apply I|apply goes_mok|done].
      - apply list.Forall_cons in HF as [HF1 HF2]. eapply goes_bind; [by apply Hi|]. intros v s1 M Hm Hv.
        pose proof (pi_mv _ _ _ _ I Hm) as I1. rewrite <- (N.add_0_r (foldr _ _ _)).
        eapply goes_bind; [by apply IHl|]. intros vs s2 M2 Hm2 [Hvs1 Hvs2].
        pose proof (pi_mv _ _ _ _ I1 Hm2) as I2.
        eapply goes_still; [apply I2|apply I2|apply goes_mok|]. simpl. split; [by rewrite Hvs1|]. constructor; [|done].
        eapply typed_const_mono; [|done]. apply Hm2. }
    apply (goes_imp f x _ (0 + (foldr (λ i n, init_nodes i + n)%N 0%N l + 1)) _ s (typed_const (TArray t (N.of_nat (length l))))); [lia|done|].
    eapply goes_bind. { eapply goes_still; [apply I|apply I|apply goes_mok|]. instantiate (1 := λ M _, M = w_vals x). done. }
    intros _ s1 M Hm ->. pose proof (pi_mv _ _ _ _ I Hm) as I1. eapply goes_bind; [by apply Hl|]. intros vs s2 M2 Hm2 [Hvs1 Hvs2].
    pose proof (pi_mv _ _ _ _ I1 Hm2) as I2. rewrite <- Hvs1. apply Hnew; [done..| |done].
    constructor; [by destruct vs, l|done|]. intros e He. rewrite list.Forall_forall in Hvs2. destruct (Hvs2 e He) as [E1 (y & E2 & E3)].
    simpl. split; [exact E1|]. rewrite E2. done.
Qed.

(** *** Symbols *)
(** The symbols [V] can be used in the block [bb]. *)
Definition sees (V : string → ty → Prop) (bb : string) (s : bstate) : Prop :=
  is_Some (b_bbs s !! bb) ∧ ∀ n t, V n t → gt n t ∨ (∀ t', ¬ gt n t') ∧ t = Ty n ∧ ∃ v, visible (b_bbs s) bb n v.
Lemma sees_mv V bb x s M s' : sees V bb s → mv f x s M s' → sees V bb s'.
Proof. intros H [[w ->] _ _ _ _]. done. Qed.
Context (V : string → ty → Prop) (bb : string).
Lemma goes_symbol x s n t : pi x s → sees V bb s → V n t →
  ∃ v, clean (gen_symbol bb n) s v s ∧ vty Gs (w_vals x) v = Some t ∧ clean (value_ty f v) s t s.
Proof.
  intros I [Hbb HV] Hn. destruct (HV _ _ Hn) as [Hg|(Hg & -> & u & Hu)].
  - destruct (pi_gt _ _ I _ _ Hg) as [v Hv]. destruct (pi_gvars _ _ I _ _ Hv) as (Hid & t' & Ht & Hty).
    assert (t' = t) as -> by (by eapply (pi_gt_fun _ _ I)). exists v. split.
    { split; [|done]. unfold gen_symbol. by rewrite Hv. }
    split; [eapply vty_mono; [|done]; apply map_empty_subseteq|]. unfold value_ty.
    split; [|done]. rewrite Hid. unfold vty in Hty. rewrite map_union_empty, <- (pi_Gs _ _ I), lookup_fmap in Hty.
    destruct (p_values (w_prog (b_world s)) !! v) as [d|]; [|done]. simpl in *. injection Hty as ->. done.
  - assert (b_gvars s !! n = None) as Hnone.
    { apply eq_None_not_Some. intros [v Hv]. destruct (pi_gvars _ _ I _ _ Hv) as (_ & t' & Ht & _). by eapply Hg. }
    destruct (gen_symbol_spec bb n s (pi_closed _ _ I) Hbb Hnone) as [(v & Hv & b & _ & Hd)|[_ Hno]]; [|by destruct (Hno u)].
    destruct (pi_defs _ _ I _ _ _ Hd) as (Hid & y & Hy & Et). exists v. split; [done|]. split.
    + rewrite <- Et. by eapply pi_vty.
    + split; [|done]. unfold value_ty. rewrite Hid. pose proof (pi_view _ _ I) as Hx. rewrite lookup_fmap in Hx. apply fmap_Some in Hx as (fd & -> & ->).
      simpl in *. rewrite lookup_fmap in Hy. destruct (d_values (f_dfg fd) !! v) as [d|]; [|done]. simpl in *. injection Hy as <-. simpl in Et. by rewrite Et.
Qed.
Lemma goes_at x s {A} (m : F A) a c P : pi x s → clean m s a s → (P (w_vals x) a : Prop) → goes f x m c s P.
Proof.
  intros I H HP. eapply (goes_imp f x m 0 c s P P); [lia|done|]. eapply goes_still; [apply I|apply I|done|done].
Qed.
(** After steps that change nothing *)
Lemma goes_after x s {A B} (m : F A) (g : A → F B) a c P : clean m s a s → goes f x (g a) c s P → goes f x (mthen m g) c s P.
Proof.
  intros H Hg k Hk. destruct (Hg k Hk) as (b & s' & M & A1 & A2). exists b, s', M. split; [by eapply goes_mthen|done].
Qed.
Lemma goes_sym_value x s n t : pi x s → sees V bb s → V n t → goes f x (gen_sym_value f bb t n) 0 s (λ M v, vty Gs M v = Some t).
Proof.
  intros I HV Hn. destruct (goes_symbol x s n t I HV Hn) as (v & H1 & H2 & H3). unfold gen_sym_value.
  eapply goes_after; [exact H1|]. eapply goes_after; [exact H3|]. rewrite eqb_refl_ty. eapply goes_at; [done|apply goes_mok|done].
Qed.
Lemma goes_value x s a t : pi x s → sees V bb s → val_of V a t → goes f x (gen_value f bb t a) (val_size a) s (λ M v, vty Gs M v = Some t).
Proof.
  intros I HV Ha. destruct a as [n|z|]; cbn [gen_value val_of val_size] in *.
  - by apply goes_sym_value.
  - eapply goes_imp; [reflexivity| |apply goes_init]; [by intros M v _ []|subst; constructor|done].
  - eapply goes_imp; [reflexivity| |apply goes_init]; [by intros M v _ []|by constructor|done].
Qed.
Definition stored_size (a : astore) : N := match a with SvSym _ => 0 | SvInit i => init_nodes i end.
Lemma goes_store_value x s a t : pi x s → sees V bb s → stored_of V a t → goes f x (gen_store_value f bb t a) (stored_size a) s (λ M v, vty Gs M v = Some t).
Proof.
  intros I HV Ha. destruct a as [n|i]; cbn [gen_store_value stored_of stored_size] in *.
  - by apply goes_sym_value.
  - eapply goes_imp; [reflexivity| |by apply goes_init]; by intros M v _ [].
Qed.
Lemma goes_args args : ∀ ts x s, pi x s → sees V bb s → Forall2 (val_of V) args ts →
  goes f x (gen_args f bb args ts) (sum_of val_size args) s (λ M vs, Forall2 (λ t v, vty Gs M v = Some t) ts vs).
Proof.
  induction args as [|a args IH]; intros ts x s I HV HF; inversion HF; subst; unfold gen_args; cbn [zip zip_with b_map sum_of foldr fst snd].
  - eapply goes_at; [done|apply goes_mok|constructor].
  - eapply goes_bind; [by eapply goes_value|]. intros v s1 M Hm Hv.
    pose proof (pi_mv _ _ _ _ I Hm) as I1. pose proof (sees_mv _ _ _ _ _ _ HV Hm) as HV1. rewrite <- (N.add_0_r (foldr _ _ _)).
    eapply goes_bind; [by apply IH|]. intros vs s2 M2 Hm2 Hvs. pose proof (pi_mv _ _ _ _ I1 Hm2) as I2.
    eapply goes_at; [done|apply goes_mok|]. simpl. constructor; [|done]. eapply vty_mono; [|exact Hv]. apply Hm2.
Qed.

(** *** Instructions *)
(** [v] is a new value of type [t]. *)
Definition new_of (x : fview) (t : ty) (M : views) (v : value) : Prop :=
  (∃ k, M !! v = Some (None, (t, k))) ∧ is_global_id v = false ∧ w_vals x !! v = None.
Lemma goes_make x0 x r t s : w_vals x0 ⊆ w_vals x → pi x s → LReq r → has_type (venv Gs Fs x) (requested r) t → requested_ty r t →
  goes f x (new_local f r) 1 s (new_of x0 t).
Proof.
  intros Hs I Hr Ht Hq. eapply goes_new_in; [done..|]. intros v M -> Hn Hg _ _. split; [eexists; by rewrite lookup_insert|].
  split; [done|]. by eapply lookup_weaken_None.
Qed.
Lemma goes_then x {A B} (m : F A) (g : A → F B) c1 c2 c s P Q : goes f x m c1 s P → pi x s → sees V bb s → c = (c1 + c2)%N →
  (∀ a s1 M, pi (set_wvals x M) s1 → sees V bb s1 → w_vals x ⊆ M ∧ b_bbs s1 = b_bbs s → P M a → goes f (set_wvals x M) (g a) c2 s1 Q) →
  goes f x (mthen m g) c s Q.
Proof.
  intros H I HV -> Hg. eapply goes_bind; [exact H|]. intros a s1 M Hm HP. apply Hg; [by eapply pi_mv|by eapply sees_mv| |done].
  split; [apply Hm|]. by destruct (mv_wo _ _ _ _ _ Hm) as [w ->].
Qed.
Lemma vtys_mono M M' ts vs : M ⊆ M' → Forall2 (λ t v, vty Gs M v = Some t) ts vs → Forall2 (λ t v, vty Gs M' v = Some t) ts vs.
Proof. intros H HF. eapply list.Forall2_impl; [exact HF|]. intros t v. by apply vty_mono. Qed.
Lemma goes_bb x s n ts : pi x s → bt n ts → ∃ b ps, clean (gen_bb n) s b s ∧ clean (bb_params_ty f b) s ts s ∧
  (∃ i, b_bbs s !! n = Some i ∧ bi_bb i = b) ∧
  snd <$> w_bbs x !! b = Some ps ∧ Forall2 (λ p t, vty Gs (w_vals x) p = Some t) ps ts.
Proof.
  intros I Hn. destruct (pi_bt _ _ I _ _ Hn) as (i & o & ps & Hi & Hb & HF). exists (bi_bb i), ps.
  split; [split; [unfold gen_bb; by rewrite Hi|done]|]. split.
  - pose proof (pi_view _ _ I) as Hx. rewrite lookup_fmap in Hx. apply fmap_Some in Hx as (fd & Hf & ->). simpl in Hb.
    rewrite lookup_fmap in Hb. apply fmap_Some in Hb as (bd & Hbd & Eb). injection Eb as -> ->.
    unfold bb_params_ty. split; [|done]. rewrite Hf. simpl. rewrite Hbd. simpl.
    replace (mapM (λ p, v_ty <$> d_values (f_dfg fd) !! p) (bb_params bd)) with (Some ts); [done|]. symmetry.
    apply mapM_Some. eapply list.Forall2_impl; [exact HF|]. intros p t (y & Hy & <-). simpl in Hy. rewrite lookup_fmap in Hy.
    apply fmap_Some in Hy as (d & -> & ->). done.
  - split; [eauto|]. rewrite Hb. split; [done|]. eapply list.Forall2_impl; [exact HF|].
    intros p t (y & Hy & <-). by eapply pi_vty.
Qed.
Lemma match_args x ps ts args b M : snd <$> w_bbs x !! b = Some ps → Forall2 (λ p t, vty Gs M p = Some t) ps ts →
  Forall2 (λ t v, vty Gs M v = Some t) ts args → args_match (venv Gs Fs (set_wvals x M)) b args.
Proof.
  intros Hb H1 H2. exists ps. split; [exact Hb|]. clear Hb. revert args H2. induction H1 as [|p t ps ts Hp _ IH]; intros args H2; inversion H2; subst; constructor.
  - exists t. done.
  - by apply IH.
Qed.
Lemma goes_call x s c ts t args : pi x s → sees V bb s → ft c ts t → Forall2 (val_of V) args ts →
  goes f x (gen_call f bb c args) (sum_of val_size args + 1) s (new_of x t).
Proof.
  intros I HV Hc HF. destruct (pi_ft _ _ I _ _ _ Hc) as (g & Hg & Hft).
  assert (Hfd : ∃ fd, p_funcs (w_prog (b_world s)) !! g = Some fd ∧ f_ty fd = TFun ts t).
  { rewrite <- (pi_Fs _ _ I), lookup_fmap in Hft. apply fmap_Some in Hft as (y & Hy & Et).
    rewrite lookup_fmap in Hy. apply fmap_Some in Hy as (fd & Hy & ->). by exists fd. }
  destruct Hfd as (fd & Hfd & Et).
  assert (Hgo : goes f x (mthen (gen_args f bb args ts) (λ vs, new_local f (BCall g vs))) (sum_of val_size args + 1) s (new_of x t)).
  { eapply goes_then; [by apply goes_args|done|done|reflexivity|]. intros vs s1 M I1 V1 [Hs Eb] Hvs. simpl in Hvs.
    apply goes_make; [done|done|done| |done]. by econstructor. }
  intros k Hk. destruct (Hgo k Hk) as (a & s' & M & A1 & A2). exists a, s', M. split; [|done].
  destruct A1 as [A1 A3]. split; [|done]. unfold gen_call. rewrite Hg. unfold mthen at 1. rewrite Hfd. simpl. rewrite Et. exact A1.
Qed.
Lemma goes_inst x s e t : pi x s → sees V bb s → expr_of V ft e t → goes f x (gen_inst f bb e) (expr_size e + 1) s (new_of x t).
Proof.
  intros I HV He. destruct e as [a|n|n i|n i|op l r|c args]; cbn [gen_inst expr_of expr_size] in *.
  - destruct He as (t0 & -> & Ha). eapply goes_after; [apply goes_some; by apply type_gen|]. simpl.
    apply goes_make; [done..| |done]. constructor. by eapply type_not_unit.
  - destruct (goes_symbol x s n _ I HV He) as (v & H1 & H2 & H3). unfold gen_load. eapply goes_after; [exact H1|].
    eapply goes_after; [exact H3|]. simpl. apply goes_make; [done..| |done]. by constructor.
  - destruct He as ((t0 & ->) & Hn & Hi). destruct (goes_symbol x s n _ I HV Hn) as (v & H1 & H2 & H3). unfold gen_get_ptr.
    eapply goes_after; [exact H1|]. eapply goes_after; [exact H3|]. cbn iota.
    eapply goes_then; [by apply goes_value|done|done|reflexivity|]. intros u s1 M I1 V1 [Hs Eb] Hu.
    apply goes_make; [done..| |done]. constructor; [|exact Hu]. eapply vty_mono; [exact Hs|exact H2].
  - destruct He as (t0 & z & -> & Hn & Hi). destruct (goes_symbol x s n _ I HV Hn) as (v & H1 & H2 & H3). unfold gen_get_elem_ptr.
    eapply goes_after; [exact H1|]. eapply goes_after; [exact H3|]. cbn iota.
    eapply goes_then; [by apply goes_value|done|done|reflexivity|]. intros u s1 M I1 V1 [Hs Eb] Hu.
    apply goes_make; [done..| |done]. apply T_get_elem_ptr with z; [|exact Hu]. eapply vty_mono; [exact Hs|exact H2].
  - destruct He as (-> & Hl & Hr). unfold gen_binary. eapply goes_then; [by apply goes_value|done|done|by rewrite <- N.add_assoc|].
    intros u s1 M I1 V1 [Hs Eb] Hu. eapply goes_then; [by apply goes_value|done|done|reflexivity|]. intros u2 s2 M2 I2 V2 [Hs2 Eb2] Hu2.
    apply goes_make; [by etrans|done|done| |done]. constructor; [|exact Hu2]. eapply vty_mono; [exact Hs2|exact Hu].
  - destruct He as (ts & Hc & HF). by eapply goes_call.
Qed.
Lemma goes_plain x s st r : pi x s → sees V bb s → stmt_of V ft bt Ty r st → (∀ n e, st ≠ SDef n e) →
  goes f x (gen_stmt f bb r st) (stmt_size st) s (λ M v, ∃ t, new_of x t M v).
Proof.
  assert (Hx : ∀ (m : F value) c t, goes f x m c s (new_of x t) → goes f x m c s (λ M v, ∃ t, new_of x t M v)).
  { intros m c t H. eapply goes_imp; [reflexivity| |exact H]. eauto. }
  intros I HV Hst Hn. destruct st as [n e|v d|c a|c t ta e ea|t a|v|]; cbn [gen_stmt stmt_of stmt_size] in *.
  - by destruct (Hn n e).
  - destruct Hst as (t & Hd & Hv). destruct (goes_symbol x s d _ I HV Hd) as (u & H1 & H2 & H3). unfold gen_store.
    eapply Hx. eapply goes_after; [exact H1|]. eapply goes_after; [exact H3|]. cbn iota.
    eapply goes_then; [by apply goes_store_value|done|done|by instantiate (1 := 1%N); destruct v|].
    intros w s1 M I1 V1 [Hs Eb] Hw. apply goes_make; [done..| |done]. apply T_store with t; [exact Hw|]. eapply vty_mono; [exact Hs|exact H2].
  - destruct Hst as (ts & t & Hc & HF). eapply Hx. by eapply goes_call.
  - destruct Hst as (Hc & (ts & Ht & Hts) & (es & He & Hes) & Hd). unfold gen_branch. eapply Hx.
    eapply (goes_then x _ _ (val_size c) (sum_of val_size ta + (sum_of val_size ea + 1))); [by apply goes_value|done|done|lia|].
    intros w s1 M I1 V1 [Hs Eb] Hw. destruct (goes_bb _ _ _ _ I1 Ht) as (b1 & ps1 & B1 & B2 & (i1 & B3 & B3') & B4 & B5).
    eapply goes_after; [exact B1|]. eapply goes_after; [exact B2|].
    eapply goes_then; [by apply goes_args|done|done|reflexivity|]. intros tas s2 M2 I2 V2 [Hs2 Eb2] Htas. simpl in Htas.
    destruct (goes_bb _ _ _ _ I2 He) as (b2 & ps2 & C1 & C2 & (i2 & C3 & C3') & C4 & C5).
    eapply goes_after; [exact C1|]. eapply goes_after; [exact C2|].
    eapply goes_then; [by apply goes_args|done|done|reflexivity|]. intros fas s3 M3 I3 V3 [Hs3 Eb3] Hfas. simpl in Hfas.
    rewrite Eb2 in C3.
    assert (Hsame : b1 = b2 → tas = [] ∧ fas = []).
    { intros <-. assert (t = e) as -> by (eapply (pi_inj _ _ I1); [exact B3|exact C3|congruence]).
      destruct (Hd eq_refl) as [-> ->]. inversion Hts; subst. inversion Hes; subst. inversion Htas. inversion Hfas. done. }
    replace ((b1 =? b2)%N && _) with false.
    2: { symmetry. destruct (N.eqb_spec b1 b2) as [E|E]; [|done]. by destruct (Hsame E) as [-> ->]. }
    apply goes_make; [by do 2 (etrans; [|done])|done..| |done].
    assert (Hs' : M ⊆ M3) by (by etrans). constructor.
    + eapply vty_mono; [exact Hs'|exact Hw].
    + eapply (match_args x); [exact B4| |eapply vtys_mono; [exact Hs3|exact Htas]].
      eapply list.Forall2_impl; [exact B5|]. intros p t0. apply vty_mono. done.
    + eapply (match_args x); [exact C4| |exact Hfas].
      eapply list.Forall2_impl; [exact C5|]. intros p t0. apply vty_mono. done.
    + exact Hsame.
  - destruct Hst as (ts & Ht & Hts). unfold gen_jump. eapply Hx.
    destruct (goes_bb _ _ _ _ I Ht) as (b1 & ps1 & B1 & B2 & _ & B4 & B5).
    eapply goes_after; [exact B1|]. eapply goes_after; [exact B2|].
    eapply goes_then; [by apply goes_args|done|done|reflexivity|]. intros tas s2 M2 I2 V2 [Hs2 Eb2] Htas. simpl in Htas.
    apply goes_make; [done..| |done]. constructor.
    eapply (match_args x); [exact B4| |exact Htas]. eapply list.Forall2_impl; [exact B5|]. intros p t0. apply vty_mono. done.
  - eapply Hx. destruct v as [v|]; cbn [gen_return].
    + destruct Hst as [Hr Hv]. destruct (is_unit r) eqn:Eu; [by apply is_unit_eq in Eu|].
      eapply goes_then; [by apply goes_value|done|done|reflexivity|].
      intros w s1 M I1 V1 [Hs Eb] Hw. apply goes_make; [done..| |done]. by econstructor.
    + subst. change (is_unit TUnit) with true. cbn iota. apply goes_make; [done..| |done]. constructor.
  - done.
Qed.
End in_fun.
