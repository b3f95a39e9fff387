(** The front end builds what the text says (C48): constants, operands and instructions. *)
From Coq Require Import Lia ZifyBool ZifyNat ZifyN.
From Verif Require Import Base IdModel TypeModel IrModel LayoutModel BuilderModel WorldModel
  LexerModel ParserModel ParserSpec FrontModel FrontProofs FlowSpec FlowProofs BlockListProofs
  CleanProofs BuildCleanProofs FunCleanProofs DriverModel DriverSpec DriverProofs UsesSpec UsesProofs
  DfgSpec DfgProofs WorldSpec WorldProofs TypingSpec TypingProofs TypingHistory EqHistory SkelProofs ParamProofs HistoryProofs
  FaithSpec RoundProofs ViewProofs.

(** ** Names *)
Lemma is_temp_temporary n : temporary n → is_temp n = true.
Proof.
  unfold temporary. induction n as [|c n IH]; intros H; [done|]. simpl in H.
  apply list.Forall_cons in H as [Hc H]. cbn [is_temp].
  assert ((N_of_ascii c <? 128)%N = true) as ->.
  { destruct Hc as [-> |Hc]; [done|]. lia. }
  rewrite IH by done. rewrite andb_true_r. destruct Hc as [-> |Hc]; [done|].
  apply orb_true_iff. right. unfold is_ascii_digit. lia.
Qed.
Lemma is_temp_ordinary n : ordinary n → is_temp n = false.
Proof.
  intros (c & Hc & Ha & Hp). remember (String.length n) as k eqn:Hk.
  assert (String.length n ≤ k) as Hle by lia. clear Hk. revert n Hc Hle.
  induction k as [|k IH]; intros [|d n] Hc Hle; simpl in Hc, Hle; try (by apply elem_of_nil in Hc); try lia.
  cbn [is_temp]. apply elem_of_cons in Hc as [-> |Hc].
  - assert ((N_of_ascii d <? 128)%N = true) as -> by lia. apply andb_false_iff. left.
    apply orb_false_iff. split.
    + apply Ascii.eqb_neq. intros ->. apply Hp. by left.
    + apply not_true_is_false. intros Hd. apply Hp. right. unfold is_ascii_digit in Hd. lia.
  - destruct (N_of_ascii d <? 128)%N; [rewrite IH by (done || lia); by rewrite andb_false_r|].
    destruct n as [|e n]; [done|]. simpl in Hc, Hle. apply elem_of_cons in Hc as [-> |Hc].
    + apply andb_false_iff. left. apply andb_false_iff. right.
      apply not_true_is_false. intros Hd. apply Hp. right. revert Hd. unfold is_numeric, is_ascii_digit. lia.
    + rewrite IH by (done || lia). by rewrite andb_false_r.
Qed.
Lemma kept_opt_name n : kept_name n (opt_name n).
Proof. split; intros H; unfold opt_name; [by rewrite is_temp_temporary|by rewrite is_temp_ordinary]. Qed.

(** ** Types *)
Lemma gen_types_eq ps : (fix go (l : list aty) : option (list ty) :=
               match l with
               | [] => Some []
               | x :: l' => y ← gen_type x; ys ← go l'; Some (y :: ys)
               end) ps = gen_types ps.
Proof. induction ps as [|p ps IH]; [done|]. cbn [gen_types]. by rewrite <- IH. Qed.
Lemma gen_types_denotes l : Forall (λ a, ∀ t, gen_type a = Some t → denotes a t) l →
  ∀ ts, gen_types l = Some ts → Forall2 denotes l ts.
Proof.
  induction 1 as [|a l Ha _ IH]; intros ts H; cbn [gen_types] in H; [injection H as <-; constructor|].
  apply bind_Some in H as (t & Ht & H). apply bind_Some in H as (ts' & Hts & H). injection H as <-.
  constructor; [by apply Ha|by apply IH].
Qed.
Lemma gen_type_denotes a : ∀ t, gen_type a = Some t → denotes a t.
Proof.
  induction a as [|b n IH|b IH|ps r IHps IHr] using aty_ind'; intros t H; cbn [gen_type] in H.
  - injection H as <-. constructor.
  - apply bind_Some in H as (b' & Hb & H). unfold get_array in H. case_match; [done|]. injection H as <-.
    constructor. by apply IH.
  - apply bind_Some in H as (b' & Hb & H). injection H as <-. constructor. by apply IH.
  - rewrite gen_types_eq in H. apply bind_Some in H as (ts & Hts & H). apply bind_Some in H as (t' & Ht' & H).
    injection H as <-. apply gen_types_denotes in Hts; [|done].
    destruct r as [r|]; [|injection Ht' as <-; by constructor].
    apply dn_fun; [done|]. by apply IHr.
Qed.
Lemma gen_ret_denotes r t : gen_ret r = Some t → denotes_ret r t.
Proof. destruct r; simpl; [apply gen_type_denotes|congruence]. Qed.
Lemma gen_types_denote l ts : gen_types l = Some ts → Forall2 denotes l ts.
Proof. apply gen_types_denotes. apply list.Forall_true. apply gen_type_denotes. Qed.
Lemma gen_params_denote l ps : gen_params l = Some ps →
  Forall2 (λ p q, q.1 = opt_name p.1 ∧ denotes p.2 q.2) l ps.
Proof.
  revert ps. induction l as [|[n a] l IH]; intros ps H; cbn [gen_params] in H; [injection H as <-; constructor|].
  apply bind_Some in H as (t & Ht & H). apply bind_Some in H as (ts' & Hts & H). injection H as <-.
  constructor; [split; [done|by apply gen_type_denotes]|by apply IH].
Qed.
Lemma denotes_fun a : ∀ t t', denotes a t → denotes a t' → t = t'.
Proof.
  induction a as [|b n IH|b IH|ps r IHps IHr] using aty_ind'; intros t t' H H'.
  1-3: inversion H; inversion H'; subst; f_equal; by auto.
  assert (Hl : ∀ l1 l2, Forall2 denotes ps l1 → Forall2 denotes ps l2 → l1 = l2).
  { clear -IHps. induction IHps as [|p ps Hp _ IH]; intros l1 l2 F1 F2;
      inversion F1; inversion F2; subst; [done|]. f_equal; [by apply Hp|by apply IH]. }
  inversion H; inversion H'; subst; simplify_eq; f_equal; by eauto.
Qed.

Lemma denotes_no_unit a : ¬ denotes a TUnit.
Proof. by inversion 1. Qed.
Lemma denotes_inj a : ∀ a' t, denotes a t → denotes a' t → a = a'.
Proof.
  induction a as [|b n IH|b IH|ps r IHps IHr] using aty_ind'; intros a' t H H'.
  1-3: inversion H; subst; inversion H'; subst; f_equal; by eauto.
  assert (Hl : ∀ ts l, Forall2 denotes ps ts → Forall2 denotes l ts → ps = l).
  { clear -IHps. induction IHps as [|p ps Hp _ IH]; intros ts l F1 F2;
      inversion F1; subst; inversion F2; subst; [done|]. f_equal; [by eapply Hp|by eapply IH]. }
  inversion H as [| | |? ts F|? ts r0 t0 F Hr]; subst; inversion H' as [| | |? ? F'|? ? r1 ? F' Hr']; subst.
  - f_equal. by eapply Hl.
  - by apply denotes_no_unit in Hr'.
  - by apply denotes_no_unit in Hr.
  - rewrite (Hl _ _ F F'). by rewrite (IHr _ eq_refl _ _ Hr Hr').
Qed.

(** ** Constants *)
Lemma const_mono D D' v i : D ⊆ D' → const_is D v i → const_is D' v i.
Proof.
  intros HD. revert i v. induction i as [z| | |l IH] using ainit_ind'; intros v H; inversion H; subst.
  - econstructor. by eapply lookup_weaken.
  - econstructor. by eapply lookup_weaken.
  - econstructor. by eapply lookup_weaken.
  - econstructor; [by eapply lookup_weaken|].
    match goal with H : Forall2 _ _ l |- _ => revert H end. clear H. generalize vs.
    induction IH as [|i l Hi _ IHl]; intros k F; inversion F; subst; constructor; [by apply Hi|by apply IHl].
Qed.
Definition cst_req (r : breq) : Prop :=
  match r with BInteger _ | BZeroInit _ | BUndef _ | BAggregate _ => True | _ => False end.
Definition fits (D : gmap N (ty * vkind)) (r : breq) (t : ty) : Prop :=
  match r with
  | BInteger _ => t = TInt32
  | BUndef t' | BZeroInit t' => t = t'
  | BAggregate vs => vs ≠ [] ∧ ∃ b, (∀ e b' k, e ∈ vs → D !! e = Some (b', k) → b' = b) ∧ t = TArray b (N.of_nat (length vs))
  | _ => True
  end.
Lemma init_fits_aggr a n l : init_fits (AArr a n) (IAggr l) ↔ Forall (init_fits a) l.
Proof.
  cbn [init_fits]. induction l as [|i l IH]; [by rewrite list.Forall_nil|]. rewrite list.Forall_cons, IH. done.
Qed.
Section init.
Context (new : breq → F value) {Un : ∀ r, Up (new r)} (D : bstate → gmap N (ty * vkind))
  (Inv : N → bstate → Prop) (T : bstate → bstate → Prop) (typed : bool).
Context (T_refl : ∀ k s, Inv k s → T s s) (T_trans : ∀ a b c, T a b → T b c → T a c).
Context (Hnew : ∀ k r s v s', cst_req r → Inv (1 + k) s → clean (new r) s v s' →
  Inv k s' ∧ T s s' ∧ D s ⊆ D s' ∧ ∃ t, D s' !! v = Some (t, requested r) ∧ (typed = true → fits (D s) r t)).
Lemma gen_init_const i : ∀ k t s v s', clean (gen_init new t i) s v s' → Inv (init_nodes i + k) s →
  Inv k s' ∧ T s s' ∧ D s ⊆ D s' ∧ const_is (D s') v i ∧
  (typed = true → ∀ a, denotes a t → ∃ a' t' j, D s' !! v = Some (t', j) ∧ denotes a' t' ∧ init_fits a' i ∧ (init_fits a i → t' = t)).
Proof.
  induction i as [z| | |l IH] using ainit_ind'; intros k t s v s' H HI; cbn [gen_init init_nodes] in *.
  - destruct (is_i32 t) eqn:Et; [|by apply clean_error in H]. apply (Hnew k) in H as (I1 & H1 & H2 & t' & Ht & Hf); [|done|done].
    split_and!; [done..|by econstructor|]. intros Hty a Ha. exists a, t, (KInteger z). rewrite Ht. apply Hf in Hty. simpl in Hty. subst t'.
    by destruct t.
  - apply (Hnew k) in H as (I1 & H1 & H2 & t' & Ht & Hf); [|done|done].
    split_and!; [done..|by econstructor|]. intros Hty a Ha. exists a, t, KUndef. rewrite Ht. apply Hf in Hty. simpl in Hty. by subst t'.
  - apply (Hnew k) in H as (I1 & H1 & H2 & t' & Ht & Hf); [|done|done].
    split_and!; [done..|by econstructor|]. intros Hty a Ha. exists a, t, KZeroInit. rewrite Ht. apply Hf in Hty. simpl in Hty. by subst t'.
  - (* the elements *)
    assert (Hl : ∀ b k s vs s', clean (b_map (gen_init new b) l) s vs s' →
      Inv (foldr (λ i n, init_nodes i + n) 0 l + k)%N s →
      Inv k s' ∧ T s s' ∧ D s ⊆ D s' ∧ Forall2 (const_is (D s')) vs l ∧
      (typed = true → ∀ a, denotes a b → Forall2 (λ e i, ∃ a' t' j, D s' !! e = Some (t', j) ∧ denotes a' t' ∧ init_fits a' i ∧ (init_fits a i → t' = b)) vs l)).
    { clear H HI k t s v s'. intros b. induction IH as [|i l Hi _ IHl]; intros k s vs s' H HI; cbn [b_map foldr] in *.
      - apply clean_mok in H as [-> ->]. split_and!; [done|by eapply T_refl|done|constructor|]. intros _ a _. constructor.
      - cb H as y s1 H1. cb H as ys s2 H2. apply clean_mok in H as [-> ->].
        apply (Hi (foldr (λ i n, init_nodes i + n) 0 l + k)%N) in H1 as (A1 & A2 & A3 & A4 & A5); [|by replace (init_nodes i + (foldr (λ i n, init_nodes i + n) 0 l + k))%N with (init_nodes i + foldr (λ i n, init_nodes i + n) 0 l + k)%N by lia].
        apply (IHl k) in H2 as (B1 & B2 & B3 & B4 & B5); [|done].
        split_and!; [done|by eapply T_trans|by etrans|constructor; [by eapply const_mono|done]|].
        intros Hty a Ha. constructor; [|by apply B5].
        destruct (A5 Hty a Ha) as (a' & t' & j & Hj & Hd). exists a', t', j. split; [|done]. by eapply lookup_weaken. }
    assert (Hend : ∀ b s1 vs s2, Inv (foldr (λ i n, init_nodes i + n) 0 l + (1 + k))%N s1 →
       clean (b_map (gen_init new b) l) s1 vs s2 → clean (new (BAggregate vs)) s2 v s' →
       Inv k s' ∧ T s1 s' ∧ D s1 ⊆ D s' ∧ const_is (D s') v (IAggr l) ∧
       (typed = true → ∀ a, denotes a b → ∃ a' t' j, D s' !! v = Some (t', j) ∧ denotes a' t' ∧ init_fits a' (IAggr l) ∧
         (Forall (init_fits a) l → t' = TArray b (N.of_nat (length l))))).
    { intros b s1 vs s2 I1 H1 H2. apply Hl with (k := (1 + k)%N) in H1 as (A1 & A2 & A3 & A4 & A5); [|done].
      apply (Hnew k) in H2 as (B1 & B2 & B3 & t' & Ht & Hf); [|done|done].
      split_and!; [done|by eapply T_trans|by etrans| |].
      - econstructor; [exact Ht|]. eapply Forall2_impl; [exact A4|]. intros. by eapply const_mono.
      - intros Hty a Ha. destruct (Hf Hty) as (Hne & b' & Hb & ->). specialize (A5 Hty a Ha).
        assert (∃ a', denotes a' b' ∧ Forall (init_fits a') l ∧ (Forall (init_fits a) l → b' = b)) as (a' & Ha' & Hfit & Hsame).
        { destruct A5 as [|e i vs' l' (a' & t0 & j & Hj & Hd & Hfi & Hs) F]; [done|].
          assert (t0 = b') as -> by (eapply Hb; [by left|done]). exists a'. split; [done|]. split.
          - constructor; [done|]. assert (Hb' : ∀ e b0 k0, e ∈ vs' → D s2 !! e = Some (b0, k0) → b0 = b') by (intros; eapply Hb; [by right|done]).
            clear -F Hb' Hd. induction F as [|e i vs l (a1 & t1 & j & Hj & Hd1 & Hfi & _) _ IH]; constructor.
            + assert (t1 = b') as -> by (eapply Hb'; [by left|done]). by rewrite (denotes_inj _ _ _ Hd Hd1).
            + apply IH. intros. eapply Hb'; [by right|done].
          - intros HF. apply list.Forall_cons in HF as [HF _]. by apply Hs. }
        exists (AArr a' (N.of_nat (length vs))), (TArray b' (N.of_nat (length vs))), (KAggregate vs).
        split; [by rewrite Ht|]. split; [by constructor|]. split; [by apply init_fits_aggr|].
        intros HF. rewrite (Hsame HF). apply Forall2_length in A4. by rewrite A4. }
    clear Hl IH. replace (foldr (λ i n, init_nodes i + n) 0 l + 1 + k)%N with (foldr (λ i n, init_nodes i + n) 0 l + (1 + k))%N in HI by lia.
    destruct t as [| |b n|b|]; try by apply clean_error in H.
    + cb H as u s1 H1. assert (s1 = s ∧ n = N.of_nat (length l)) as [-> ->].
      { destruct (N.eqb_spec n (N.of_nat (length l))); [by apply clean_mok in H1 as [_ ->]|by apply clean_log in H1]. }
      cb H as vs s2 H2. destruct (Hend b s vs s2 HI H2 H) as (A1 & A2 & A3 & A4 & A5). split_and!; try done.
      intros Hty a Ha. specialize (A5 Hty). clear Hty. inversion Ha as [|a0 n0 t0 Ha0| | |]; subst. destruct (A5 _ Ha0) as (a' & t' & j & Hj & Hd & Hfi & Hs).
      exists a', t', j. split_and!; try done. intros HF. apply Hs. by apply init_fits_aggr in HF.
    + cb H as vs s2 H2. destruct (Hend b s vs s2 HI H2 H) as (A1 & A2 & A3 & A4 & A5). split_and!; try done.
      intros Hty a Ha. specialize (A5 Hty). clear Hty. inversion Ha as [| |a0 t0 Ha0| |]; subst. destruct (A5 _ Ha0) as (a' & t' & j & Hj & Hd & Hfi & Hs).
      exists a', t', j. split_and!; try done.
Qed.
End init.

(** ** Inside a function *)
(** Only the world changes, and in it only the values of [f], from those of [x] to [m]. *)
Record mv (f : func) (x : fview) (s : bstate) (m : gmap N (option string * (ty * vkind))) (s' : bstate) : Prop := Mv {
  mv_wo : wo s s';
  mv_more : w_vals x ⊆ m;
  mv_new : ∀ v y, m !! v = Some y → w_vals x !! v = Some y ∨ y.1 = None;
  mv_only : only f x (set_wvals x m) (b_world s) (b_world s');
  mv_room : room 0 (b_world s');
}.
Lemma mv_refl f x s : fvs (b_world s) !! f = Some x → room 0 (b_world s) → mv f x s (w_vals x) s.
Proof.
  intros H R. constructor; [apply wo_refl|done|by left| |done]. replace (set_wvals x (w_vals x)) with x by (by destruct x).
  by apply only_refl.
Qed.
Lemma mv_trans f x s m s1 m' s2 : mv f x s m s1 → mv f (set_wvals x m) s1 m' s2 → mv f x s m' s2.
Proof.
  intros [A1 A2 A5 A3 A4] [B1 B2 B5 B3 B4]. constructor; [by eapply wo_trans|by etrans| |by eapply only_trans|done].
  intros v y Hy. destruct (B5 _ _ Hy) as [Hy'|?]; [by apply A5|by right].
Qed.
Lemma mv_after f x s m s' : mv f x s m s' → fvs (b_world s') !! f = Some (set_wvals x m).
Proof. intros [_ _ _ H _]. by eapply only_after. Qed.
Notation sks m := (snd <$> (m : gmap N (option string * (ty * vkind)))).
Lemma sks_mono (m m' : gmap N (option string * (ty * vkind))) : m ⊆ m' → sks m ⊆ sks m'.
Proof. intros H. by apply map_fmap_mono. Qed.
Lemma faith_new f x r s v s' : fvs (b_world s) !! f = Some x → room 0 (b_world s) → LReq r →
  clean (new_local f r) s v s' → ∃ t, mv f x s (<[v := (None, (t, requested r))]> (w_vals x)) s' ∧
    w_vals x !! v = None ∧ is_global_id v = false ∧ requested_ty r t.
Proof.
  intros Hx R Hr H. assert (R' : room 0 (b_world s')) by (eapply room_clean; [|exact H|exact R]; apply _).
  apply clean_prog in H as (w & H & ->). simpl in R'.
  apply (view_new_local 0) in H as (x' & t & Ho & Hn & Hg & Ht); [|done].
  assert (x' = x) as -> by (destruct Ho as (Ho & _); congruence).
  exists t. split_and!; try done. constructor; [by exists w|by apply insert_subseteq| |done|done].
  intros u y [[<- <-]|[_ Hu]]%lookup_insert_Some; [by right|by left].
Qed.
Lemma faith_local_init f x t i s v s' : fvs (b_world s) !! f = Some x → room 0 (b_world s) →
  clean (gen_local_init f t i) s v s' → ∃ m, mv f x s m s' ∧ const_is (sks m) v i.
Proof.
  intros Hx R H. unfold gen_local_init in H.
  apply (gen_init_const (new_local f)
    (λ s, match fvs (b_world s) !! f with Some x => sks (w_vals x) | None => ∅ end)
    (λ _ s, is_Some (fvs (b_world s) !! f) ∧ room 0 (b_world s))
    (λ s s', ∀ x, fvs (b_world s) !! f = Some x → ∃ m, mv f x s m s') false) with (k := 0%N) in H.
  - destruct H as ((I1 & I2) & I3 & _ & I4 & _). destruct (I3 x Hx) as [m Hm]. exists m. split; [done|].
    by rewrite (mv_after _ _ _ _ _ Hm) in I4.
  - intros k s0 [_ R0] x0 Hx0. eexists. by apply mv_refl.
  - intros a b c Hab Hbc x0 Hx0. destruct (Hab _ Hx0) as [m Hm]. destruct (Hbc _ (mv_after _ _ _ _ _ Hm)) as [m' Hm'].
    exists m'. by eapply mv_trans.
  - intros k r s0 v0 s1 Hr [[x0 Hx0] R0] H0.
    assert (LReq r) as Hl by (by destruct r).
    apply (faith_new _ _ _ _ _ _ Hx0 R0 Hl) in H0 as (t' & Hm & Hn & _). pose proof (mv_after _ _ _ _ _ Hm) as Ha.
    rewrite Hx0, Ha. split_and!; [by eauto|apply Hm| | |].
    + intros x1 Hx1. assert (x1 = x0) as -> by congruence. by eexists.
    + apply sks_mono, Hm.
    + exists t'. simpl. rewrite lookup_fmap, lookup_insert. done.
  - split; [by eauto|done].
Qed.

(** ** What the builder knows *)
#[local] Hint Extern 9 (Up _) => (cbn beta; case_match) : typeclass_instances.
Record fi (f : func) (G Fn : gmap N string) (x : fview) (L B : gmap N string) (s : bstate) : Prop := {
  fi_view : fvs (b_world s) !! f = Some x;
  fi_room : room 0 (b_world s);
  fi_gvars : ∀ n v, b_gvars s !! n = Some v → G !! v = Some n ∧ is_global_id v = true;
  fi_gfuncs : ∀ n c, b_gfuncs s !! n = Some c → Fn !! c = Some n;
  fi_defs : ∀ b n v, defines (b_bbs s) b n v → L !! v = Some n;
  fi_bbs : ∀ n i, b_bbs s !! n = Some i → B !! bi_bb i = Some n;
  fi_L : ∀ v n, L !! v = Some n → is_global_id v = false ∧
    ∃ t k, w_vals x !! v = Some (opt_name n, (t, k)) ∧ is_const k = false ∧ is_global_alloc k = false;
  fi_B : ∀ b n, B !! b = Some n → ∃ ps, w_bbs x !! b = Some (opt_name n, ps);
  fi_unnamed : ∀ v y, w_vals x !! v = Some y → L !! v = None → y.1 = None;
}.
Lemma fi_mv f G Fn x L B s m s' : fi f G Fn x L B s → mv f x s m s' → fi f G Fn (set_wvals x m) L B s'.
Proof.
  intros [H1 H2 H3 H4 H5 H6 H7 H8 H9] M. pose proof (mv_after _ _ _ _ _ M). destruct M as [[w ->] A2 A5 A3 A4].
  constructor; try done.
  - intros v n Hv. destruct (H7 _ _ Hv) as (? & t & k & Hk & ?). split; [done|].
    exists t, k. split; [|done]. by eapply lookup_weaken.
  - intros v y Hy HL. destruct (A5 _ _ Hy) as [Hy'|?]; [by eapply H9|done].
Qed.
Lemma local_symbol_from bbs sym fuel : ∀ V bb v V', local_symbol fuel bbs V bb sym = Rok (Some v, V') →
  ∃ b, defines bbs b sym v.
Proof.
  induction fuel as [|fuel IH]; intros V bb v V' H; [done|]. cbn [local_symbol] in H. case_decide; [done|].
  destruct (bbs !! bb) as [info|] eqn:Hb; [|done]. destruct (bi_defs info !! sym) as [v'|] eqn:Hd.
  { injection H as <- _. by exists bb, info. }
  revert H. generalize ({[bb]} ∪ V). induction (bi_preds info) as [|p ps IHp]; intros W H; [done|].
  destruct (local_symbol fuel bbs W p sym) as [[[u|] W']|e| |] eqn:E; try done.
  - injection H as <- _. by eapply IH.
  - by eapply IHp.
Qed.
Section operands.
Context (f : func) (G Fn L B : gmap N string).
Implicit Types (x : fview) (s : bstate).
Lemma faith_symbol x bb n s v s' : fi f G Fn x L B s → clean (gen_symbol bb n) s v s' → s' = s ∧ is_called G L v n.
Proof.
  intros I H. apply clean_symbol in H as [-> H]. split; [done|]. unfold is_called. destruct H as [H|(_ & V & H)].
  - apply (fi_gvars _ _ _ _ _ _ _ I) in H as [H ->]. done.
  - apply local_symbol_from in H as [b H]. apply (fi_defs _ _ _ _ _ _ _ I) in H.
    destruct (fi_L _ _ _ _ _ _ _ I _ _ H) as [-> _]. done.
Qed.
Lemma faith_sym_value x bb t n s v s' : fi f G Fn x L B s → clean (gen_sym_value f bb t n) s v s' → s' = s ∧ is_called G L v n.
Proof.
  intros I H. unfold gen_sym_value in H. cb H as v1 s1 H1. apply (faith_symbol x) in H1 as [-> H1]; [|done].
  cb H as t1 s2 H2. apply clean_value_ty in H2 as [-> _]. destruct (ty_eqb t1 t); [|by apply clean_error in H].
  by apply clean_mok in H as [-> ->].
Qed.
Lemma fi_refl x s : fi f G Fn x L B s → mv f x s (w_vals x) s.
Proof. intros I. apply mv_refl; apply I. Qed.
Lemma faith_value x bb t a s v s' : fi f G Fn x L B s → clean (gen_value f bb t a) s v s' →
  ∃ m, mv f x s m s' ∧ is_val G L (sks m) v a.
Proof.
  intros I H. destruct a as [n|z|]; cbn [gen_value is_val] in *.
  - apply (faith_sym_value x) in H as [-> H]; [|done]. exists (w_vals x). split; [by apply fi_refl|done].
  - eapply faith_local_init; [apply I|apply I|done].
  - eapply faith_local_init; [apply I|apply I|done].
Qed.
Lemma faith_store_value x bb t a s v s' : fi f G Fn x L B s → clean (gen_store_value f bb t a) s v s' →
  ∃ m, mv f x s m s' ∧ is_stored G L (sks m) v a.
Proof.
  intros I H. destruct a as [n|i]; cbn [gen_store_value is_stored] in *.
  - apply (faith_sym_value x) in H as [-> H]; [|done]. exists (w_vals x). split; [by apply fi_refl|done].
  - eapply faith_local_init; [apply I|apply I|done].
Qed.
Lemma val_mono (D D' : gmap N (ty * vkind)) v a : D ⊆ D' → is_val G L D v a → is_val G L D' v a.
Proof. intros HD. destruct a; simpl; [done|by apply const_mono..]. Qed.
Lemma stored_mono (D D' : gmap N (ty * vkind)) v a : D ⊆ D' → is_stored G L D v a → is_stored G L D' v a.
Proof. intros HD. destruct a; simpl; [done|by apply const_mono]. Qed.
Lemma args_mono (D D' : gmap N (ty * vkind)) v a : D ⊆ D' → is_args G L D v a → is_args G L D' v a.
Proof.
  intros HD (l & r & -> & H). exists l, r. split; [done|]. eapply Forall2_impl; [done|]. intros. by eapply val_mono.
Qed.
Lemma faith_args x bb args tys s vs s' : fi f G Fn x L B s → clean (gen_args f bb args tys) s vs s' →
  ∃ m, mv f x s m s' ∧ is_args G L (sks m) vs args.
Proof.
  revert x tys s vs. induction args as [|a args IH]; intros x tys s vs I H.
  { unfold gen_args in H. simpl in H. apply clean_mok in H as [-> ->]. exists (w_vals x).
    split; [by apply fi_refl|]. by exists [], []. }
  destruct tys as [|t tys]; unfold gen_args in H.
  { simpl in H. apply clean_mok in H as [-> ->]. exists (w_vals x).
    split; [by apply fi_refl|]. by exists [], (a :: args). }
  cbn [zip zip_with b_map fst snd] in H. cb H as y s1 H1. cb H as ys s2 H2. apply clean_mok in H as [-> ->].
  apply (faith_value x) in H1 as (m & M & Hv); [|done]. pose proof (fi_mv _ _ _ _ _ _ _ _ _ I M) as I1.
  apply (IH _ tys _ _ I1) in H2 as (m' & M' & l & r & -> & Hl).
  exists m'. split; [by eapply mv_trans|]. exists (a :: l), r. split; [done|]. constructor; [|done].
  eapply val_mono; [|done]. apply sks_mono. apply M'.
Qed.
(** A new instruction *)
Lemma faith_inst_new x r s v s' : fi f G Fn x L B s → LReq r → clean (new_local f r) s v s' →
  ∃ t m, mv f x s m s' ∧ m !! v = Some (None, (t, requested r)) ∧ L !! v = None ∧ is_global_id v = false ∧ requested_ty r t.
Proof.
  intros I Hr H. apply (faith_new f x) in H as (t & M & Hn & Hg & Ht); [|apply I..|done].
  exists t. eexists. split; [exact M|]. split; [by rewrite lookup_insert|]. split; [|done].
  destruct (L !! v) eqn:E; [|done]. destruct (fi_L _ _ _ _ _ _ _ I _ _ E) as (_ & t' & k & Hk & _). congruence.
Qed.
Definition made x s v s' (P : gmap N (ty * vkind) → ty → vkind → Prop) : Prop :=
  ∃ t k m, mv f x s m s' ∧ m !! v = Some (None, (t, k)) ∧ L !! v = None ∧ is_global_id v = false ∧
    is_const k = false ∧ is_global_alloc k = false ∧ P (sks m) t k.
Lemma made_new x r s0 m0 s v s' (P : gmap N (ty * vkind) → ty → vkind → Prop) : fi f G Fn x L B s0 → mv f x s0 m0 s → clean (new_local f r) s v s' → LReq r →
  is_const (requested r) = false → is_global_alloc (requested r) = false → (∀ D t, sks m0 ⊆ D → requested_ty r t → P D t (requested r)) → made x s0 v s' P.
Proof.
  intros I M H Hr H1 H2 HP. pose proof (fi_mv _ _ _ _ _ _ _ _ _ I M) as I1.
  apply (faith_inst_new _ _ _ _ _ I1) in H as (t & m & M' & Hv & HL & Hg & Ht); [|done].
  exists t, (requested r), m. split; [by eapply mv_trans|]. split_and!; try done. apply HP; [|done].
  apply sks_mono, M'.
Qed.
Lemma made_imp x s0 v s' (P Q : gmap N (ty * vkind) → ty → vkind → Prop) : (∀ D t k, P D t k → Q D t k) → made x s0 v s' P → made x s0 v s' Q.
Proof. intros H (t & k & m & M & A1 & A2 & A3 & A4 & A5 & HP). exists t, k, m. split_and!; auto. Qed.
Lemma faith_call x bb c args s v s' : fi f G Fn x L B s → clean (gen_call f bb c args) s v s' →
  made x s v s' (λ D t k, ∃ g vs, k = KCall g vs ∧ Fn !! g = Some c ∧ is_args G L D vs args).
Proof.
  intros I H. unfold clean, gen_call in H. destruct (b_gfuncs s !! c) as [g|] eqn:Hg; [|by apply clean_error in H].
  change (clean (tys <- b_some (fd ← p_funcs (w_prog (b_world s)) !! g;
                      match f_ty fd with TFun ps _ => Some ps | _ => None end);;
       vs <- gen_args f bb args tys;;
       new_local f (BCall g vs)) s v s') in H.
  apply (fi_gfuncs _ _ _ _ _ _ _ I) in Hg.
  cb H as tys s1 H1. apply clean_some in H1 as [_ ->]. cb H as vs s2 H2.
  apply (faith_args x) in H2 as (m & M & Ha); [|done].
  eapply made_new; [done|exact M|exact H|apply _|done|done|]. intros D t HD _. exists g, vs. split_and!; [done..|].
  by eapply args_mono.
Qed.
Lemma faith_inst x bb e s v s' : fi f G Fn x L B s → clean (gen_inst f bb e) s v s' →
  made x s v s' (λ D t k, is_expr G Fn L D t k e).
Proof.
  intros I H. pose proof (fi_refl x s I) as M0. destruct e as [a|y|y i|y i|op l r|c args]; cbn [gen_inst is_expr] in *.
  - cb H as t s1 H1. apply clean_some in H1 as [Ht ->]. apply gen_type_denotes in Ht.
    eapply made_new; [done|exact M0|exact H|apply _|done|done|]. simpl. intros D t' _ Et. split; [done|]. by exists t.
  - unfold gen_load in H. cb H as u s1 H1. apply (faith_symbol x) in H1 as [-> H1]; [|done].
    cb H as t s2 H2. apply clean_value_ty in H2 as [-> _]. destruct t; try by apply clean_error in H.
    eapply made_new; [done|exact M0|exact H|apply _|done|done|]. intros. by exists u.
  - unfold gen_get_ptr in H. cb H as u s1 H1. apply (faith_symbol x) in H1 as [-> H1]; [|done].
    cb H as t s2 H2. apply clean_value_ty in H2 as [-> _]. destruct t; try by apply clean_error in H.
    cb H as w s3 H3. apply (faith_value x) in H3 as (m & M & Hv); [|done].
    eapply made_new; [done|exact M|exact H|apply _|done|done|]. intros. exists u, w. split_and!; [done..|by eapply val_mono].
  - unfold gen_get_elem_ptr in H. cb H as u s1 H1. apply (faith_symbol x) in H1 as [-> H1]; [|done].
    cb H as t s2 H2. apply clean_value_ty in H2 as [-> _]. destruct t as [| | |[]|]; try by apply clean_error in H.
    cb H as w s3 H3. apply (faith_value x) in H3 as (m & M & Hv); [|done].
    eapply made_new; [done|exact M|exact H|apply _|done|done|]. intros. exists u, w. split_and!; [done..|by eapply val_mono].
  - unfold gen_binary in H. cb H as u s1 H1. apply (faith_value x) in H1 as (m & M & Hu); [|done].
    cb H as w s3 H3. pose proof (fi_mv _ _ _ _ _ _ _ _ _ I M) as I1.
    apply (faith_value _ _ _ _ _ _ _ I1) in H3 as (m' & M' & Hw).
    eapply made_new; [done|eapply mv_trans; [exact M|exact M']|exact H|apply _|done|done|]. intros D t HD _.
    exists u, w. split_and!; [done| |by eapply val_mono]. eapply val_mono; [|exact Hu]. etrans; [|exact HD].
    apply sks_mono, M'.
  - by apply (faith_call x) in H.
Qed.
(** Statements that define no symbol *)
Lemma faith_stmt x bb r st s v s' : fi f G Fn x L B s → (∀ n e, st ≠ SDef n e) → clean (gen_stmt f bb r st) s v s' →
  ∃ m, mv f x s m s' ∧ is_stmt G Fn L B (sks m) v st.
Proof.
  intros I Hn H. enough (Hm : made x s v s' (λ D t k, match st with
    | SDef _ _ => False
    | SStore x d => ∃ a b, k = KStore a b ∧ is_stored G L D a x ∧ is_called G L b d
    | SCall f args => ∃ c vs, k = KCall c vs ∧ Fn !! c = Some f ∧ is_args G L D vs args
    | SBr c t ta e ea => ∃ v b1 b2 vs1 vs2, k = KBranch v b1 b2 vs1 vs2 ∧ is_val G L D v c ∧
        B !! b1 = Some t ∧ is_args G L D vs1 ta ∧ B !! b2 = Some e ∧ is_args G L D vs2 ea
    | SJump t args => ∃ b vs, k = KJump b vs ∧ B !! b = Some t ∧ is_args G L D vs args
    | SRet None => k = KReturn None
    | SRet (Some a) => ∃ v, k = KReturn (Some v) ∧ is_val G L D v a
    | SErr => False
    end)).
  { destruct Hm as (t & k & m & M & Hv & _ & _ & _ & _ & HP). exists m. split; [done|]. exists t, k.
    split; [by rewrite lookup_fmap, Hv|]. destruct st; try done. }
  pose proof (fi_refl x s I) as M0.
  destruct st as [n e|a d|c args|c t ta e ea|t args|[a|]|]; cbn [gen_stmt] in *.
  - by destruct (Hn n e).
  - unfold gen_store in H. cb H as u s1 H1. apply (faith_symbol x) in H1 as [-> H1]; [|done].
    cb H as t s2 H2. apply clean_value_ty in H2 as [-> _]. destruct t; try by apply clean_error in H.
    cb H as w s3 H3. apply (faith_store_value x) in H3 as (m & M & Hv); [|done].
    eapply made_new; [done|exact M|exact H|apply _|done|done|]. intros. exists w, u. split_and!; [done|by eapply stored_mono|done].
  - by apply (faith_call x) in H.
  - unfold gen_branch in H. cb H as u s1 H1. apply (faith_value x) in H1 as (m & M & Hu); [|done].
    pose proof (fi_mv _ _ _ _ _ _ _ _ _ I M) as I1.
    cb H as b1 s2 H2. apply clean_gen_bb in H2 as [-> (i1 & Hi1 & ->)]. apply (fi_bbs _ _ _ _ _ _ _ I1) in Hi1.
    cb H as tt s3 H3. apply clean_bb_params_ty in H3 as [-> _].
    cb H as vs1 s4 H4. apply (faith_args _ _ _ _ _ _ _ I1) in H4 as (m1 & M1 & Ha1).
    pose proof (mv_trans _ _ _ _ _ _ _ M M1) as M2. pose proof (fi_mv _ _ _ _ _ _ _ _ _ I M2) as I2.
    cb H as b2 s5 H5. apply clean_gen_bb in H5 as [-> (i2 & Hi2 & ->)]. apply (fi_bbs _ _ _ _ _ _ _ I2) in Hi2.
    cb H as tt2 s6 H6. apply clean_bb_params_ty in H6 as [-> _].
    cb H as vs2 s7 H7. apply (faith_args _ _ _ _ _ _ _ I2) in H7 as (m3 & M3 & Ha2).
    destruct (_ && _); [by apply clean_error in H|].
    pose proof (mv_trans _ _ _ _ _ _ _ M2 M3) as M4.
    assert (Hs1 : sks m ⊆ sks m1) by apply sks_mono, M1. assert (Hs2 : sks m1 ⊆ sks m3) by apply sks_mono, M3.
    eapply made_new; [done|exact M4|exact H|apply _|done|done|]. intros D t' HD _.
    exists u, (bi_bb i1), (bi_bb i2), vs1, vs2. split_and!; try done.
    + eapply val_mono; [|exact Hu]. by do 2 (etrans; [eassumption|]).
    + eapply args_mono; [|exact Ha1]. by etrans.
    + eapply args_mono; [|exact Ha2]. done.
  - unfold gen_jump in H. cb H as b s1 H1. apply clean_gen_bb in H1 as [-> (i1 & Hi1 & ->)]. apply (fi_bbs _ _ _ _ _ _ _ I) in Hi1.
    cb H as tt s3 H3. apply clean_bb_params_ty in H3 as [-> _].
    cb H as vs1 s4 H4. apply (faith_args x) in H4 as (m1 & M1 & Ha1); [|done].
    eapply made_new; [done|exact M1|exact H|apply _|done|done|]. intros. exists (bi_bb i1), vs1. split_and!; [done..|by eapply args_mono].
  - unfold gen_return in H. destruct (is_unit r); [by apply clean_error in H|].
    cb H as w s3 H3. apply (faith_value x) in H3 as (m & M & Hv); [|done].
    eapply made_new; [done|exact M|exact H|apply _|done|done|]. intros. exists w. split; [done|by eapply val_mono].
  - unfold gen_return in H. destruct (is_unit r); [|by apply clean_error in H].
    by eapply made_new; [done|exact M0|exact H|apply _|done|done|].
  - by destruct H.
Qed.
End operands.
