(** The name manager answers the requests of a canonical text with the names of the text. *)
From Coq Require Import Lia ZifyBool ZifyNat ZifyN.
From Verif Require Import Base IdModel TypeModel IrModel LayoutModel TextModel NameModel LexerModel ParserModel ParserSpec
  DfgSpec FlowSpec PrintSpec FaithSpec FaithProofs RoundProofs LexerRunProofs KoopaModel CanonSpec TreeTextProofs NameProofs.

Lemma numbered_temp k : numbered k = temp_name PDefault k.
Proof. unfold numbered, temp_name. by rewrite show_N_pretty. Qed.
Lemma digits_percent (s : string) : Forall (λ c, (48 ≤ N_of_ascii c ≤ 57)%N) (String.list_ascii_of_string s) → temporary s.
Proof. intros H. eapply list.Forall_impl; [exact H|]. intros c Hc. by right. Qed.
Lemma temporary_not_ordinary n : temporary n → ordinary n → False.
Proof. intros H (c & Hc & _ & Hn). unfold temporary in H. eapply list.Forall_forall in H; [|exact Hc]. done. Qed.

(** The names that are in use *)
Record nrel (G Fn L B : gmap N string) (m : nm) (st : written) : Prop := {
  nr_next : nm_next m = wr_count st;
  nr_prefix : nm_prefix m = PDefault;
  nr_gvars : nm_gvars m ⊆ G;
  nr_funcs : nm_funcs m ⊆ Fn;
  nr_vals : nm_values m ⊆ L;
  nr_blks : nm_bbs m ⊆ B;
  nr_wg : ∀ n, n ∈ wr_globals st ↔ ∃ v, nm_gvars m !! v = Some n;
  nr_wf : ∀ n, n ∈ wr_funs st ↔ ∃ v, nm_funcs m !! v = Some n;
  nr_wv : ∀ n, n ∈ wr_vals st ↔ ∃ v, nm_values m !! v = Some n;
  nr_wb : ∀ n, n ∈ wr_blks st ↔ ∃ v, nm_bbs m !! v = Some n;
  nr_names : ∀ n, n ∈ nm_global_names m ↔ n ∈ wr_globals st ∨ n ∈ wr_funs st ∨ n ∈ wr_vals st;
  nr_bnames : ∀ n, n ∈ nm_bb_names m ↔ n ∈ wr_blks st;
  nr_apart : ∀ n, n ∈ wr_vals st → n ∉ wr_globals st ∧ n ∉ wr_funs st;
  nr_ord : ∀ n, n ∈ wr_funs st → ordinary n;
}.
Definition inj_names (L : gmap N string) : Prop := ∀ v w n, L !! v = Some n → L !! w = Some n → v = w.

Lemma next_fresh n names : n ∉ names → next_name_str PDefault n names = Some (n, {[n]} ∪ names).
Proof. intros H. unfold next_name_str. simpl. by rewrite decide_False. Qed.
Lemma sub_insert (m M : gmap N string) v n : m ⊆ M → M !! v = Some n → <[v := n]> m ⊆ M.
Proof. intros H E. apply map_subseteq_spec. intros i x. rewrite lookup_insert_Some. intros [[<- <-]|[_ Hi]]; [done|]. by eapply lookup_weaken. Qed.
Lemma named_insert (m : gmap N string) v n (S : gset string) : m !! v = None → (∀ x, x ∈ S ↔ ∃ w, m !! w = Some x) →
  ∀ x, x ∈ {[n]} ∪ S ↔ ∃ w, <[v := n]> m !! w = Some x.
Proof.
  intros Hv HS x. rewrite elem_of_union, elem_of_singleton, HS. split.
  - intros [-> |[w Hw]]; [exists v; by rewrite lookup_insert|]. exists w. rewrite lookup_insert_ne; [done|]. intros ->. congruence.
  - intros [w [[_ E]|[_ Hw]]%lookup_insert_Some]; eauto.
Qed.
(** Not yet named *)
Lemma unnamed (m M : gmap N string) (S : gset string) v n : m ⊆ M → M !! v = Some n → (∀ x, x ∈ S ↔ ∃ w, m !! w = Some x) → n ∉ S → m !! v = None.
Proof.
  intros Hs E HS Hn. destruct (m !! v) as [x|] eqn:Ex; [|done]. exfalso. apply Hn, HS. exists v. pose proof (lookup_weaken _ _ _ _ Ex Hs). congruence.
Qed.
Lemma renamed (m M : gmap N string) (S : gset string) v n : m ⊆ M → inj_names M → M !! v = Some n → (∀ x, x ∈ S ↔ ∃ w, m !! w = Some x) → n ∈ S → m !! v = Some n.
Proof.
  intros Hs HM E HS Hn. apply HS in Hn as [w Hw]. pose proof (lookup_weaken _ _ _ _ Hw Hs) as Hw'. by rewrite (HM _ _ _ E Hw').
Qed.

Section step.
Context (p : program) (fd : fdata) (G Fn L B : gmap N string).
Context (HG : inj_names G) (HF : inj_names Fn) (HL : inj_names L) (HB : inj_names B)
  (HGL : ∀ v w n, G !! v = Some n → L !! w = Some n → False)
  (Hfn : ∀ f x n, p_funcs p !! f = Some x → Fn !! f = Some n → f_name x = n)
  (Hnames : names_of fd L B).

Lemma asks_fun o r r' : asks p fd G Fn L B o r → asks p fd G Fn L B o r' → r = r'.
Proof.
  destruct o as [n|n|n|n]; simpl.
  - intros (v & d & H1 & H2 & ->) (w & e & H3 & H4 & ->). rewrite (HG _ _ _ H2 H4) in *. congruence.
  - intros (v & d & H1 & H2 & ->) (w & e & H3 & H4 & ->). rewrite (HF _ _ _ H2 H4) in *. congruence.
  - intros (v & d & H1 & H2) (w & e & H3 & H4). unfold is_called in *.
    destruct (is_global_id v) eqn:E1, (is_global_id w) eqn:E2.
    + destruct H2 as [H2 ->], H4 as [H4 ->]. rewrite (HG _ _ _ H1 H3) in *. congruence.
    + by destruct (HGL _ _ _ H1 H3).
    + by destruct (HGL _ _ _ H3 H1).
    + destruct H2 as [H2 ->], H4 as [H4 ->]. rewrite (HL _ _ _ H1 H3) in *. congruence.
  - intros (v & d & H1 & H2 & ->) (w & e & H3 & H4 & ->). rewrite (HB _ _ _ H2 H4) in *. congruence.
Qed.
(** Enough to serve one of the requests *)
Lemma served_by m o m' r : asks p fd G Fn L B o r → serve_name r m = Some (Some (occ_name o), m') → served p fd G Fn L B m o m'.
Proof. intros Hr Hs r' Hr'. by rewrite (asks_fun _ _ _ Hr' Hr). Qed.

Lemma step_local m st v d n : nrel G Fn L B m st → vals fd !! v = Some d → L !! v = Some n → kept_name n (v_name d) → n ∉ wr_vals st →
  n ∉ wr_globals st →
  (n = numbered (wr_count st) → ∃ m', value_name false v (v_name d) m = Some (n, m') ∧
     nrel G Fn L B m' (Written (wr_count st + 1) (wr_globals st) (wr_funs st) ({[n]} ∪ wr_vals st) (wr_blks st)) ∧ nm_gvars m' = nm_gvars m) ∧
  (ordinary n → n ∉ wr_funs st → ∃ m', value_name false v (v_name d) m = Some (n, m') ∧
     nrel G Fn L B m' (Written (wr_count st) (wr_globals st) (wr_funs st) ({[n]} ∪ wr_vals st) (wr_blks st)) ∧ nm_gvars m' = nm_gvars m).
Proof.
  intros [] Hd Hl [Ht Ho] Hnv Hng.
  pose proof (unnamed _ _ _ _ _ nr_vals0 Hl nr_wv0 Hnv) as Hun. unfold value_name. rewrite Hun. split.
  - intros En. assert (Htmp : temporary n).
    { rewrite En, numbered_temp. simpl. constructor; [by left|]. apply digits_percent, pretty_N_digits. }
    rewrite (Ht Htmp). simpl. rewrite nr_prefix0, nr_next0. eexists. split; [rewrite En, numbered_temp; reflexivity|].
    rewrite <- numbered_temp, <- En. split; [|done]. constructor; simpl; try done.
    + by apply sub_insert.
    + by apply named_insert.
    + intros x. rewrite !elem_of_union, nr_names0. naive_solver.
    + intros x [->%elem_of_singleton|Hx]%elem_of_union; [|by apply nr_apart0]. split; [done|]. intros Hf.
      apply nr_ord0 in Hf. by eapply temporary_not_ordinary.
  - intros Hord Hnf. rewrite (Ho Hord). simpl. rewrite nr_prefix0. rewrite next_fresh; [|rewrite nr_names0; naive_solver]. simpl.
    eexists. split; [done|]. split; [|done]. constructor; simpl; try done.
    + by apply sub_insert.
    + by apply named_insert.
    + intros x. rewrite !elem_of_union, nr_names0. naive_solver.
    + intros x [->%elem_of_singleton|Hx]%elem_of_union; [done|by apply nr_apart0].
Qed.
Lemma step m st o st' r : nrel G Fn L B m st → (∀ v, nm_gvars m !! v = G !! v) → writes st o st' → asks p fd G Fn L B o r →
  (∀ n, o ≠ OGlobal n) →
  ∃ m', served p fd G Fn L B m o m' ∧ nrel G Fn L B m' st' ∧ (∀ v, nm_gvars m' !! v = G !! v) ∧ nm_in_func m' = nm_in_func m.
Proof.
  intros R Hfull Hw Hr Hng.
  assert (Hin : ∀ r s m', serve_name r m = Some (Some s, m') → nm_in_func m' = nm_in_func m).
  { clear. intros r s m' H. destruct r; cbn [serve_name] in H; try (by apply bind_Some in H as (? & ? & ?); simplify_eq); try done.
    all: apply bind_Some in H as ([a m1] & H & E); injection E as -> ->; unfold func_name, bb_name_, value_name, temp_value_name in H.
    - case_match; [by injection H as <- <-|]. apply bind_Some in H as ([b q] & _ & E). by injection E as <- <-.
    - case_match; [by injection H as <- <-|]. apply bind_Some in H as ([[b q] q'] & _ & E). by injection E as <- <-.
    - case_match; [by injection H as <- <-|]. apply bind_Some in H as ([[b q] q'] & _ & E). by injection E as <- <-.
    - case_match; [by injection H as <- <-|]. apply bind_Some in H as ([[b q] q'] & _ & E). by injection E as <- <-.
    - apply bind_Some in H as ([[b q] q'] & _ & E). by injection E as <- <-. }
  assert (Hgo : ∀ m', serve_name r m = Some (Some (occ_name o), m') → nrel G Fn L B m' st' → (∀ v, nm_gvars m' !! v = G !! v) →
    ∃ m', served p fd G Fn L B m o m' ∧ nrel G Fn L B m' st' ∧ (∀ v, nm_gvars m' !! v = G !! v) ∧ nm_in_func m' = nm_in_func m).
  { intros m' Hs HR Hgv. exists m'. split_and!; [by eapply served_by|done|done|by eapply Hin]. }
  destruct o as [n|n|n|n]; [by destruct (Hng n)| | |].
  - destruct Hr as (f & x & Hf & Hn & ->). pose proof (Hfn _ _ _ Hf Hn) as En. pose proof R as [].
    inversion Hw; subst; simpl in *.
    + apply (Hgo m); [|done|done]. simpl. unfold func_name.
      by rewrite (renamed _ _ _ _ _ nr_funcs0 HF Hn nr_wf0).
    + pose proof (unnamed _ _ _ _ _ nr_funcs0 Hn nr_wf0 ltac:(done)) as Hun.
      eapply Hgo; simpl.
      * unfold func_name. rewrite Hun. rewrite nr_prefix0. rewrite next_fresh; [simpl; reflexivity|rewrite nr_names0; naive_solver].
      * constructor; simpl; try done.
        -- by apply sub_insert.
        -- by apply named_insert.
        -- intros y. rewrite !elem_of_union, nr_names0. naive_solver.
        -- intros y Hy. split; [by apply nr_apart0|]. intros [->%elem_of_singleton|Hx]%elem_of_union; [done|by apply (nr_apart0 y)].
        -- intros y [->%elem_of_singleton|Hx]%elem_of_union; [done|by apply nr_ord0].
      * done.
  - destruct Hr as (v & d & Hc & Hr). unfold is_called in Hc. destruct (is_global_id v) eqn:Eg.
    + destruct Hr as [Hd ->]. pose proof R as [].
      assert (Hst : st' = st).
      { inversion Hw; subst; [done|exfalso..]; simpl in *; (match goal with A : _ ∉ _ |- _ => apply A; apply nr_wg0; exists v; rewrite Hfull; exact Hc end). }
      subst st'. apply (Hgo m); [|done|done]. simpl. unfold value_name. rewrite Hfull. by rewrite Hc.
    + destruct Hr as [Hd ->]. destruct (no_val _ _ _ Hnames _ _ Hc) as (_ & d' & Hd' & Hk & _). rewrite Hd in Hd'. injection Hd' as <-.
      pose proof R as [].
      inversion Hw; subst; simpl in *.
      * apply (Hgo m); [|done|done]. simpl. match goal with A : _ ∈ _ ∨ _ ∈ _ |- _ => destruct A as [H|H] end.
        { apply nr_wg0 in H as [w H]. rewrite Hfull in H. by destruct (HGL _ _ _ H Hc). }
        unfold value_name. by rewrite (renamed _ _ _ _ _ nr_vals0 HL Hc nr_wv0).
      * destruct (step_local _ _ _ _ _ R Hd Hc Hk) as [Hs _]; [done..|]. destruct Hs as (m' & Hs & HR & Hg); [done|].
        apply (Hgo m'); [by rewrite Hs|done|by rewrite Hg].
      * destruct (step_local _ _ _ _ _ R Hd Hc Hk) as [_ Hs]; [done..|]. destruct Hs as (m' & Hs & HR & Hg); [done..|].
        apply (Hgo m'); [by rewrite Hs|done|by rewrite Hg].
  - destruct Hr as (v & d & Hd & Hc & ->). destruct (no_blk _ _ _ Hnames _ _ Hc) as (d' & Hd' & [Ht Ho]). rewrite Hd in Hd'. injection Hd' as <-.
    pose proof R as [].
    inversion Hw; subst; simpl in *.
    + apply (Hgo m); [|done|done]. simpl. unfold bb_name_.
      by rewrite (renamed _ _ _ _ _ nr_blks0 HB Hc nr_wb0).
    + pose proof (unnamed _ _ _ _ _ nr_blks0 Hc nr_wb0 ltac:(done)) as Hun.
      assert (Htmp : temporary (numbered k)).
      { rewrite numbered_temp. simpl. constructor; [by left|]. apply digits_percent, pretty_N_digits. }
      rewrite (Ht Htmp) in Hgo. eapply Hgo; simpl.
      * unfold bb_name_. rewrite Hun. simpl. rewrite nr_prefix0, nr_next0. rewrite numbered_temp. reflexivity.
      * rewrite <- numbered_temp. constructor; simpl; try done.
        -- by apply sub_insert.
        -- by apply named_insert.
        -- intros y. rewrite !elem_of_union, nr_bnames0. naive_solver.
      * done.
    + pose proof (unnamed _ _ _ _ _ nr_blks0 Hc nr_wb0 ltac:(done)) as Hun.
      rewrite (Ho ltac:(done)) in Hgo. eapply Hgo; simpl.
      * unfold bb_name_. rewrite Hun. simpl. rewrite nr_prefix0. rewrite next_fresh; [simpl; reflexivity|rewrite nr_bnames0; done].
      * constructor; simpl; try done.
        -- by apply sub_insert.
        -- by apply named_insert.
        -- intros y. rewrite !elem_of_union, nr_bnames0. naive_solver.
      * done.
Qed.
Lemma steps st l st' : writes_all st l st' → ∀ m, nrel G Fn L B m st → (∀ v, nm_gvars m !! v = G !! v) →
  Forall (λ o, (∃ r, asks p fd G Fn L B o r) ∧ ∀ n, o ≠ OGlobal n) l →
  ∃ m', served_all p fd G Fn L B m l m' ∧ nrel G Fn L B m' st' ∧ (∀ v, nm_gvars m' !! v = G !! v) ∧ nm_in_func m' = nm_in_func m.
Proof.
  induction 1 as [st|st o st1 l st2 Hw _ IH]; intros m R Hg Hl.
  - exists m. split; [constructor|done].
  - apply list.Forall_cons in Hl as [[[r Hr] Hn] Hl]. destruct (step _ _ _ _ _ R Hg Hw Hr Hn) as (m1 & H1 & R1 & Hg1 & Hi1).
    destruct (IH _ R1 Hg1 Hl) as (m2 & H2 & R2 & Hg2 & Hi2). exists m2. split; [by econstructor|]. split_and!; [done|done|congruence].
Qed.
End step.
