(** The names that the printer gives to what it meets: every name is fresh, can be read back,
    and is written as in a canonical text. *)
From Coq Require Import Lia ZifyBool ZifyNat ZifyN.
From Verif Require Import Base IdModel TypeModel IrModel LayoutModel TextModel NameModel LexerModel LexerSpec ParserModel ParserSpec
  DfgSpec FlowSpec PrintSpec FaithSpec FaithProofs RoundProofs LexerRunProofs KoopaModel CanonSpec TreeTextProofs CanonNameProofs NameProofs.

(** ** Characters of names *)
Lemma numeric_ascii c : (N_of_ascii c < 128)%N → is_numeric c = true → percent_or_digit c.
Proof. intros H. unfold is_numeric, is_ascii_digit. intros. right. lia. Qed.
Lemma ordinary_not_temporary n : ascii_only n → ¬ temporary n → ordinary n.
Proof.
  unfold ascii_only, temporary, ordinary. intros Ha Ht. set (l := String.list_ascii_of_string n) in *.
  assert (Hd : ∀ c, Decision (percent_or_digit c)) by (intros c; unfold percent_or_digit; apply _).
  apply not_Forall_Exists in Ht; [|done]. apply Exists_exists in Ht as (c & Hc & Hn). exists c. split_and!; [done| |done].
  eapply list.Forall_forall in Ha; [|exact Hc]. done.
Qed.
Lemma ordinary_named n : wf_name n → ordinary n → ∃ tag c cs, String.list_ascii_of_string n = tag :: c :: cs ∧
  (tag = "@"%char ∨ tag = "%"%char) ∧ is_numeric c = false ∧ Forall (λ c, is_symbol_char c = true) (c :: cs).
Proof.
  intros [Ha Hs] Ho. unfold ascii_only in Ha. inversion Hs as [E|d ds Hd Hz Hds E|tag c cs Ht Hc Hcs E].
  - exfalso. eapply temporary_not_ordinary; [|exact Ho]. unfold temporary. rewrite <- E. constructor; [by left|].
    constructor; [|constructor]. right. vm_compute. by split.
  - exfalso. eapply temporary_not_ordinary; [|exact Ho]. unfold temporary. rewrite <- E in Ha |- *.
    inversion Ha as [|? ? _ Ha1]; subst. inversion Ha1 as [|? ? Hd1 Ha2]; subst. constructor; [by left|].
    constructor; [by apply numeric_ascii|]. apply list.Forall_forall. intros c Hc. apply numeric_ascii.
    + eapply list.Forall_forall in Ha2; [|exact Hc]. done.
    + eapply list.Forall_forall in Hds; [|exact Hc]. done.
  - exists tag, c, cs. done.
Qed.
Lemma wf_numbered k : wf_name (numbered k).
Proof.
  unfold numbered. destruct (show_N_spec k) as ((Hne & Hd) & _ & H0). split.
  - unfold ascii_only. constructor; [vm_compute; done|]. eapply list.Forall_impl; [exact Hd|].
    unfold is_ascii_digit. intros c Hc. simpl in *. lia.
  - change (symbol_text ("%"%char :: String.list_ascii_of_string (show_N k))).
    destruct (String.list_ascii_of_string (show_N k)) as [|d ds]; [done|].
    assert (Hn : ∀ c, is_ascii_digit c = true → is_numeric c = true) by (intros c Hc; unfold is_numeric; by rewrite Hc).
    inversion Hd as [|? ? Hd1 Hds]; subst. destruct (decide (d = "0"%char)) as [-> |Hz].
    + destruct (H0 _ _ eq_refl eq_refl) as [_ ->]. constructor.
    + constructor; [by apply Hn|done|]. eapply list.Forall_impl; [exact Hds|]. simpl. auto.
Qed.
Lemma numbered_temporary k : temporary (numbered k).
Proof. rewrite numbered_temp. simpl. constructor; [by left|]. apply digits_percent, pretty_N_digits. Qed.
Lemma numbered_inj j k : numbered j = numbered k → j = k.
Proof. rewrite !numbered_temp. simpl. intros H. injection H as H. by apply (inj pretty) in H. Qed.
Lemma wf_suffix n (j : N) : wf_name n → ordinary n → wf_name (n +:+ "_" +:+ pretty j) ∧ ordinary (n +:+ "_" +:+ pretty j).
Proof.
  intros Hw Ho. destruct (ordinary_named _ Hw Ho) as (tag & c & cs & E & Ht & Hc & Hcs).
  pose proof (pretty_N_digits j) as Hd. split; [split|].
  - unfold ascii_only. rewrite !list_ascii_app. apply list.Forall_app. split; [apply Hw|]. constructor; [vm_compute; done|].
    eapply list.Forall_impl; [exact Hd|]. unfold is_digit_char. simpl. intros. lia.
  - rewrite !list_ascii_app, E. simpl. apply sym_named; [done|done|]. rewrite app_comm_cons. apply list.Forall_app. split; [done|].
    constructor; [done|]. eapply list.Forall_impl; [exact Hd|]. unfold is_digit_char. simpl. intros x Hx.
    unfold is_symbol_char, is_alphanumeric, is_numeric, is_ascii_digit. simpl. lia.
  - destruct Ho as (x & Hx & Hn). exists x. split; [|done]. rewrite !list_ascii_app. set_solver.
Qed.

(** ** Fresh names *)
Definition nice (o : option string) : Prop := ∀ n, o = Some n → ordinary n ∧ wf_name n.
Lemma kept_nice n o : wf_name n → kept_name n o → nice o.
Proof.
  intros Hw [Ht Ho] x ->. assert (Hd : Decision (temporary n)) by (unfold temporary, percent_or_digit; apply _).
  destruct Hd as [H|H]; [by apply Ht in H|]. apply ordinary_not_temporary in H; [|apply Hw]. apply Ho in H as E. injection E as ->. done.
Qed.
Lemma fresh_str o names : ordinary o → wf_name o →
  ∃ n, next_name_str PDefault o names = Some (n, {[n]} ∪ names) ∧ n ∉ names ∧ wf_name n ∧ ordinary n.
Proof.
  intros Ho Hw. destruct (next_name_str_total PDefault o names) as [[n names'] E]; [done|].
  pose proof (next_name_str_Some _ _ _ _ _ E) as (Hn & -> & s & Hs & Hc). simpl in Hs. injection Hs as <-.
  exists n. split_and!; [done|done|..]; destruct Hc as [-> |(_ & j & ->)]; try done; by apply wf_suffix.
Qed.
Lemma fresh id o names : nice o → (numbered id ∉ names) →
  ∃ n id', next_name PDefault id o names = Some (n, id', {[n]} ∪ names) ∧ n ∉ names ∧ wf_name n ∧
    ((n = numbered id ∧ id' = id + 1) ∨ (ordinary n ∧ id' = id))%N.
Proof.
  intros Ho Hid. destruct o as [o|]; cbn [next_name].
  - destruct (Ho o eq_refl) as [H1 H2]. destruct (fresh_str o names H1 H2) as (n & E & Hn & Hw & Hord). rewrite E. simpl. eauto 10.
  - exists (numbered id), (id + 1)%N. rewrite <- numbered_temp. split_and!; [done|done|apply wf_numbered|by left].
Qed.

(** ** The names given so far *)
Record ninv (m : nm) (st : written) : Prop := {
  ni_rel : nrel (nm_gvars m) (nm_funcs m) (nm_values m) (nm_bbs m) m st;
  ni_g : inj_names (nm_gvars m);
  ni_f : inj_names (nm_funcs m);
  ni_v : inj_names (nm_values m);
  ni_b : inj_names (nm_bbs m);
  ni_gf : ∀ n, n ∈ wr_globals st → n ∉ wr_funs st;
  ni_num : ∀ k, numbered k ∈ wr_globals st ∨ numbered k ∈ wr_vals st ∨ numbered k ∈ wr_blks st → (k < wr_count st)%N;
  ni_wf : ∀ n, n ∈ wr_globals st ∨ n ∈ wr_funs st ∨ n ∈ wr_vals st ∨ n ∈ wr_blks st → wf_name n;
}.
Lemma ninv0 : ninv nm0 written0.
Proof.
  constructor; simpl.
  - constructor; simpl; try done; try (intros n; split; [by intros ?%elem_of_empty|by intros [? ?]]).
    set_solver.
  - by intros ? ? ? ?.
  - by intros ? ? ? ?.
  - by intros ? ? ? ?.
  - by intros ? ? ? ?.
  - by intros n ?%elem_of_empty.
  - intros k [?%elem_of_empty|[?%elem_of_empty|?%elem_of_empty]]; done.
  - intros n. set_solver.
Qed.
Lemma inj_insert (m : gmap N string) v n (S : gset string) : inj_names m → (∀ x, x ∈ S ↔ ∃ w, m !! w = Some x) → n ∉ S → inj_names (<[v := n]> m).
Proof.
  intros Hm HS Hn a b x. rewrite !lookup_insert_Some. intros [[<- <-]|[Ha1 Ha]] [[<- E]|[Hb1 Hb]]; [done| | |by eapply Hm].
  - destruct Hn. apply HS. eauto.
  - subst. destruct Hn. apply HS. eauto.
Qed.

(** ** What the printer asks for *)
Inductive handle := HGlobal (v : value) | HFun (f : func) | HVal (v : value) | HBlk (b : bblock).
Section asks.
Context (p : program) (fd : fdata).
Definition name_in (G Fn L B : gmap N string) (h : handle) : option string :=
  match h with
  | HGlobal v => G !! v
  | HFun f => Fn !! f
  | HVal v => if is_global_id v then G !! v else L !! v
  | HBlk b => B !! b
  end.
Definition named_in (m : nm) : handle → option string := name_in (nm_gvars m) (nm_funcs m) (nm_values m) (nm_bbs m).
Definition occ_of (h : handle) (n : string) : occ :=
  match h with HGlobal _ => OGlobal n | HFun _ => OFun n | HVal _ => OVal n | HBlk _ => OBlk n end.
Definition request (h : handle) (r : nreq) : Prop :=
  match h with
  | HGlobal v => ∃ d, p_values p !! v = Some d ∧ r = QGlobal v (v_name d)
  | HFun f => ∃ x, p_funcs p !! f = Some x ∧ r = QFunc f (f_name x)
  | HVal v => if is_global_id v then ∃ d, p_values p !! v = Some d ∧ r = QGlobal v (v_name d)
              else ∃ d, vals fd !! v = Some d ∧ r = QLocal v (v_name d)
  | HBlk b => ∃ d, blks fd !! b = Some d ∧ r = QBB b (bb_name d)
  end.
(** Global variables are named when they are defined. *)
Definition can (gv : gmap N string) (h : handle) : Prop :=
  match h with
  | HGlobal v => gv !! v = None ∧ ∃ d, p_values p !! v = Some d ∧ nice (v_name d)
  | HFun f => ∃ x, p_funcs p !! f = Some x ∧ nice (Some (f_name x))
  | HVal v => if is_global_id v then is_Some (gv !! v) ∧ is_Some (p_values p !! v)
              else ∃ d, vals fd !! v = Some d ∧ nice (v_name d)
  | HBlk b => ∃ d, blks fd !! b = Some d ∧ nice (bb_name d)
  end.
Definition grows (m m' : nm) : Prop :=
  nm_gvars m ⊆ nm_gvars m' ∧ nm_funcs m ⊆ nm_funcs m' ∧ nm_values m ⊆ nm_values m' ∧ nm_bbs m ⊆ nm_bbs m' ∧ nm_in_func m' = nm_in_func m.
Lemma grows_refl m : grows m m.
Proof. done. Qed.
Lemma grows_trans m m1 m2 : grows m m1 → grows m1 m2 → grows m m2.
Proof. intros (A1 & A2 & A3 & A4 & A5) (B1 & B2 & B3 & B4 & B5). unfold grows. split_and!; [by etrans..|congruence]. Qed.
Lemma grows_name m m' h n : grows m m' → named_in m h = Some n → named_in m' h = Some n.
Proof.
  intros (A1 & A2 & A3 & A4 & _). destruct h; simpl; try case_match; intros Hx; eapply lookup_weaken; done.
Qed.

Lemma serve_one m st h : ninv m st → can (nm_gvars m) h →
  ∃ r n m' st', request h r ∧ serve_name r m = Some (Some n, m') ∧ named_in m' h = Some n ∧ writes st (occ_of h n) st' ∧
    ninv m' st' ∧ grows m m' ∧ ((∀ v, h ≠ HGlobal v) → nm_gvars m' = nm_gvars m) ∧ (∀ v, h = HGlobal v → nm_gvars m' = <[v := n]> (nm_gvars m)).
Proof.
  intros I Hc. pose proof I as [R Ig If Iv Ib Igf Inum Iwf]. pose proof R as [].
  destruct st as [k Gs Fs Vs Bs]. simpl in *.
  assert (Hk1 : numbered k ∉ nm_global_names m).
  { intros [H|[H|H]]%nr_names.
    - enough (k < k)%N by lia. apply Inum. auto.
    - apply nr_ord in H. eapply temporary_not_ordinary; [|exact H]. apply numbered_temporary.
    - enough (k < k)%N by lia. apply Inum. auto. }
  assert (Hk2 : numbered k ∉ nm_bb_names m).
  { intros H%nr_bnames. enough (k < k)%N by lia. apply Inum. auto. }
  destruct h as [v|f|v|b]; simpl in Hc.
  - (* a global variable *)
    destruct Hc as (Hnew & d & Hd & Hnice). destruct (fresh k _ (nm_global_names m) Hnice Hk1) as (n & id & E & Hn & Hw & Hcase).
    exists (QGlobal v (v_name d)), n. eexists. exists (Written id ({[n]} ∪ Gs) Fs Vs Bs). split; [by exists d|].
    split. { simpl. unfold value_name. rewrite Hnew, nr_prefix, nr_next, E. simpl. reflexivity. }
    rewrite nr_names in Hn. simpl. split; [apply lookup_insert|]. split.
    { destruct Hcase as [[-> ->]|[Ho ->]].
      - apply w_global_num. naive_solver.
      - apply w_global; naive_solver. }
    split; [|split; [|split; [intros Hx; by destruct (Hx v)|by intros ? [= ->]]]].
    + constructor; simpl; try done.
      * constructor; simpl; try done.
        -- by apply named_insert.
        -- intros x. rewrite !elem_of_union, nr_names. naive_solver.
        -- intros x Hx. destruct (nr_apart _ Hx) as [? ?]. split; [|done]. intros [->%elem_of_singleton|?]%elem_of_union; naive_solver.
      * eapply inj_insert; [done|done|]. naive_solver.
      * intros x [->%elem_of_singleton|?]%elem_of_union; [naive_solver|by apply Igf].
      * intros j Hj. assert (Hid : (k ≤ id)%N) by (destruct Hcase as [[_ ->]|[_ ->]]; lia).
        destruct Hj as [[Hj%elem_of_singleton|Hj]%elem_of_union|Hj].
        -- destruct Hcase as [[-> ->]|[Ho ->]]; [apply numbered_inj in Hj as ->; lia|]. rewrite <- Hj in Ho.
           exfalso. eapply temporary_not_ordinary; [|exact Ho]. apply numbered_temporary.
        -- enough (j < k)%N by lia. apply Inum. auto.
        -- enough (j < k)%N by lia. apply Inum. auto.
      * intros x. rewrite elem_of_union, elem_of_singleton. intros [[-> |?]|?]; [done|apply Iwf; auto..].
    + unfold grows. simpl. split_and!; try done. by apply insert_subseteq.
  - (* a function *)
    destruct Hc as (x & Hx & Hnice). destruct (nm_funcs m !! f) as [n|] eqn:Ef.
    + exists (QFunc f (f_name x)), n, m, (Written k Gs Fs Vs Bs). split; [by exists x|]. split; [simpl; unfold func_name; by rewrite Ef|].
      split; [done|]. split; [apply w_fun_again, nr_wf; eauto|]. split; [done|]. split; [done|]. split; [done|]. intros ? [=].
    + destruct (Hnice _ eq_refl) as [Ho Hw0]. destruct (fresh_str _ (nm_global_names m) Ho Hw0) as (n & E & Hn & Hw & Hord).
      exists (QFunc f (f_name x)), n. eexists. exists (Written k Gs ({[n]} ∪ Fs) Vs Bs). split; [by exists x|].
      split. { simpl. unfold func_name. rewrite Ef, nr_prefix, E. simpl. reflexivity. }
      rewrite nr_names in Hn. simpl. split; [apply lookup_insert|]. split; [apply w_fun; naive_solver|].
      split; [|split; [|split; [done|intros ? [=]]]].
      * constructor; simpl; try done.
        -- constructor; simpl; try done.
           ++ by apply named_insert.
           ++ intros y. rewrite !elem_of_union, nr_names. naive_solver.
           ++ intros y Hy. destruct (nr_apart _ Hy) as [? ?]. split; [done|]. intros [->%elem_of_singleton|?]%elem_of_union; naive_solver.
           ++ intros y [->%elem_of_singleton|?]%elem_of_union; auto.
        -- eapply inj_insert; [done|done|]. naive_solver.
        -- intros y Hy [->%elem_of_singleton|?]%elem_of_union; [naive_solver|by apply (Igf y)].
        -- intros y. rewrite elem_of_union, elem_of_singleton. intros [?|[[-> |?]|?]]; [|done|..]; apply Iwf; auto.
      * unfold grows. simpl. split_and!; try done. by apply insert_subseteq.
  - destruct (is_global_id v) eqn:Eg.
    { (* a use of a global variable *)
      destruct Hc as [[n Hn] [d Hd]]. exists (QGlobal v (v_name d)), n, m, (Written k Gs Fs Vs Bs).
      split; [simpl; rewrite Eg; by exists d|]. split; [simpl; unfold value_name; by rewrite Hn|].
      split; [unfold named_in, name_in; by rewrite Eg|]. split; [apply w_val_again; left; apply nr_wg; eauto|].
      split; [done|]. split; [done|]. split; [done|]. intros ? [=]. }
    destruct Hc as (d & Hd & Hnice). destruct (nm_values m !! v) as [n|] eqn:Ev.
    { exists (QLocal v (v_name d)), n, m, (Written k Gs Fs Vs Bs).
      split; [simpl; rewrite Eg; by exists d|]. split; [simpl; unfold value_name; by rewrite Ev|].
      split; [unfold named_in, name_in; by rewrite Eg|]. split; [apply w_val_again; right; apply nr_wv; eauto|].
      split; [done|]. split; [done|]. split; [done|]. intros ? [=]. }
    destruct (fresh k _ (nm_global_names m) Hnice Hk1) as (n & id & E & Hn & Hw & Hcase).
    exists (QLocal v (v_name d)), n. eexists. exists (Written id Gs Fs ({[n]} ∪ Vs) Bs). split; [simpl; rewrite Eg; by exists d|].
    split. { simpl. unfold value_name. rewrite Ev, nr_prefix, nr_next, E. simpl. reflexivity. }
    rewrite nr_names in Hn. split; [unfold named_in, name_in; rewrite Eg; apply lookup_insert|]. split.
    { destruct Hcase as [[-> ->]|[Ho ->]].
      - apply w_val_num; naive_solver.
      - apply w_val; naive_solver. }
    split; [|split; [|split; [done|intros ? [=]]]].
    + constructor; simpl; try done.
      * constructor; simpl; try done.
        -- by apply named_insert.
        -- intros x. rewrite !elem_of_union, nr_names. naive_solver.
        -- intros x [->%elem_of_singleton|?]%elem_of_union; [naive_solver|by apply nr_apart].
      * eapply inj_insert; [done|done|]. naive_solver.
      * intros j Hj. assert (Hid : (k ≤ id)%N) by (destruct Hcase as [[_ ->]|[_ ->]]; lia).
        destruct Hj as [Hj|[[Hj%elem_of_singleton|Hj]%elem_of_union|Hj]].
        -- enough (j < k)%N by lia. apply Inum. auto.
        -- destruct Hcase as [[-> ->]|[Ho ->]]; [apply numbered_inj in Hj as ->; lia|]. rewrite <- Hj in Ho.
           exfalso. eapply temporary_not_ordinary; [|exact Ho]. apply numbered_temporary.
        -- enough (j < k)%N by lia. apply Inum. auto.
        -- enough (j < k)%N by lia. apply Inum. auto.
      * intros x. rewrite elem_of_union, elem_of_singleton. intros [?|[?|[[-> |?]|?]]]; try done; apply Iwf; auto.
    + unfold grows. simpl. split_and!; try done. by apply insert_subseteq.
  - destruct Hc as (d & Hd & Hnice). destruct (nm_bbs m !! b) as [n|] eqn:Eb.
    { exists (QBB b (bb_name d)), n, m, (Written k Gs Fs Vs Bs).
      split; [by exists d|]. split; [simpl; unfold bb_name_; by rewrite Eb|].
      split; [done|]. split; [apply w_blk_again, nr_wb; eauto|].
      split; [done|]. split; [done|]. split; [done|]. intros ? [=]. }
    destruct (fresh k _ (nm_bb_names m) Hnice Hk2) as (n & id & E & Hn & Hw & Hcase).
    exists (QBB b (bb_name d)), n. eexists. exists (Written id Gs Fs Vs ({[n]} ∪ Bs)). split; [by exists d|].
    split. { simpl. unfold bb_name_. rewrite Eb, nr_prefix, nr_next, E. simpl. reflexivity. }
    rewrite nr_bnames in Hn. simpl. split; [apply lookup_insert|]. split.
    { destruct Hcase as [[-> ->]|[Ho ->]].
      - apply w_blk_num; naive_solver.
      - apply w_blk; naive_solver. }
    split; [|split; [|split; [done|intros ? [=]]]].
    + constructor; simpl; try done.
      * constructor; simpl; try done.
        -- by apply named_insert.
        -- intros x. rewrite !elem_of_union, nr_bnames. naive_solver.
      * eapply inj_insert; [done|done|]. naive_solver.
      * intros j Hj. assert (Hid : (k ≤ id)%N) by (destruct Hcase as [[_ ->]|[_ ->]]; lia).
        destruct Hj as [Hj|[Hj|[Hj%elem_of_singleton|Hj]%elem_of_union]].
        -- enough (j < k)%N by lia. apply Inum. auto.
        -- enough (j < k)%N by lia. apply Inum. auto.
        -- destruct Hcase as [[-> ->]|[Ho ->]]; [apply numbered_inj in Hj as ->; lia|]. rewrite <- Hj in Ho.
           exfalso. eapply temporary_not_ordinary; [|exact Ho]. apply numbered_temporary.
        -- enough (j < k)%N by lia. apply Inum. auto.
      * intros x. rewrite elem_of_union, elem_of_singleton. intros [?|[?|[?|[-> |?]]]]; try done; apply Iwf; auto.
    + unfold grows. simpl. split_and!; try done. by apply insert_subseteq.
Qed.

(** *** One after the other *)
Inductive serves : nm → list handle → nm → Prop :=
  | sv_nil m : serves m [] m
  | sv_cons m h r n m1 l m2 : request h r → serve_name r m = Some (Some n, m1) → named_in m1 h = Some n → grows m m1 →
      serves m1 l m2 → serves m (h :: l) m2.
Lemma serves_grows m l m' : serves m l m' → grows m m'.
Proof. induction 1; [apply grows_refl|by eapply grows_trans]. Qed.
(** How the handles are written, with names from [nms] *)
Definition writes_as (nms : handle → option string) (hs : list handle) (os : list occ) : Prop :=
  Forall2 (λ h o, ∃ n, nms h = Some n ∧ o = occ_of h n) hs os.
Lemma serve_all hs : ∀ m st, ninv m st → Forall (λ h, can (nm_gvars m) h ∧ ∀ v, h ≠ HGlobal v) hs →
  ∃ m' st' os, serves m hs m' ∧ writes_as (named_in m') hs os ∧ writes_all st os st' ∧ ninv m' st' ∧ nm_gvars m' = nm_gvars m.
Proof.
  induction hs as [|h hs IH]; intros m st I Hc.
  - exists m, st, []. split_and!; [constructor|constructor|constructor|done|done].
  - apply list.Forall_cons in Hc as [[Hc Hng] Hcs].
    destruct (serve_one _ _ _ I Hc) as (r & n & m1 & st1 & Hr & Hs & Hn & Hw & I1 & Hg & Hsame & _). specialize (Hsame Hng).
    destruct (IH m1 st1 I1) as (m2 & st2 & os & Hs2 & Hos & Hw2 & I2 & Hsame2); [by rewrite Hsame|].
    exists m2, st2, (occ_of h n :: os). split_and!.
    + by econstructor.
    + constructor; [|done]. exists n. split; [|done]. eapply grows_name; [by eapply serves_grows|done].
    + by econstructor.
    + done.
    + congruence.
Qed.
(** The answers are those of the final names. *)
Lemma request_asks G Fn L B h r n : request h r → name_in G Fn L B h = Some n → asks p fd G Fn L B (occ_of h n) r.
Proof.
  destruct h as [v|f|v|b]; simpl; intros Hr Hn.
  - destruct Hr as (d & Hd & ->). by exists v, d.
  - destruct Hr as (d & Hd & ->). by exists f, d.
  - destruct (is_global_id v) eqn:E; destruct Hr as (d & Hd & ->); exists v, d; unfold is_called; rewrite E; done.
  - destruct Hr as (d & Hd & ->). by exists b, d.
Qed.
Lemma serves_all G Fn L B hs os m m' : inj_names G → inj_names Fn → inj_names L → inj_names B →
  (∀ v w n, G !! v = Some n → L !! w = Some n → False) →
  serves m hs m' → nm_gvars m' ⊆ G → nm_funcs m' ⊆ Fn → nm_values m' ⊆ L → nm_bbs m' ⊆ B →
  writes_as (name_in G Fn L B) hs os → served_all p fd G Fn L B m os m'.
Proof.
  intros HG HF HL HB HGL Hs SG SF SL SB. revert os. induction Hs as [m|m h r n m1 l m2 Hr Hs Hn Hg H IH]; intros os Hw; inversion Hw as [|? o ? os' (n' & Hn' & ->) Hw']; subst.
  - constructor.
  - assert (Hn2 : name_in G Fn L B h = Some n).
    { pose proof (grows_name _ _ _ _ (serves_grows _ _ _ H) Hn) as A. unfold named_in in A.
      destruct h; simpl in *; try case_match; eapply lookup_weaken; done. }
    rewrite Hn2 in Hn'. injection Hn' as <-.
    econstructor; [|by apply IH]. eapply served_by; [done..|by eapply request_asks|]. by destruct h.
Qed.
End asks.
