(** Calls drop the variables they allocate, and no others (C67). *)
From Coq Require Import Lia ZifyBool ZifyNat ZifyN.
From stdpp Require Import list gmap.
From Verif Require Import Base IdModel TypeModel IrModel LayoutModel ArithModel InterpModel InterpSimProofs KeepProofs LeakSpec.

Definition okp {A} (P : A → Prop) (r : xres A) : Prop := match r with XOk a => P a | _ => True end.
Lemma okp_bind {A B} (P : A → Prop) (Q : B → Prop) (r : xres A) (k : A → xres B) :
  okp P r → (∀ a, P a → okp Q (k a)) → okp Q (r ≫= k).
Proof. destruct r; simpl; auto. Qed.
Lemma okp_any {A B} (Q : B → Prop) (r : xres A) (k : A → xres B) : (∀ a, okp Q (k a)) → okp Q (r ≫= k).
Proof. destruct r; simpl; auto. Qed.
Lemma okp_mono {A} (P Q : A → Prop) (r : xres A) : (∀ a, P a → Q a) → okp P r → okp Q r.
Proof. destruct r; simpl; auto. Qed.

Section run.
Context {E : Type} (C : xconfig E) (p : program) (vars : gmap N xval).
Record grows (W : xworld E) (F : xframe) (W' : xworld E) (F' : xframe) : Prop := {
  gw_numbered : numbered W';
  gw_next : (x_next W ≤ x_next W')%N;
  gw_kept : ∀ b, is_Some (x_mem W !! b) → is_Some (x_mem W' !! b);
  gw_made : ∀ b, is_Some (x_mem W' !! b) → is_Some (x_mem W !! b) ∨ b ∈ xf_allocs F';
  gw_allocs : ∀ b, b ∈ xf_allocs F → b ∈ xf_allocs F';
  gw_fresh : ∀ b, b ∈ xf_allocs F' → b ∈ xf_allocs F ∨ (x_next W ≤ b)%N;
}.
Lemma grows_trans W1 F1 W2 F2 W3 F3 : grows W1 F1 W2 F2 → grows W2 F2 W3 F3 → grows W1 F1 W3 F3.
Proof.
  intros [A1 A2 A3 A4 A5 A6] [B1 B2 B3 B4 B5 B6]. constructor; [done|lia|auto| |auto|].
  - intros b Hb. destruct (B4 b Hb) as [H|H]; [|by right]. destruct (A4 b H) as [H'|H']; [by left|right; auto].
  - intros b Hb. destruct (B6 b Hb) as [H|H]; [auto|]. right. lia.
Qed.
(** Nothing is made or dropped. *)
Lemma grows_same W F W' F' : numbered W → (x_next W ≤ x_next W')%N → (∀ b, is_Some (x_mem W' !! b) ↔ is_Some (x_mem W !! b)) →
  xf_allocs F' = xf_allocs F → grows W F W' F'.
Proof.
  intros Hn Hx Hm Ha. constructor; [intros b Hb%Hm%Hn; lia|done|intros b; apply Hm|intros b Hb; left; by apply Hm|by rewrite Ha|intros b Hb; left; by rewrite <- Ha].
Qed.
Lemma value_le fuel fd vs v n : okp (λ e, (n ≤ e.2)%N) (x_value p vars fuel fd vs v n).
Proof.
  unfold x_value. destruct (is_global_id v); apply okp_any; intros d; destruct (is_const (v_kind d)).
  - done.
  - apply okp_any. intros x. apply xclone_le.
  - destruct (x_const _ _ _ _) as [[x m]| | | |] eqn:Ex; try done. by eapply x_const_le.
  - apply okp_any. intros x. apply xclone_le.
Qed.
Lemma eval_upto fuel fd F v (W : xworld E) : okp (λ e, x_mem e.2 = x_mem W ∧ (x_next W ≤ x_next e.2)%N) (x_eval p vars fuel fd F v W).
Proof. unfold x_eval. eapply okp_bind; [apply value_le|]. by intros [x n] H. Qed.
Lemma evals_upto fuel fd F l (W : xworld E) : okp (λ e, x_mem e.2 = x_mem W ∧ (x_next W ≤ x_next e.2)%N) (x_evals p vars fuel fd F l W).
Proof.
  unfold x_evals. apply (okp_bind (λ e, (x_next W ≤ e.2)%N)); [|by intros [xs n] H].
  generalize (x_next W). induction l as [|v l IH]; intros n; cbn [x_each]; [simpl; lia|].
  eapply okp_bind; [apply value_le|]. intros [y n1] H1. simpl in H1. eapply okp_bind; [apply IH|]. intros [ys n2] H2. simpl in *. lia.
Qed.
Lemma params_grow fuel fd ps : ∀ args W F, numbered W → okp (λ e, grows W F e.1 e.2) (x_params p vars fuel fd ps args W F).
Proof.
  induction ps as [|q ps IH]; intros args W F Hn; [by apply grows_same|]. destruct args as [|a args]; [by apply grows_same|]. cbn [x_params].
  apply okp_any. intros _. eapply okp_bind; [apply eval_upto|]. intros [x W1] [H1 H2]. cbn [snd] in H1, H2.
  assert (Hg : grows W F W1 (x_insert q x F)) by (apply grows_same; [done|done|by rewrite H1|done]).
  eapply okp_mono; [|apply IH, Hg]. intros [W2 F2]. by apply grows_trans.
Qed.
Lemma write_boxes m q x : okp (λ m', ∀ b : N, is_Some (m' !! b) ↔ is_Some (m !! b)) (x_write m q x).
Proof.
  unfold x_write. destruct (m !! pt_box q) as [v|] eqn:Ev; [|done]. simpl. destruct (set_path v (pt_path q) x); [|done]. simpl. intros b.
  destruct (decide (b = pt_box q)) as [->|Hne]; [rewrite lookup_insert, Ev; split; by eexists|by rewrite lookup_insert_ne].
Qed.
(** ** Functions *)
Definition go_grows (go : fdata → list value → xworld E → xframe → xres (xval * xworld E * xframe)) : Prop :=
  ∀ fd is W F, numbered W → okp (λ e, grows W F e.1.2 e.2) (go fd is W F).
Lemma func_boxes go fd args W : go_grows go → numbered W →
  okp (λ e, same_boxes W e.2 ∧ numbered e.2 ∧ (x_next W ≤ x_next e.2)%N) (x_func C go fd args W).
Proof.
  intros Hgo Hn. unfold x_func. destruct (f_ty fd) as [| | | |ts t] eqn:Ht; try done. destruct (negb _); [done|]. destruct (l_bbs (f_layout fd)) as [|[b is] bs].
  - unfold x_extern_call. rewrite Ht. destruct (f_name fd) as [|c name]; [done|]. destruct (existsb _ _); [done|]. destruct (c_ext C name) as [h|]; [|done].
    destruct (28 <? length args)%nat; [done|]. apply okp_any. intros ws. destruct (h ws (x_extern W)) as [e w]. apply okp_any. intros x. simpl.
    split; [done|]. split; [exact Hn|lia].
  - destruct (params_exist fd); [|done]. eapply okp_bind; [by apply Hgo|]. intros [[x W1] F1] [G1 G2 G3 G4 G5 G6]. cbn [fst snd] in *. cbn [okp fst snd].
    assert (Hb : same_boxes W (x_drop (xf_allocs F1) W1)).
    { intros c. cbn [x_drop x_mem]. destruct (decide (c ∈ xf_allocs F1)) as [H|H].
      - rewrite (proj1 (lookup_drop _ _ _) H). split; [by intros []|]. intros Hc%Hn. destruct (G6 _ H) as [H'|H']; [by apply elem_of_nil in H'|lia].
      - rewrite (proj2 (lookup_drop _ _ _) H). split; [|apply G3]. intros Hc. by destruct (G4 _ Hc). }
    split; [exact Hb|]. split; [|exact G2]. intros c Hc. apply Hb, Hn in Hc. simpl. lia.
Qed.
(** ** Instructions and blocks *)
Lemma inst_grows go fuel fd v d W F : go_grows go → numbered W → okp (λ e, grows W F e.1 e.2) (x_inst C p vars go fuel fd v d W F).
Proof.
  intros Hgo Hn. unfold x_inst. destruct (v_kind d); try done.
  - unfold x_alloc. destruct (v_ty d) as [| | |t|]; try done. destruct (x_zeroinit t (x_next W)) as [[x n]| | | |] eqn:Ex; try done.
    apply x_zeroinit_le in Ex. simpl. constructor; simpl.
    + intros b. simpl. destruct (decide (b = n)) as [->|Hne]; [lia|]. rewrite lookup_insert_ne by done. intros Hb%Hn. lia.
    + lia.
    + intros b Hb. destruct (decide (b = n)) as [->|Hne]; [rewrite lookup_insert; by eexists|by rewrite lookup_insert_ne].
    + intros b. destruct (decide (b = n)) as [->|Hne]; [right; apply elem_of_app; right; by left|]. rewrite lookup_insert_ne by done. by left.
    + intros b Hb. apply elem_of_app. by left.
    + intros b Hb. apply elem_of_app in Hb as [Hb|Hb]; [by left|]. apply elem_of_list_singleton in Hb as ->. by right.
  - unfold x_load. eapply okp_bind; [apply eval_upto|]. intros [s W1] [H1 H2]. cbn [snd] in H1, H2.
    destruct s as [| | |[q|] i n|[a|]]; try done. apply okp_any. intros x. pose proof (xclone_le x (x_next W1)) as Hc. destruct (xclone x (x_next W1)) as [y n'].
    apply grows_same; [done|simpl in *; lia|by simpl; rewrite H1|done].
  - unfold x_store. eapply okp_bind; [apply eval_upto|]. intros [x W1] [H1 H2]. cbn [snd] in H1, H2.
    eapply okp_bind; [apply eval_upto|]. intros [s W2] [H3 H4]. cbn [snd] in H3, H4.
    destruct s as [| | |[q|] i n|[a|]]; try done; [|by destruct x]. eapply okp_bind; [apply write_boxes|]. intros m Hm. cbn beta in Hm. rewrite H3, H1 in Hm.
    apply grows_same; [done|simpl; lia|exact Hm|done].
  - unfold x_getptr. eapply okp_bind; [apply eval_upto|]. intros [y W1] [H1 H2]. cbn [snd] in H1, H2. destruct y; try done.
    apply okp_any. intros sz. eapply okp_bind; [apply eval_upto|]. intros [s W2] [H3 H4]. cbn [snd] in H3, H4. apply okp_any. intros x.
    apply grows_same; [done|simpl; lia|simpl; intros b; by rewrite H3, H1|done].
  - unfold x_getelemptr. eapply okp_bind; [apply eval_upto|]. intros [y W1] [H1 H2]. cbn [snd] in H1, H2. destruct y; try done.
    apply okp_any. intros sz. eapply okp_bind; [apply eval_upto|]. intros [s W2] [H3 H4]. cbn [snd] in H3, H4. apply okp_any. intros x.
    apply grows_same; [done|simpl; lia|simpl; intros b; by rewrite H3, H1|done].
  - unfold x_binary. eapply okp_bind; [apply eval_upto|]. intros [x W1] [H1 H2]. cbn [snd] in H1, H2.
    eapply okp_bind; [apply eval_upto|]. intros [y W2] [H3 H4]. cbn [snd] in H3, H4. destruct x; try done. destruct y; try done. apply okp_any. intros c.
    apply grows_same; [done|simpl; lia|simpl; intros b; by rewrite H3, H1|done].
  - unfold x_call. eapply okp_bind; [apply evals_upto|]. intros [xs W1] [H1 H2]. cbn [snd] in H1, H2. apply okp_any. intros gd.
    eapply okp_bind; [apply func_boxes; [exact Hgo|]|]. { intros b. rewrite H1. intros Hb%Hn. lia. }
    intros [x W2] (H3 & H4 & H5). cbn [snd] in *. apply grows_same; [done|simpl; lia|simpl; intros b; rewrite <- H1; apply H3|done].
Qed.
Lemma bb_grows fuel : go_grows (x_bb C p vars fuel).
Proof.
  induction fuel as [|k IH]; intros fd is W F Hn; [done|]. cbn [x_bb]. revert W F Hn. induction is as [|v is IHi]; intros W F Hn; [done|]. cbn [x_insts].
  apply okp_any. intros d.
  assert (Hgoto : ∀ b args W1, numbered W1 → okp (λ e, grows W1 F e.1.2 e.2) (x_goto p vars (x_bb C p vars k) k fd b args W1 F)).
  { intros b args W1 Hn1. unfold x_goto. apply okp_any. intros bd. eapply okp_bind; [by apply params_grow|]. intros [W2 F2] Hg. cbn [fst snd] in Hg.
    apply okp_any. intros is'. eapply okp_mono; [|apply IH, Hg]. intros e. by apply grows_trans. }
  assert (Hstep : okp (λ e, grows W F e.1.2 e.2) ('(W1, F1) ← x_inst C p vars (x_bb C p vars k) k fd v d W F; x_insts C p vars (x_bb C p vars k) k fd is W1 F1)).
  { eapply okp_bind; [by apply inst_grows|]. intros [W1 F1] Hg. cbn [fst snd] in Hg. eapply okp_mono; [|apply IHi, Hg]. intros e. by apply grows_trans. }
  destruct (v_kind d) as [| | | | | | | | | | | | |c t e ta ea|t a|g args|[u|]]; try exact Hstep.
  - eapply okp_bind; [apply eval_upto|]. intros [x W1] [H1 H2]. cbn [snd] in H1, H2.
    assert (Hg : grows W F W1 F) by (apply grows_same; [done|done|by rewrite H1|done]).
    destruct (x_bool x); (eapply okp_mono; [|apply Hgoto, Hg]); intros e0; by apply grows_trans.
  - by apply Hgoto.
  - eapply okp_bind; [apply eval_upto|]. intros [x W1] [H1 H2]. cbn [snd] in H1, H2. cbn [okp fst snd]. apply grows_same; [done|done|by rewrite H1|done].
  - by apply grows_same.
Qed.
End run.
(** ** Global variables *)
Lemma globals_numbered {E} fuel p l : ∀ vs (W : xworld E), numbered W →
  okp (λ e, numbered e.2 ∧ (∀ b, is_Some (x_mem W !! b) → is_Some (x_mem e.2 !! b)) ∧
    (base.size (x_mem e.2) = base.size (x_mem W) + length l)%nat) (x_globals fuel p l vs W).
Proof.
  induction l as [|v l IH]; intros vs W Hn; [cbn [x_globals okp fst snd length]; split; [done|]; split; [done|lia]|]. cbn [x_globals].
  apply okp_any. intros d. destruct (v_kind d); try done. destruct (x_const fuel (p_values p) init (x_next W)) as [[x n]| | | |] eqn:Ex; try done.
  apply x_const_le in Ex. cbn [mbind xres_bind x_box].
  assert (Hf : x_mem W !! n = None) by (apply eq_None_not_Some; intros H%Hn; lia).
  eapply okp_mono; [|apply IH].
  - intros [vs' W'] (H1 & H2 & H3). cbn [fst snd] in *. split; [done|]. split.
    + intros b Hb. apply H2. simpl. destruct (decide (b = n)) as [->|Hne]; [rewrite lookup_insert; by eexists|by rewrite lookup_insert_ne].
    + simpl in H3. rewrite map_size_insert_None in H3 by done. cbn [length]. lia.
  - intros b. simpl. destruct (decide (b = n)) as [->|Hne]; [lia|]. rewrite lookup_insert_ne by done. intros Hb%Hn. lia.
Qed.
