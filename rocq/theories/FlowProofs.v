(** Proofs about symbol lookup (C32) and the list of blocks (C34). *)
From Coq Require Import Lia ZifyBool ZifyNat ZifyN.
From Verif Require Import Base IdModel TypeModel IrModel LexerModel ParserModel ParserSpec FrontModel
  FrontProofs FlowSpec.

(** ** Symbol lookup *)
(** What a search that fails tells about the blocks it has visited. *)
Definition searched (bbs : gmap string bbinfo) (sym : string) (V V' : gset string) : Prop :=
  V ⊆ V' ∧ ∀ b, b ∈ V' → b ∉ V →
    (∀ v, ¬ defines bbs b sym v) ∧ (∀ p, pred_of bbs b p → p ∈ V').

Lemma local_symbol_spec bbs sym fuel : ∀ V bb, preds_closed bbs → is_Some (bbs !! bb) →
  match local_symbol fuel bbs V bb sym with
  | Rok (Some v, _) => visible bbs bb sym v
  | Rok (None, V') => bb ∈ V' ∧ searched bbs sym V V'
  | Rpanic => False
  | Rerr _ => False
  | Rfuel => True
  end.
Proof.
  intros V bb Hc. revert V bb. induction fuel as [|fuel IH]; intros V bb [info Hbb]; [done|].
  simpl. case_decide as Hb; [split; [done|split; [done|tauto]]|]. rewrite Hbb.
  destruct (bi_defs info !! sym) as [v|] eqn:Hd.
  { exists bb. split; [apply rtc_refl|]. by exists info. }
  assert (Hps : ∀ p, p ∈ bi_preds info → pred_of bbs bb p) by (intros p ?; by exists info).
  set (go := fix go (ps : list string) (visited : gset string) := _).
  assert (Hgo : ∀ ps V1, (∀ p, p ∈ ps → pred_of bbs bb p) →
    match go ps V1 with
    | Rok (Some v, _) => visible bbs bb sym v
    | Rok (None, V') => (∀ p, p ∈ ps → p ∈ V') ∧ searched bbs sym V1 V'
    | Rpanic => False
    | Rerr _ => False
    | Rfuel => True
    end).
  { clear Hps. induction ps as [|p ps IHp]; intros V1 Hps; simpl.
    { split; [by intros ? ?%elem_of_nil|]. split; [done|tauto]. }
    specialize (IH V1 p (Hc bb p (Hps p ltac:(by left)))).
    destruct (local_symbol fuel bbs V1 p sym) as [[[v|] V2]|f| |]; try done.
    - destruct IH as (b & Hr & Hdef). exists b. split; [|done].
      eapply rtc_l; [|done]. apply Hps. by left.
    - destruct IH as (Hp2 & H12 & Hs12).
      specialize (IHp V2 ltac:(intros; apply Hps; by right)).
      destruct (go ps V2) as [[[v|] V3]|f| |]; try done.
      destruct IHp as (Hp3 & H23 & Hs23). split.
      + intros q [-> |Hq]%elem_of_cons; [by apply H23|by apply Hp3].
      + split; [set_solver|]. intros b Hb3 Hb1. destruct (decide (b ∈ V2)) as [Hb2|Hb2].
        * destruct (Hs12 b Hb2 Hb1) as [G1 G2]. split; [done|]. intros q Hq. by apply H23, G2.
        * by apply Hs23. }
  specialize (Hgo (bi_preds info) ({[bb]} ∪ V) Hps). clearbody go.
  destruct (go (bi_preds info) ({[bb]} ∪ V)) as [[[v|] V']|f| |]; try done.
  destruct Hgo as (Hp & HV & Hs). split; [set_solver|]. split; [set_solver|].
  intros b Hb' HbV. destruct (decide (b = bb)) as [-> |Hne].
  - split.
    + intros v (i & Hi & Hv). simplify_eq.
    + intros p (i & Hi & Hpi). simplify_eq. by apply Hp.
  - apply Hs; set_solver.
Qed.

Lemma searched_all bbs sym bb V' : preds_closed bbs → bb ∈ V' → searched bbs sym ∅ V' →
  ∀ v, ¬ visible bbs bb sym v.
Proof.
  intros Hc Hb [_ Hs] v (b & Hr & Hd).
  assert (b ∈ V').
  { clear Hd. induction Hr as [x|x y z Hxy Hyz IH]; [done|]. apply IH.
    by apply (Hs x Hb ltac:(set_solver)). }
  destruct (Hs b H ltac:(set_solver)) as [G _]. by apply (G v).
Qed.

Lemma gen_symbol_spec bb sym s : preds_closed (b_bbs s) → is_Some (b_bbs s !! bb) →
  b_gvars s !! sym = None →
  (∃ v, gen_symbol bb sym s = (Rok v, s) ∧ visible (b_bbs s) bb sym v) ∨
  (gen_symbol bb sym s = b_error s ∧ ∀ v, ¬ visible (b_bbs s) bb sym v).
Proof.
  intros Hc Hb Hg. unfold gen_symbol. rewrite Hg.
  pose proof (local_symbol_spec (b_bbs s) sym (S (base.size (b_bbs s))) ∅ bb Hc Hb) as H.
  destruct (local_symbol_fuel (b_bbs s) sym (S (base.size (b_bbs s))) ∅ bb) as [Hf _].
  { set_solver. }
  { rewrite difference_empty_L. rewrite size_dom. lia. }
  destruct (local_symbol _ _ _ _ _) as [[[v|] V']|f| |]; try done.
  - left. eauto.
  - right. split; [done|]. destruct H as [H1 H2]. by eapply searched_all.
Qed.

(** ** Predecessors *)
Lemma elem_of_snoc {A} (l : list A) x y : y ∈ l ++ [x] ↔ y ∈ l ∨ y = x.
Proof. rewrite elem_of_app, elem_of_list_singleton. done. Qed.

Definition same_defs (a b : gmap string bbinfo) : Prop :=
  ∀ n, (λ i, (bi_bb i, bi_defs i)) <$> a !! n = (λ i, (bi_bb i, bi_defs i)) <$> b !! n.

Lemma add_pred_spec from to s s' : add_pred from to s = (Rok tt, s') →
  s' = set_bbs (b_bbs s') s ∧ same_defs (b_bbs s) (b_bbs s') ∧ is_Some (b_bbs s !! to) ∧
  ∀ b p, pred_of (b_bbs s') b p ↔ pred_of (b_bbs s) b p ∨ (b = to ∧ p = from).
Proof.
  unfold add_pred. destruct (b_bbs s !! to) as [info|] eqn:E; [|done]. intros [= <-]. simpl.
  split_and!; [done| |eauto|].
  - intros n. destruct (decide (n = to)) as [-> |Hn].
    + by rewrite lookup_insert, E.
    + by rewrite lookup_insert_ne.
  - intros b p. unfold pred_of. destruct (decide (b = to)) as [-> |Hn].
    + rewrite lookup_insert, E. split.
      * intros (i & [= <-] & Hp). simpl in Hp. apply elem_of_snoc in Hp as [Hp| ->]; eauto.
      * intros [(i & [= <-] & Hp)|[_ ->]]; eexists; (split; [done|]); simpl; apply elem_of_snoc; auto.
    + rewrite lookup_insert_ne by done. split; [auto|]. intros [?|[? _]]; done.
Qed.
