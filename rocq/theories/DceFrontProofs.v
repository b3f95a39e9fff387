(** Dead code elimination on programs made by the front end. *)
From Coq Require Import Lia ZifyBool ZifyNat ZifyN.
From Verif Require Import Base IdModel TypeModel IrModel LayoutModel BuilderModel WorldModel
  LexerModel ParserModel ParserSpec FrontModel DriverModel DriverSpec DriverProofs UsesSpec DfgSpec
  WorldSpec DfgProofs WorldProofs SkelProofs TypingSpec TypingHistory HistoryProofs FlowSpec FrontProofs BuildCleanProofs
  LayoutSpec LayoutProofs DceModel DceSpec DcePassProofs FrontShapeProofs.

Lemma er_separated p : separated (er_prog p) → separated p.
Proof.
  intros [H1 H2 H3].
  assert (Hl : ∀ f fd, p_funcs p !! f = Some fd → p_funcs (er_prog p) !! f = Some (er_fd fd)).
  { intros f fd H. simpl. by rewrite lookup_fmap, H. }
  constructor.
  - intros f fd v Hf Hv. exact (H1 f (er_fd fd) v (Hl _ _ Hf) Hv).
  - intros f f' fd fd' v Hf Hf' Hne Hv. exact (H2 f f' (er_fd fd) (er_fd fd') v (Hl _ _ Hf) (Hl _ _ Hf') Hne Hv).
  - intros f fd v Hf. exact (H3 f (er_fd fd) v (Hl _ _ Hf)).
Qed.
Lemma read_separated r p n b s ts s' :
  read_program r = (Rok p, n, b) → driver_new r = (Rok s, 0%N) → parses s ts s' →
  (foldr (λ t n, globals_in t + n) 0 ts < local_value_id_starts_from)%N → separated p.
Proof.
  intros Hr Hd Hp Hg. unfold read_program in Hr. rewrite Hd in Hr.
  destruct (generate_ok _ _ _ _ _ _ _ _ _ Hd Hr) as (_ & _ & s1 & ts' & s2 & E & Hp' & _ & _ & _ & Hb & _ & ->).
  injection E as <-. assert (ts' = ts) as -> by (by eapply parses_det).
  destruct (builds_evolves _ _ _ Hb) as (os & F & R & G).
  assert (E : er (b_world (bstate0 ids0 0 0)) = world0).
  { unfold er, er_prog. simpl. by rewrite fmap_empty. }
  rewrite E in R.
  assert (G' : (globals_created os < local_value_id_starts_from)%N) by lia.
  destruct (reach_winv os _ R (fe_tidy _ F _) G') as (F' & HW & _).
  apply er_separated. by eapply winv_separated.
Qed.

Lemma read_shapes r p n b : read_program r = (Rok p, n, b) → well_typed p → shapes_ok p.
Proof.
  intros Hr [_ HT]. destruct (read_ex _ _ _ _ Hr) as (w & (_ & _ & G) & <-).
  intros f fd Hf. destruct (G _ _ Hf) as [G1 G2 G3 G4 G5 G6 G7 G8 G9]. constructor.
  - intros c bd q Hc Hq. destruct (G4 c (bb_params bd) q) as (t & i & E); [by rewrite lookup_fmap, Hc|done|].
    rewrite lookup_fmap in E. apply fmap_Some in E as (d & Hd & E). exists d, i. split; [done|].
    by injection E.
  - intros v d c t ta fa Hv Hk. specialize (HT _ _ _ _ Hf Hv). rewrite Hk in HT. simpl in HT.
    inversion HT as [| | | | | | | | | | |? ? ? ? ? ? ? ? H| | | |]; subst. by apply H.
  - apply G7.
  - intros v c Hc. destruct (proj1 (G2 v)) as (y & Hy & Hi); [left; by exists c|].
    rewrite lookup_fmap in Hy. apply fmap_Some in Hy as (d & Hd & ->). by exists d.
  - intros v c. apply (proj2 G7).
Qed.
Lemma read_tame r p n b : read_program r = (Rok p, n, b) → well_typed p → separated p →
  no_dangling p → no_globals_used p → all_tame p.
Proof.
  intros Hr [_ HT] HS HD HN. destruct (read_ex _ _ _ _ Hr) as (w & (_ & _ & G) & <-).
  intros f fd Hf. destruct (G _ _ Hf) as [G1 G2 G3 G4 G5 G6 G7 G8 G9]. constructor.
  - intros u v Hu. destruct HD as (_ & HD & _). destruct (HD _ _ _ _ Hf Hu) as [[x Hx]|Hs]; [|done].
    rewrite (HN _ _ _ _ Hf Hu) in Hx. done.
  - intros v d Hv Hi. destruct (proj2 (G2 v)) as [?|[]]; [|done].
    exists (sk d). by rewrite lookup_fmap, Hv.
  - intros u d v d' Hu Hv Hd' Hi. destruct (is_local_inst (v_kind d)) eqn:E; [done|].
    specialize (HT _ _ _ _ Hf Hu). destruct (v_kind d) as [| | |elems| | | |init| | | | | | | | |] eqn:Hk; try done; simpl in HT, Hv;
      try (by apply elem_of_nil in Hv).
    + inversion HT as [| | |? ? ? ? Hall| | | | | | | | | | | |]; subst. destruct (Hall v Hv) as [_ Hc].
      simpl in Hc. rewrite lookup_union_r in Hc.
      * rewrite Hd' in Hc. by destruct (v_kind d').
      * destruct (p_values (w_prog w) !! v) eqn:E2; [|done].
        rewrite (sp_global _ HS _ _ v Hf) in Hd'; [done|]. by eauto.
    + destruct (G9 u (v_ty d) init). rewrite lookup_fmap, Hu. simpl. unfold sk. by rewrite Hk.
  - intros v d Hv Hi. destruct (G3 v (sk d)) as [?|[?|[]]]; [by rewrite lookup_fmap, Hv|done|by left|by right].
  - intros c bd Hc. apply (G5 c). by rewrite lookup_fmap, Hc.
  - intros c bd c' bd' q Hc Hc' Hq Hq'. apply (G6 c (bb_params bd) c' (bb_params bd') q); try done.
    + by rewrite lookup_fmap, Hc.
    + by rewrite lookup_fmap, Hc'.
Qed.
