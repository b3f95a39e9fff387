(** Programs that are described by the same text: the types of their values (C64). *)
From Coq Require Import Lia ZifyBool ZifyNat ZifyN.
From Verif Require Import Base IdModel TypeModel IrModel WorldModel ParserModel
  LayoutModel DfgSpec UsesSpec FlowSpec TypingSpec FaithSpec FaithProofs AcceptSpec SizedProofs CanonNameProofs RawSpec.

(** ** Lists *)
Lemma middle {A} (l : list A) i x : l !! i = Some x → ∃ l1 l2, l = l1 ++ x :: l2 ∧ length l1 = i.
Proof. intros H. exists (take i l), (drop (S i) l). split; [by rewrite take_drop_middle|]. apply lookup_lt_Some in H. rewrite take_length. lia. Qed.
Lemma type_fun a t t' : type_of a t → type_of a t' → t = t'.
Proof. intros H1 H2. eapply denotes_fun; by apply type_of_denotes. Qed.

Section tree.
Context (pre : list atop) (self : atop) (ps : list (string * aty)) (r : ty) (bbs : list ablock) (Ty : string → ty).
Context (Hfo : fun_of pre self ps r bbs bbs Ty).
Context (Huniq : ∀ n t t', var_in pre n t → var_in pre n t' → t = t').

(** What the text says about a function of a program. *)
Record side (p : program) (G Fn L B : gmap N string) (fd : fdata) : Prop := {
  sd_typed : ∀ v d, vals fd !! v = Some d → if TypingSpec.is_param (v_kind d) then v_ty d ≠ TUnit else has_type (local_env p fd) (v_kind d) (v_ty d);
  sd_global : ∀ v n, G !! v = Some n → is_global_id v = true ∧ ∃ d, p_values p !! v = Some d ∧ var_in pre n (v_ty d);
  sd_gnames : ∀ n t, var_in pre n t → ∃ v, G !! v = Some n;
  sd_funs : ∀ c x, Fn !! c = Some x → ∃ cd, p_funcs p !! c = Some cd ∧ ∀ ts t, fun_in (pre ++ [self]) x ts t → f_ty cd = TFun ts t;
  sd_gids : ∀ v, is_Some (p_values p !! v) → is_global_id v = true;
  sd_lids : ∀ v, is_Some (vals fd !! v) → is_global_id v = false;
  sd_gi : inj_names G;
  sd_li : inj_names L;
  sd_bi : inj_names B;
  sd_gl : ∀ v w n, G !! v = Some n → L !! w = Some n → False;
  sd_ps : Forall2 (FaithSpec.is_param L (datas (vals fd)) KFuncArg) (f_params fd) ps;
  sd_bs : Forall2 (is_block G Fn L B (datas (vals fd)) (bb_params <$> blks fd)) (l_bbs (f_layout fd)) bbs;
}.
Section one.
Context (p : program) (G Fn L B : gmap N string) (fd : fdata) (S : side p G Fn L B fd).
Notation D := (datas (vals fd)).
Lemma in_data v t k : D !! v = Some (t, k) → ∃ d, vals fd !! v = Some d ∧ v_ty d = t ∧ v_kind d = k.
Proof. unfold datas. rewrite lookup_fmap. intros H. apply fmap_Some in H as (d & H & E). injection E as -> ->. eauto. Qed.
Lemma ty_local v d : vals fd !! v = Some d → e_ty (local_env p fd) v = Some (v_ty d).
Proof.
  intros H. simpl. rewrite lookup_union_r; [by rewrite H|]. apply eq_None_not_Some. intros Hs. pose proof (sd_gids _ _ _ _ _ _ S _ Hs).
  pose proof (sd_lids _ _ _ _ _ _ S v ltac:(by exists d)). congruence.
Qed.
Lemma ty_global v d : p_values p !! v = Some d → e_ty (local_env p fd) v = Some (v_ty d).
Proof. intros H. simpl. by rewrite (lookup_union_Some_l _ _ _ _ H). Qed.

(** The name [n] has the type that the text gives it. *)
Definition typed_name (n : string) : Prop := ∀ v d, L !! v = Some n → vals fd !! v = Some d → v_ty d = Ty n.
Lemma param_typed n : n ∈ map fst ps ++ concat (map param_names bbs) → typed_name n.
Proof.
  intros Hn v d HL Hd. rewrite elem_of_app in Hn.
  assert (∃ a u arg t i, (n, a) ∈ ps ++ concat (map b_params bbs) ∧ FaithSpec.is_param L D arg u (n, a) ∧ D !! u = Some (t, arg i) ∧ denotes a t) as (a & u & arg & t & i & Hin & Hu & Ht & Ha).
  { destruct Hn as [Hn|Hn].
    - apply elem_of_list_fmap in Hn as ([n' a] & E & Hq). simpl in E. subst n'. apply elem_of_list_lookup in Hq as [i Hi].
      destruct (Forall2_lookup_r _ _ _ _ _ (sd_ps _ _ _ _ _ _ S) Hi) as (u & _ & Hu). pose proof Hu as (_ & t & j & Ht & Ha).
      exists a, u, KFuncArg, t, j. split; [apply elem_of_app; left; by eapply elem_of_list_lookup_2|done].
    - apply elem_of_list_In, in_concat in Hn as (l & Hl & Hn). apply in_map_iff in Hl as (b & <- & Hb). apply elem_of_list_In in Hb, Hn.
      unfold param_names in Hn. apply elem_of_list_fmap in Hn as ([n' a] & E & Hq). simpl in E. subst n'.
      apply elem_of_list_lookup in Hb as [i Hi]. destruct (Forall2_lookup_r _ _ _ _ _ (sd_bs _ _ _ _ _ _ S) Hi) as (x & _ & _ & (qs & Hqs & Hps) & _).
      pose proof Hq as Hq'. apply elem_of_list_lookup in Hq as [j Hj]. destruct (Forall2_lookup_r _ _ _ _ _ Hps Hj) as (u & _ & Hu). pose proof Hu as (_ & t & k & Ht & Ha).
      exists a, u, KBlockArg, t, k. split; [|done]. apply elem_of_app. right. apply elem_of_list_In, in_concat. exists (b_params b). split; [|by apply elem_of_list_In].
      apply in_map, elem_of_list_In. by eapply elem_of_list_lookup_2. }
  destruct Hu as [Hu _]. simpl in Hu. assert (u = v) as -> by (by eapply (sd_li _ _ _ _ _ _ S)).
  destruct (in_data _ _ _ Ht) as (d' & Hd' & <- & _). rewrite Hd in Hd'. injection Hd' as <-.
  eapply denotes_fun; [exact Ha|]. apply type_of_denotes, (fo_params _ _ _ _ _ _ _ Hfo _ _ Hin).
Qed.
Section here.
Context (front rest : list ablock) (b : ablock) (sts after : list astmt) (st : astmt).
Context (Eb : bbs = front ++ b :: rest) (Es : b_stmts b = sts ++ st :: after).
Notation V := (λ n t, var_in pre n t ∨ usable ps bbs front b sts n ∧ t = Ty n).
Lemma usable_cases n : usable ps bbs front b sts n →
  n ∈ map fst ps ++ concat (map param_names bbs) ∨ n ∈ concat (map body_names front) ∨ n ∈ concat (map stmt_defs sts).
Proof.
  intros (e & He & _ & Hdef). rewrite elem_of_app.
  destruct Hdef as [Hdef|[[Hf Hdef]|[-> Hdef]]]; [|right; left; apply elem_of_list_In, in_concat; exists (body_names e)|by right; right].
  - case_decide; left; [by left|right]. apply elem_of_list_In, in_concat. exists (param_names e). split; [apply in_map; by apply elem_of_list_In|by apply elem_of_list_In].
  - split; [apply in_map; by apply elem_of_list_In|by apply elem_of_list_In].
Qed.
Lemma usable_named n : usable ps bbs front b sts n → n ∈ fun_names ps bbs.
Proof.
  intros H. unfold fun_names. rewrite app_assoc, elem_of_app. destruct (usable_cases _ H) as [?|[?|Hs]]; [by left|right..].
  - rewrite Eb, map_app, concat_app, elem_of_app. by left.
  - rewrite Eb, map_app, concat_app, elem_of_app. right. cbn [map concat]. rewrite elem_of_app. left.
    unfold body_names. rewrite Es, map_app, concat_app, elem_of_app. by left.
Qed.
Context (Hk : ∀ n, usable ps bbs front b sts n → typed_name n).
Lemma called_ty v n t t' : is_called G L v n → V n t → e_ty (local_env p fd) v = Some t' → t' = t.
Proof.
  intros Hc HV Ht. unfold is_called in Hc. destruct (is_global_id v) eqn:Eg.
  - destruct (sd_global _ _ _ _ _ _ S _ _ Hc) as (_ & d & Hd & Hvar). rewrite (ty_global _ _ Hd) in Ht. injection Ht as <-.
    destruct HV as [HV|[HV ->]]; [by eapply Huniq|].
    exfalso. exact (fo_globals _ _ _ _ _ _ _ Hfo _ _ (usable_named _ HV) Hvar).
  - destruct HV as [HV|[HV ->]].
    + destruct (sd_gnames _ _ _ _ _ _ S _ _ HV) as [w Hw]. exfalso. by eapply (sd_gl _ _ _ _ _ _ S).
    + assert (∃ d, vals fd !! v = Some d) as [d Hd].
      { simpl in Ht. destruct ((p_values p ∪ vals fd) !! v) as [d|] eqn:E; [|done]. apply lookup_union_Some_raw in E as [E|[_ E]]; [|eauto].
        pose proof (sd_gids _ _ _ _ _ _ S v ltac:(by exists d)). congruence. }
      rewrite (ty_local _ _ Hd) in Ht. injection Ht as <-. by eapply Hk.
Qed.
(** The type of an instruction *)
Definition stmt_ty (st : astmt) (t : ty) : Prop :=
  match st with
  | SDef n _ => t = Ty n
  | SCall f _ => ∃ ts, fun_in (pre ++ [self]) f ts t
  | _ => t = TUnit
  end.
Lemma inst_ty v d : is_stmt G Fn L B D v st → vals fd !! v = Some d → stmt_ty st (v_ty d).
Proof.
  intros (t & k & Hk' & H) Hd. destruct (in_data _ _ _ Hk') as (d' & Hd' & Et & Ek). rewrite Hd in Hd'. injection Hd' as <-.
  pose proof (fo_stmts _ _ _ _ _ _ _ Hfo front b rest sts st after Eb Es) as HS. pose proof called_ty as CT. clear Eb Es.
  pose proof (sd_typed _ _ _ _ _ _ S _ _ Hd) as HT. rewrite Ek, Et in HT. rewrite Et.
  destruct st as [m e|x y|g args|c x ta y fa|x args|[a|]|]; cbn [stmt_ty stmt_of] in *; try done.
  - destruct H as (Hm & Hne & He), HS as [_ HS]. destruct e as [a|x|x i|x i|op lh r0|g args]; cbn [is_expr expr_of] in *.
    + destruct He as (-> & b0 & -> & Hb0). destruct HS as (t0 & -> & Ht0). f_equal. eapply denotes_fun; [exact Hb0|by apply type_of_denotes].
    + destruct He as (u & -> & Hu). cbn in HT. inversion HT as [| | | | | |src t0 H1 E1 E2| | | | | | | | |]; subst. by pose proof (CT _ _ _ _ Hu HS H1) as [= ->].
    + destruct He as (u & w & -> & Hu & Hw). destruct HS as (_ & HS & _). cbn in HT. inversion HT as [| | | | | | | |src ix t0 H1 H2 E1 E2| | | | | | |]; subst.
      by pose proof (CT _ _ _ _ Hu HS H1).
    + destruct He as (u & w & -> & Hu & Hw). destruct HS as (t1 & n1 & -> & HS & _). cbn in HT. inversion HT as [| | | | | | | | |src ix t0 n0 H1 H2 E1 E2| | | | | |]; subst.
      by pose proof (CT _ _ _ _ Hu HS H1) as [= -> ->].
    + destruct He as (u & w & -> & Hu & Hw). destruct HS as [-> _]. cbn in HT. by inversion HT.
    + destruct He as (c & vs & -> & Hc & Ha). destruct HS as (ts & Hf & _). cbn in HT. inversion HT as [| | | | | | | | | | | | |c0 vs0 qs r0 H1 H2 E1 E2| |]; subst.
      destruct (sd_funs _ _ _ _ _ _ S _ _ Hc) as (cd & Hcd & Hty). simpl in H1. rewrite Hcd in H1. simpl in H1. rewrite (Hty _ _ Hf) in H1. by injection H1 as _ ->.
  - destruct H as (a & c & -> & _). cbn in HT. by inversion HT.
  - destruct H as (c & vs & -> & Hc & Ha). destruct HS as (ts & t' & Hf & _). exists ts. cbn in HT. inversion HT as [| | | | | | | | | | | | |c0 vs0 qs r0 H1 H2 E1 E2| |]; subst.
    destruct (sd_funs _ _ _ _ _ _ S _ _ Hc) as (cd & Hcd & Hty). simpl in H1. rewrite Hcd in H1. simpl in H1. rewrite (Hty _ _ Hf) in H1. by injection H1 as _ <-.
  - destruct H as (u & b1 & b2 & vs1 & vs2 & -> & _). cbn in HT. by inversion HT.
  - destruct H as (b1 & vs & -> & _). cbn in HT. by inversion HT.
  - destruct H as (u & -> & _). cbn in HT. by inversion HT.
  - rewrite H in HT. cbn in HT. by inversion HT.
Qed.
End here.
Lemma block_here front rest b : bbs = front ++ b :: rest → ∃ x, l_bbs (f_layout fd) !! length front = Some x ∧ is_block G Fn L B D (bb_params <$> blks fd) x b.
Proof.
  intros Eb. assert (Hb : bbs !! length front = Some b) by (rewrite Eb; by apply list_lookup_middle).
  destruct (Forall2_lookup_r _ _ _ _ _ (sd_bs _ _ _ _ _ _ S) Hb) as (x & ? & ?). eauto.
Qed.
Lemma body_typed front : ∀ rest, bbs = front ++ rest → ∀ n, n ∈ concat (map body_names front) → typed_name n.
Proof.
  induction front as [|b front IH] using rev_ind; intros rest Eb n Hn; [by apply elem_of_nil in Hn|].
  rewrite <- app_assoc in Eb. cbn [app] in Eb. specialize (IH _ Eb). rewrite map_app, concat_app, elem_of_app in Hn. destruct Hn as [Hn|Hn]; [by apply IH|].
  cbn [map concat] in Hn. rewrite app_nil_r in Hn. unfold body_names in Hn.
  assert (Hgo : ∀ sts after, b_stmts b = sts ++ after → ∀ n, n ∈ concat (map stmt_defs sts) → typed_name n).
  2: { apply (Hgo (b_stmts b) []); [by rewrite app_nil_r|done]. }
  clear n Hn. intros sts. induction sts as [|st sts IHs] using rev_ind; intros after Es n Hn; [by apply elem_of_nil in Hn|].
  rewrite <- app_assoc in Es. cbn [app] in Es. specialize (IHs _ Es). rewrite map_app, concat_app, elem_of_app in Hn. destruct Hn as [Hn|Hn]; [by apply IHs|].
  cbn [map concat] in Hn. rewrite app_nil_r in Hn. destruct st as [m e| | | | | |]; cbn [stmt_defs] in Hn; try by apply elem_of_nil in Hn.
  apply elem_of_list_singleton in Hn as ->. intros v d HL Hd.
  destruct (block_here _ _ _ Eb) as (x & _ & _ & _ & Hst). assert (Hs : b_stmts b !! length sts = Some (SDef m e)) by (rewrite Es; by apply list_lookup_middle).
  destruct (Forall2_lookup_r _ _ _ _ _ Hst Hs) as (u & _ & Hu). pose proof Hu as (t & k & _ & Hm & _). assert (u = v) as -> by (by eapply (sd_li _ _ _ _ _ _ S)).
  apply (inst_ty front rest b sts after (SDef m e) Eb Es) with (v := v); [|done|done].
  intros n Hu'. destruct (usable_cases _ _ _ _ Hu') as [?|[?|?]]; [by apply param_typed|by apply IH|by apply IHs].
Qed.
Lemma all_typed n : n ∈ fun_names ps bbs → typed_name n.
Proof.
  unfold fun_names. rewrite app_assoc, elem_of_app. intros [?|?]; [by apply param_typed|]. by apply (body_typed bbs []); [rewrite app_nil_r|].
Qed.
End one.
End tree.
