(** Functions that are described by the same text run alike (C64). *)
From Coq Require Import Lia ZifyBool ZifyNat ZifyN.
From Verif Require Import Base IdModel TypeModel IrModel WorldModel ParserModel InterpModel
  LayoutModel DfgSpec UsesSpec FlowSpec TypingSpec FaithSpec FaithProofs RoundProofs AcceptSpec SizedProofs CanonNameProofs RawSpec IsoRunProofs IsoProgProofs SameTreeProofs.

(** ** Lists *)
Lemma concat_zip1 {A} (g g' : A → list N) l l' : Forall2 (λ x x', length (g x) = length (g' x')) l l' →
  (concat (zip_with (λ x x', zip (g x) (g' x')) l l')).*1 = concat (map g l).
Proof. induction 1 as [|x x' l l' H _ IH]; [done|]. cbn [zip_with concat map]. rewrite fmap_app, IH. f_equal. apply fst_zip. lia. Qed.
Lemma concat_zip2 {A} (g g' : A → list N) l l' : Forall2 (λ x x', length (g x) = length (g' x')) l l' →
  (concat (zip_with (λ x x', zip (g x) (g' x')) l l')).*2 = concat (map g' l').
Proof. induction 1 as [|x x' l l' H _ IH]; [done|]. cbn [zip_with concat map]. rewrite fmap_app, IH. f_equal. apply snd_zip. lia. Qed.
Lemma in_zip {A B} (l : list A) (l' : list B) x y : (x, y) ∈ zip l l' ↔ ∃ i, l !! i = Some x ∧ l' !! i = Some y.
Proof.
  rewrite elem_of_list_lookup. split.
  - intros (i & (a & b & E & H1 & H2)%lookup_zip_with_Some). injection E as -> ->. eauto.
  - intros (i & H1 & H2). exists i. apply lookup_zip_with_Some. eauto 6.
Qed.
Lemma in_concat_zip {A} (g g' : A → list N) l l' x y : (x, y) ∈ concat (zip_with (λ x x', zip (g x) (g' x')) l l') ↔
  ∃ j a a', l !! j = Some a ∧ l' !! j = Some a' ∧ (x, y) ∈ zip (g a) (g' a').
Proof.
  rewrite elem_of_list_In, in_concat. split.
  - intros (k & Hk%elem_of_list_In & Hx%elem_of_list_In). apply elem_of_list_lookup in Hk as (j & (a & b & -> & H1 & H2)%lookup_zip_with_Some). eauto 6.
  - intros (j & a & a' & H1 & H2 & H3). exists (zip (g a) (g' a')). split; [|by apply elem_of_list_In]. apply elem_of_list_In, elem_of_list_lookup. exists j.
    apply lookup_zip_with_Some. eauto 6.
Qed.

(** ** Constants of the same text *)
(** In an aggregate of type array all elements have the type of the elements. *)
Definition aggregates (m : gmap N vdata) : Prop :=
  ∀ v d l, m !! v = Some d → v_kind d = KAggregate l → ∃ t n, v_ty d = TArray t n ∧ ∀ e d', e ∈ l → m !! e = Some d' → v_ty d' = t.
Lemma in_datas m v t k : datas m !! v = Some (t, k) → ∃ d, m !! v = Some d ∧ v_ty d = t ∧ v_kind d = k.
Proof. unfold datas. rewrite lookup_fmap. intros H. apply fmap_Some in H as (d & H & E). injection E as -> ->. eauto. Qed.
Lemma const_alike m m' : aggregates m → aggregates m' → ∀ i v v', const_is (datas m) v i → const_is (datas m') v' i →
  (∀ d d', m !! v = Some d → m' !! v' = Some d' → v_ty d = v_ty d') → ∀ k n, x_const k m v n = x_const k m' v' n.
Proof.
  intros A A'. induction i as [z| | |l IH] using ainit_ind'; intros v v' H H' Ht k n; (destruct k as [|k]; [done|]); cbn [x_const];
    inversion H as [? t1 ? E1|? t1 E1|? t1 E1|? t1 vs ? E1 F1]; inversion H' as [? t2 ? E2|? t2 E2|? t2 E2|? t2 vs' ? E2 F2]; subst;
    apply in_datas in E1 as (d & Hd & Et & Ek); apply in_datas in E2 as (d' & Hd' & Et' & Ek'); rewrite Hd, Hd'; cbn [xneed mbind xres_bind]; rewrite Ek, Ek'; try done.
  - by rewrite (Ht _ _ Hd Hd').
  - destruct (A _ _ _ Hd Ek) as (t & c & T1 & T2), (A' _ _ _ Hd' Ek') as (t' & c' & T1' & T2').
    pose proof (Ht _ _ Hd Hd') as HE. rewrite T1, T1' in HE. injection HE as <- <-.
    apply xbind_eq; [|by intros []]. apply (x_each_eq (λ u u', u ∈ vs ∧ u' ∈ vs' ∧ ∃ i, i ∈ l ∧ const_is (datas m) u i ∧ const_is (datas m') u' i)).
    + clear -F1 F2. revert vs' F2. induction F1 as [|u i vs l Hu F1 IH]; intros vs' F2; inversion F2 as [|u' ? vs2 ? Hu' F3]; subst; constructor.
      * split; [by left|]. split; [by left|]. exists i. split; [by left|done].
      * eapply Forall2_impl; [exact (IH _ F3)|]. intros a b (?&?&j&?&?). split; [by right|]. split; [by right|]. exists j. split; [by right|done].
    + intros u u' n' (Hu & Hu' & i & Hi & C1 & C2). eapply list.Forall_forall in IH; [|exact Hi]. apply IH; [done|done|].
      intros e e' He He'. rewrite (T2 _ _ Hu He), (T2' _ _ Hu' He'). done.
Qed.

(** ** Where the values of a function are *)
Definition bparams (fd : fdata) (x : bblock * list value) : list value := default [] ((bb_params <$> blks fd) !! x.1).
Definition places (fd : fdata) : list value :=
  f_params fd ++ concat (map (bparams fd) (l_bbs (f_layout fd))) ++ concat (map snd (l_bbs (f_layout fd))).
Record placed (L : gmap N string) (fd : fdata) : Prop := {
  pl_once : NoDup (places fd);
  pl_bbs : NoDup (l_bbs (f_layout fd)).*1;
  pl_fp : ∀ j v, f_params fd !! j = Some v → ∃ d, vals fd !! v = Some d ∧ v_kind d = KFuncArg (N.of_nat j);
  pl_bp : ∀ b d j v, blks fd !! b = Some d → bb_params d !! j = Some v → ∃ e, vals fd !! v = Some e ∧ v_kind e = KBlockArg (N.of_nat j);
  pl_named : ∀ v n, L !! v = Some n → is_global_id v = false → ∃ d, vals fd !! v = Some d ∧ is_const (v_kind d) = false;
}.

(** ** What the text says about the operands of one function *)
Section one.
Context (pre : list atop) (self : atop) (ps : list (string * aty)) (r : ty) (bbs : list ablock) (Ty : string → ty).
Context (Hfo : fun_of pre self ps r bbs bbs Ty).
Context (Huniq : ∀ n t t', var_in pre n t → var_in pre n t' → t = t').
Context (p : program) (G Fn L B : gmap N string) (fd : fdata).
Context (S : side pre self ps bbs p G Fn L B fd).
Lemma side_aggregates : aggregates (vals fd).
Proof.
  intros v d l Hd Hk. pose proof (sd_typed _ _ _ _ _ _ _ _ _ _ S _ _ Hd) as HT. rewrite Hk in HT. cbn in HT. inversion HT as [| | |es t H1 H2 H3 E1 E2| | | | | | | | | | | |]; subst.
  exists t, (N.of_nat (length l)). split; [done|]. intros e d' He Hd'. destruct (H3 _ He) as [H4 _]. rewrite (ty_local _ _ _ _ _ _ _ _ _ _ S _ _ Hd') in H4. by injection H4.
Qed.
Lemma call_len c vs t f ts u : has_type (local_env p fd) (KCall c vs) t → Fn !! c = Some f → fun_in (pre ++ [self]) f ts u → length vs = length ts ∧ t = u.
Proof.
  intros HT Hc Hf. inversion HT as [| | | | | | | | | | | | |c0 vs0 qs r0 H1 H2 E1 E2| |]; subst.
  destruct (sd_funs _ _ _ _ _ _ _ _ _ _ S _ _ Hc) as (cd & Hcd & Hty). simpl in H1. rewrite Hcd in H1. simpl in H1. rewrite (Hty _ _ Hf) in H1. injection H1 as -> ->.
  split; [|done]. symmetry. by eapply Forall2_length.
Qed.
Lemma jump_len b vs x bk : args_match (local_env p fd) b vs → is_block G Fn L B (datas (vals fd)) (bb_params <$> blks fd) x bk → x.1 = b → length vs = length (b_params bk).
Proof.
  intros (qs & H1 & H2) (_ & (qs' & E & H3) & _) <-. simpl in H1. rewrite lookup_fmap in E. rewrite H1 in E. injection E as <-.
  rewrite <- (Forall2_length _ _ _ H2). by eapply Forall2_length.
Qed.
Lemma used_typed front rest b sts after st : bbs = front ++ b :: rest → b_stmts b = sts ++ st :: after →
  ∀ n, usable ps bbs front b sts n → typed_name Ty L fd n.
Proof. intros Eb Es n Hn. eapply (all_typed pre self ps r bbs Ty Hfo Huniq); [exact S|]. by eapply usable_named. Qed.
End one.

Section two.
Context (pre : list atop) (self : atop) (ps : list (string * aty)) (r : ty) (bbs : list ablock) (Ty : string → ty).
Context (Hfo : fun_of pre self ps r bbs bbs Ty).
Context (Huniq : ∀ n t t', var_in pre n t → var_in pre n t' → t = t').
Context (p p' : program) (G G' Fn Fn' L L' B B' : gmap N string) (fd fd' : fdata).
Context (S : side pre self ps bbs p G Fn L B fd) (S' : side pre self ps bbs p' G' Fn' L' B' fd').
Context (P : placed L fd) (P' : placed L' fd').
Context (HL' : ∀ v n, L' !! v = Some n → n ∈ fun_names ps bbs) (HB' : ∀ b n, B' !! b = Some n → n ∈ map b_name bbs).
Context (Gr Fr : N → N → Prop).
Context (HGr : ∀ v v' n, G !! v = Some n → G' !! v' = Some n → Gr v v') (HFr : ∀ c c' n, Fn !! c = Some n → Fn' !! c' = Some n → Fr c c').
Notation D := (datas (vals fd)).
Notation D' := (datas (vals fd')).
Notation bl := (l_bbs (f_layout fd)).
Notation bl' := (l_bbs (f_layout fd')).
Notation blk := (is_block G Fn L B D (bb_params <$> blks fd)).
Notation blk' := (is_block G' Fn' L' B' D' (bb_params <$> blks fd')).

Definition zs : list (N * N) := zip (f_params fd) (f_params fd') ++
  concat (zip_with (λ x x', zip (bparams fd x) (bparams fd' x')) bl bl') ++ concat (zip_with (λ x x' : bblock * list value, zip x.2 x'.2) bl bl').
Definition Vm : gmap N N := list_to_map zs.
Definition Bm : gmap N N := list_to_map (zip bl.*1 bl'.*1).

Lemma blocks2 : Forall2 (λ x x', ∃ b, b ∈ bbs ∧ blk x b ∧ blk' x' b) bl bl'.
Proof.
  pose proof (sd_bs _ _ _ _ _ _ _ _ _ _ S) as H1. pose proof (sd_bs _ _ _ _ _ _ _ _ _ _ S') as H2. revert H1 H2. generalize bl bl' bbs. clear.
  intros l l' bs H1. revert l'. induction H1 as [|x b l bs Hx H1 IH]; intros l' H2; inversion H2 as [|x' ? l2 ? Hx' H3]; subst; constructor.
  - exists b. split; [by left|done].
  - eapply Forall2_impl; [exact (IH _ H3)|]. intros a c (e & ? & ?). exists e. split; [by right|done].
Qed.
Lemma bparams_eq x b : blk x b → Forall2 (FaithSpec.is_param L D KBlockArg) (bparams fd x) (b_params b).
Proof. intros (_ & (qs & E & H) & _). unfold bparams. by rewrite E. Qed.
Lemma bparams_eq' x b : blk' x b → Forall2 (FaithSpec.is_param L' D' KBlockArg) (bparams fd' x) (b_params b).
Proof. intros (_ & (qs & E & H) & _). unfold bparams. by rewrite E. Qed.
Lemma fp_len : length (f_params fd) = length (f_params fd').
Proof. by rewrite (Forall2_length _ _ _ (sd_ps _ _ _ _ _ _ _ _ _ _ S)), (Forall2_length _ _ _ (sd_ps _ _ _ _ _ _ _ _ _ _ S')). Qed.
Lemma zs_fst : zs.*1 = places fd.
Proof.
  unfold zs, places. rewrite !fmap_app, fst_zip, concat_zip1, (concat_zip1 snd snd); [done|..].
  - eapply Forall2_impl; [exact blocks2|]. intros x x' (b & _ & (_ & _ & H1) & (_ & _ & H2)). by rewrite (Forall2_length _ _ _ H1), (Forall2_length _ _ _ H2).
  - eapply Forall2_impl; [exact blocks2|]. intros x x' (b & _ & H1%bparams_eq & H2%bparams_eq'). by rewrite (Forall2_length _ _ _ H1), (Forall2_length _ _ _ H2).
  - by rewrite fp_len.
Qed.
Lemma zs_snd : zs.*2 = places fd'.
Proof.
  unfold zs, places. rewrite !fmap_app, snd_zip, concat_zip2, (concat_zip2 snd snd); [done|..].
  - eapply Forall2_impl; [exact blocks2|]. intros x x' (b & _ & (_ & _ & H1) & (_ & _ & H2)). by rewrite (Forall2_length _ _ _ H1), (Forall2_length _ _ _ H2).
  - eapply Forall2_impl; [exact blocks2|]. intros x x' (b & _ & H1%bparams_eq & H2%bparams_eq'). by rewrite (Forall2_length _ _ _ H1), (Forall2_length _ _ _ H2).
  - by rewrite fp_len.
Qed.
Lemma Vm_zs v v' : pairs Vm v v' ↔ (v, v') ∈ zs.
Proof. unfold pairs, Vm. symmetry. apply elem_of_list_to_map. rewrite zs_fst. apply (pl_once _ _ P). Qed.
Lemma Vm_once : one_to_one Vm.
Proof.
  intros a a' b H1 H2. apply Vm_zs, elem_of_list_lookup in H1 as [i H1]. apply Vm_zs, elem_of_list_lookup in H2 as [j H2].
  assert (i = j) as <- by (eapply (NoDup_lookup zs.*2 _ _ b); [rewrite zs_snd; apply (pl_once _ _ P')|by rewrite list_lookup_fmap, ?H1, ?H2..]).
  rewrite H1 in H2. by injection H2.
Qed.

(** A pair of values is at the same place. *)
Inductive at_place : value → value → Prop :=
  | ap_param j v v' q : f_params fd !! j = Some v → f_params fd' !! j = Some v' → ps !! j = Some q →
      FaithSpec.is_param L D KFuncArg v q → FaithSpec.is_param L' D' KFuncArg v' q → at_place v v'
  | ap_bparam i x x' b d d' j v v' q : bl !! i = Some x → bl' !! i = Some x' → bbs !! i = Some b →
      blks fd !! x.1 = Some d → blks fd' !! x'.1 = Some d' → bb_params d !! j = Some v → bb_params d' !! j = Some v' → b_params b !! j = Some q →
      FaithSpec.is_param L D KBlockArg v q → FaithSpec.is_param L' D' KBlockArg v' q → at_place v v'
  | ap_inst i x x' b j v v' st : bl !! i = Some x → bl' !! i = Some x' → bbs !! i = Some b →
      x.2 !! j = Some v → x'.2 !! j = Some v' → b_stmts b !! j = Some st →
      is_stmt G Fn L B D v st → is_stmt G' Fn' L' B' D' v' st → at_place v v'.
Lemma block_at i x x' : bl !! i = Some x → bl' !! i = Some x' → ∃ b, bbs !! i = Some b ∧ blk x b ∧ blk' x' b.
Proof.
  intros H1 H2. destruct (Forall2_lookup_l _ _ _ _ _ (sd_bs _ _ _ _ _ _ _ _ _ _ S) H1) as (b & Hb & H3). exists b. split; [done|]. split; [done|].
  by eapply (Forall2_lookup_lr _ _ _ _ _ _ (sd_bs _ _ _ _ _ _ _ _ _ _ S')).
Qed.
Lemma zs_place v v' : (v, v') ∈ zs ↔ at_place v v'.
Proof.
  unfold zs. rewrite !elem_of_app, in_zip, in_concat_zip, (in_concat_zip snd snd). split.
  - intros [(j & H1 & H2)|[(i & x & x' & H1 & H2 & (j & H3 & H4)%in_zip)|(i & x & x' & H1 & H2 & (j & H3 & H4)%in_zip)]].
    + destruct (Forall2_lookup_l _ _ _ _ _ (sd_ps _ _ _ _ _ _ _ _ _ _ S) H1) as (q & Hq & H3). eapply ap_param; try done.
      by eapply (Forall2_lookup_lr _ _ _ _ _ _ (sd_ps _ _ _ _ _ _ _ _ _ _ S')).
    + destruct (block_at _ _ _ H1 H2) as (b & Hb & K1 & K2). pose proof (bparams_eq _ _ K1) as Q1. pose proof (bparams_eq' _ _ K2) as Q2.
      destruct K1 as (_ & (qs & E1 & _) & _), K2 as (_ & (qs' & E2 & _) & _). unfold bparams in H3, H4, Q1, Q2. rewrite E1 in H3, Q1. rewrite E2 in H4, Q2. simpl in *.
      rewrite lookup_fmap in E1, E2. apply fmap_Some in E1 as (d & E1 & ->), E2 as (d' & E2 & ->).
      destruct (Forall2_lookup_l _ _ _ _ _ Q1 H3) as (q & Hq & H5). eapply ap_bparam; try done. by eapply (Forall2_lookup_lr _ _ _ _ _ _ Q2).
    + destruct (block_at _ _ _ H1 H2) as (b & Hb & (_ & _ & K1) & (_ & _ & K2)). destruct (Forall2_lookup_l _ _ _ _ _ K1 H3) as (st & Hst & H5).
      eapply ap_inst; try done. by eapply (Forall2_lookup_lr _ _ _ _ _ _ K2).
  - intros [j v1 v2 q|i x x' b d d' j v1 v2 q H1 H2 _ H3 H4 H5 H6|i x x' b j v1 v2 st H1 H2 _ H3 H4].
    + left. eauto.
    + right. left. exists i, x, x'. split; [done|]. split; [done|]. unfold bparams. rewrite !lookup_fmap, H3, H4. simpl. apply in_zip. eauto.
    + right. right. exists i, x, x'. split; [done|]. split; [done|]. apply in_zip. eauto.
Qed.
Lemma place_pair v v' : pairs Vm v v' ↔ at_place v v'.
Proof. by rewrite Vm_zs, zs_place. Qed.

Lemma lookup_at2 {A} (R R' : bblock * list value → A → Prop) l l' (bs : list A) b : Forall2 R l bs → Forall2 R' l' bs → b ∈ bs → ∃ i x x', l !! i = Some x ∧ l' !! i = Some x' ∧ bs !! i = Some b ∧ R x b ∧ R' x' b.
Proof.
  intros F1 F2 Hb. apply elem_of_list_lookup in Hb as [i Hi]. destruct (Forall2_lookup_r _ _ _ _ _ F1 Hi) as (x & H1 & H2), (Forall2_lookup_r _ _ _ _ _ F2 Hi) as (x' & H3 & H4).
  exists i, x, x'. done.
Qed.
Lemma named_pair v v' n : L !! v = Some n → L' !! v' = Some n → pairs Vm v v'.
Proof.
  intros H H'. apply place_pair. pose proof (HL' _ _ H') as Hn. unfold fun_names in Hn. rewrite !elem_of_app in Hn.
  pose proof (sd_li _ _ _ _ _ _ _ _ _ _ S) as I. pose proof (sd_li _ _ _ _ _ _ _ _ _ _ S') as I'. destruct Hn as [Hn|[Hn|Hn]].
  - apply elem_of_list_fmap in Hn as (q & -> & Hq). apply elem_of_list_lookup in Hq as [j Hj].
    destruct (Forall2_lookup_r _ _ _ _ _ (sd_ps _ _ _ _ _ _ _ _ _ _ S) Hj) as (u & Hu & K), (Forall2_lookup_r _ _ _ _ _ (sd_ps _ _ _ _ _ _ _ _ _ _ S') Hj) as (u' & Hu' & K').
    assert (u = v) as -> by (eapply I; [apply K|done]). assert (u' = v') as -> by (eapply I'; [apply K'|done]). by eapply ap_param.
  - apply elem_of_list_In, in_concat in Hn as (l & Hl & Hn). apply in_map_iff in Hl as (b & <- & Hb). apply elem_of_list_In in Hb, Hn.
    unfold param_names in Hn. apply elem_of_list_fmap in Hn as (q & -> & Hq). apply elem_of_list_lookup in Hq as [j Hj].
    destruct (lookup_at2 _ _ _ _ _ _ (sd_bs _ _ _ _ _ _ _ _ _ _ S) (sd_bs _ _ _ _ _ _ _ _ _ _ S') Hb) as (i & x & x' & E1 & E2 & E3 & (_ & (qs & Q1 & Q2) & _) & (_ & (qs' & Q1' & Q2') & _)).
    rewrite lookup_fmap in Q1, Q1'. apply fmap_Some in Q1 as (d & Q1 & ->), Q1' as (d' & Q1' & ->).
    destruct (Forall2_lookup_r _ _ _ _ _ Q2 Hj) as (u & Hu & K), (Forall2_lookup_r _ _ _ _ _ Q2' Hj) as (u' & Hu' & K').
    assert (u = v) as -> by (eapply I; [apply K|done]). assert (u' = v') as -> by (eapply I'; [apply K'|done]). by eapply ap_bparam.
  - apply elem_of_list_In, in_concat in Hn as (l & Hl & Hn). apply in_map_iff in Hl as (b & <- & Hb). apply elem_of_list_In in Hb, Hn.
    unfold body_names in Hn. apply elem_of_list_In, in_concat in Hn as (l & Hl & Hn). apply in_map_iff in Hl as (st & <- & Hst). apply elem_of_list_In in Hst, Hn.
    apply elem_of_list_lookup in Hst as [j Hj].
    destruct (lookup_at2 _ _ _ _ _ _ (sd_bs _ _ _ _ _ _ _ _ _ _ S) (sd_bs _ _ _ _ _ _ _ _ _ _ S') Hb) as (i & x & x' & E1 & E2 & E3 & (_ & _ & Q2) & (_ & _ & Q2')).
    destruct (Forall2_lookup_r _ _ _ _ _ Q2 Hj) as (u & Hu & K), (Forall2_lookup_r _ _ _ _ _ Q2' Hj) as (u' & Hu' & K').
    destruct st as [m e| | | | | |]; cbn [stmt_defs] in Hn; try by apply elem_of_nil in Hn. apply elem_of_list_singleton in Hn as ->.
    assert (u = v) as -> by (eapply I; [|exact H]; destruct K as (? & ? & _ & ? & _); done).
    assert (u' = v') as -> by (eapply I'; [|exact H']; destruct K' as (? & ? & _ & ? & _); done). by eapply ap_inst.
Qed.
Lemma named_block b b' n : B !! b = Some n → B' !! b' = Some n → ∃ i x x' bk, bl !! i = Some x ∧ bl' !! i = Some x' ∧ bbs !! i = Some bk ∧ blk x bk ∧ blk' x' bk ∧ x.1 = b ∧ x'.1 = b' ∧ b_name bk = n.
Proof.
  intros H H'. pose proof (HB' _ _ H') as Hn. apply elem_of_list_fmap in Hn as (bk & -> & Hb).
  destruct (lookup_at2 _ _ _ _ _ _ (sd_bs _ _ _ _ _ _ _ _ _ _ S) (sd_bs _ _ _ _ _ _ _ _ _ _ S') Hb) as (i & x & x' & E1 & E2 & E3 & K & K').
  exists i, x, x', bk. split_and!; try done; [eapply (sd_bi _ _ _ _ _ _ _ _ _ _ S); [apply K|done]|eapply (sd_bi _ _ _ _ _ _ _ _ _ _ S'); [apply K'|done]].
Qed.
Lemma Bm_at b b' : pairs Bm b b' ↔ ∃ i x x', bl !! i = Some x ∧ bl' !! i = Some x' ∧ x.1 = b ∧ x'.1 = b'.
Proof.
  unfold pairs, Bm. rewrite <- elem_of_list_to_map.
  2: { rewrite fst_zip; [apply (pl_bbs _ _ P)|]. rewrite !fmap_length. by rewrite (Forall2_length _ _ _ blocks2). }
  rewrite in_zip. split.
  - intros (i & H1 & H2). rewrite list_lookup_fmap in H1, H2. apply fmap_Some in H1 as (x & H1 & ->), H2 as (x' & H2 & ->). eauto 8.
  - intros (i & x & x' & H1 & H2 & <- & <-). exists i. by rewrite !list_lookup_fmap, H1, H2.
Qed.

(** ** Operands *)
Notation like := (vlike Gr fd fd' Vm).
Lemma called_like v v' n : is_called G L v n → is_called G' L' v' n → like v v'.
Proof.
  unfold is_called. intros H H'. destruct (is_global_id v) eqn:E, (is_global_id v') eqn:E'.
  - left. split; [done|]. split; [done|]. by eapply HGr.
  - exfalso. destruct (sd_global _ _ _ _ _ _ _ _ _ _ S _ _ H) as (_ & d & _ & Hv). destruct (sd_gnames _ _ _ _ _ _ _ _ _ _ S' _ _ Hv) as [w Hw]. by eapply (sd_gl _ _ _ _ _ _ _ _ _ _ S').
  - exfalso. destruct (sd_global _ _ _ _ _ _ _ _ _ _ S' _ _ H') as (_ & d & _ & Hv). destruct (sd_gnames _ _ _ _ _ _ _ _ _ _ S _ _ Hv) as [w Hw]. by eapply (sd_gl _ _ _ _ _ _ _ _ _ _ S).
  - right. split; [done|]. split; [done|]. right. split; [by eapply named_pair|].
    destruct (pl_named _ _ P _ _ H E) as (d & ? & ?), (pl_named _ _ P' _ _ H' E') as (d' & ? & ?). exists d, d'. done.
Qed.
Lemma const_is_like i v v' : const_is D v i → const_is D' v' i → (∀ k n, x_const k (vals fd) v n = x_const k (vals fd') v' n) → like v v'.
Proof.
  intros H H' Hx. assert (∀ m v, const_is (datas m) v i → ∃ d, m !! v = Some d ∧ is_const (v_kind d) = true) as Hc.
  { clear. intros m v H. assert (∃ t k, datas m !! v = Some (t, k) ∧ is_const k = true) as (t & k & E & Hk) by (inversion H; eauto). apply in_datas in E as (d & ? & _ & <-). eauto. }
  destruct (Hc _ _ H) as (d & Hd & Hk), (Hc _ _ H') as (d' & Hd' & Hk'). right.
  split; [apply (sd_lids _ _ _ _ _ _ _ _ _ _ S); eauto|]. split; [apply (sd_lids _ _ _ _ _ _ _ _ _ _ S'); eauto|]. left. exists d, d'. done.
Qed.
Lemma val_like v v' a : is_val G L D v a → is_val G' L' D' v' a → like v v'.
Proof.
  destruct a as [n|z|]; cbn [is_val]; intros H H'; [by eapply called_like|..]; (eapply const_is_like; [exact H|exact H'|]); intros k n; (destruct k as [|k]; [done|]); cbn [x_const];
    inversion H as [? ? ? E1|? ? E1| |]; inversion H' as [? ? ? E2|? ? E2| |]; subst; apply in_datas in E1 as (d & -> & _ & Ek); apply in_datas in E2 as (d' & -> & _ & Ek');
    cbn [xneed mbind xres_bind]; by rewrite Ek, Ek'.
Qed.
Lemma args_like vs vs' args : is_args G L D vs args → is_args G' L' D' vs' args → length vs = length vs' → Forall2 like vs vs'.
Proof.
  intros (l & rest & -> & F) (l' & rest' & E & F') Hlen. apply app_inj_1 in E as [<- _]; [|by rewrite <- (Forall2_length _ _ _ F), <- (Forall2_length _ _ _ F')].
  clear Hlen. revert vs' F'. induction F as [|v a vs l Hv F IH]; intros vs' F'; inversion F' as [|v' ? vs2 ? Hv' F2]; subst; constructor; [by eapply val_like|by apply IH].
Qed.
Lemma blk_pair b b' n : B !! b = Some n → B' !! b' = Some n → pairs Bm b b'.
Proof. intros H H'. destruct (named_block _ _ _ H H') as (i & x & x' & bk & ? & ? & _ & _ & _ & ? & ? & _). apply Bm_at. eauto 8. Qed.
Lemma jump_args b b' n vs vs' args : B !! b = Some n → B' !! b' = Some n → args_match (local_env p fd) b vs → args_match (local_env p' fd') b' vs' →
  is_args G L D vs args → is_args G' L' D' vs' args → Forall2 like vs vs'.
Proof.
  intros H H' M M' A A'. destruct (named_block _ _ _ H H') as (i & x & x' & bk & _ & _ & _ & K & K' & E & E' & _).
  eapply args_like; [exact A|exact A'|]. by rewrite (jump_len _ _ _ _ _ _ _ _ _ _ M K E), (jump_len _ _ _ _ _ _ _ _ _ _ M' K' E').
Qed.
Lemma call_args c c' f vs vs' args t t' ts u : Fn !! c = Some f → Fn' !! c' = Some f → fun_in (pre ++ [self]) f ts u →
  has_type (local_env p fd) (KCall c vs) t → has_type (local_env p' fd') (KCall c' vs') t' →
  is_args G L D vs args → is_args G' L' D' vs' args → Forall2 like vs vs' ∧ t' = t.
Proof.
  intros H H' Hf M M' A A'. destruct (call_len _ _ _ _ _ _ _ _ _ _ S _ _ _ _ _ _ M H Hf) as [E1 ->], (call_len _ _ _ _ _ _ _ _ _ _ S' _ _ _ _ _ _ M' H' Hf) as [E2 ->].
  split; [|done]. eapply args_like; [exact A|exact A'|congruence].
Qed.
Lemma inst_like v v' i x x' b j st d d' : bl !! i = Some x → bl' !! i = Some x' → bbs !! i = Some b → b_stmts b !! j = Some st →
  is_stmt G Fn L B D v st → is_stmt G' Fn' L' B' D' v' st → vals fd !! v = Some d → vals fd' !! v' = Some d' →
  v_ty d' = v_ty d ∧ renamed like (pairs Bm) Fr (v_kind d) (v_kind d').
Proof.
  intros _ _ Hb Hst H H' Hd Hd'. apply middle in Hb as (front & rest & Eb & _). apply middle in Hst as (sts & after & Es & _).
  pose proof (used_typed _ _ _ _ _ _ Hfo Huniq _ _ _ _ _ _ S _ _ _ _ _ _ Eb Es) as U. pose proof (used_typed _ _ _ _ _ _ Hfo Huniq _ _ _ _ _ _ S' _ _ _ _ _ _ Eb Es) as U'.
  pose proof (inst_ty _ _ _ _ _ _ Hfo Huniq _ _ _ _ _ _ S _ _ _ _ _ _ Eb Es U _ _ H Hd) as T.
  pose proof (inst_ty _ _ _ _ _ _ Hfo Huniq _ _ _ _ _ _ S' _ _ _ _ _ _ Eb Es U' _ _ H' Hd') as T'.
  pose proof (called_ty _ _ _ _ _ _ Hfo Huniq _ _ _ _ _ _ S _ _ _ _ _ _ Eb Es U) as CT.
  pose proof (called_ty _ _ _ _ _ _ Hfo Huniq _ _ _ _ _ _ S' _ _ _ _ _ _ Eb Es U') as CT'.
  pose proof (fo_stmts _ _ _ _ _ _ _ Hfo front b rest sts st after Eb Es) as HS.
  pose proof (sd_typed _ _ _ _ _ _ _ _ _ _ S _ _ Hd) as HT. pose proof (sd_typed _ _ _ _ _ _ _ _ _ _ S' _ _ Hd') as HT'.
  destruct H as (t & k & Hk & H), H' as (t' & k' & Hk' & H'). apply in_datas in Hk as (e & He & <- & <-), Hk' as (e' & He' & <- & <-).
  rewrite Hd in He. injection He as <-. rewrite Hd' in He'. injection He' as <-. clear Eb Es U U'.
  destruct st as [m e|y z|g args|c y ta z fa|y args|[a|]|]; cbn [stmt_ty stmt_of] in *; try done.
  - destruct H as (Hm & Hne & He), H' as (_ & _ & He'), HS as [_ HS]. split; [congruence|].
    destruct e as [a|y|y ix|y ix|op lh r0|g args]; cbn [is_expr expr_of] in *.
    + destruct He as (-> & _), He' as (-> & _). constructor.
    + destruct He as (u & -> & Hu), He' as (u' & -> & Hu'). constructor. by eapply called_like.
    + destruct He as (u & w & -> & Hu & Hw), He' as (u' & w' & -> & Hu' & Hw'). constructor; [by eapply called_like|by eapply val_like].
    + destruct He as (u & w & -> & Hu & Hw), He' as (u' & w' & -> & Hu' & Hw'). constructor; [by eapply called_like|by eapply val_like].
    + destruct He as (u & w & -> & Hu & Hw), He' as (u' & w' & -> & Hu' & Hw'). constructor; by eapply val_like.
    + destruct He as (c & vs & Ec & Hc & Ha), He' as (c' & vs' & Ec' & Hc' & Ha'). destruct HS as (ts & Hf & _). rewrite Ec, Ec' in *. cbn in HT, HT'.
      constructor; [by eapply HFr|]. by eapply call_args.
  - split; [congruence|]. destruct H as (a & b0 & Ek & Ha & Hb), H' as (a' & b' & Ek' & Ha' & Hb'). rewrite Ek, Ek' in *. cbn in HT, HT'. destruct HS as (t & HV & _).
    constructor; [|by eapply called_like].
    inversion HT as [| | | | | | |a1 b1 t1 H1 H2 E1 E2| | | | | | | |]; subst. inversion HT' as [| | | | | | |a2 b2 t2 H3 H4 E3 E4| | | | | | | |]; subst.
    pose proof (CT _ _ _ _ Hb HV H2) as [= ->]. pose proof (CT' _ _ _ _ Hb' HV H4) as [= ->].
    destruct y as [n|i0]; cbn [is_stored] in *; [by eapply called_like|]. eapply const_is_like; [exact Ha|exact Ha'|].
    eapply const_alike; [by eapply side_aggregates|by eapply side_aggregates|exact Ha|exact Ha'|]. intros e e' He He'.
    rewrite (ty_local _ _ _ _ _ _ _ _ _ _ S _ _ He) in H1. rewrite (ty_local _ _ _ _ _ _ _ _ _ _ S' _ _ He') in H3. congruence.
  - destruct H as (c & vs & Ec & Hc & Ha), H' as (c' & vs' & Ec' & Hc' & Ha'). destruct HS as (ts & u & Hf & _). rewrite Ec, Ec' in *. cbn in HT, HT'.
    destruct (call_args _ _ _ _ _ _ _ _ _ _ Hc Hc' Hf HT HT' Ha Ha') as [HA HE]. split; [exact HE|]. constructor; [by eapply HFr|exact HA].
  - split; [congruence|]. destruct H as (u & b1 & b2 & vs1 & vs2 & Ek & Hu & Hb1 & Ha1 & Hb2 & Ha2), H' as (u' & b1' & b2' & vs1' & vs2' & Ek' & Hu' & Hb1' & Ha1' & Hb2' & Ha2').
    rewrite Ek, Ek' in *. cbn in HT, HT'. inversion HT; subst. inversion HT'; subst.
    constructor; [by eapply val_like|by eapply blk_pair|by eapply blk_pair|by eapply (jump_args b1 b1')|by eapply (jump_args b2 b2')].
  - split; [congruence|]. destruct H as (b1 & vs1 & Ek & Hb1 & Ha1), H' as (b1' & vs1' & Ek' & Hb1' & Ha1').
    rewrite Ek, Ek' in *. cbn in HT, HT'. inversion HT; subst. inversion HT'; subst. constructor; [by eapply blk_pair|by eapply (jump_args b1 b1')].
  - split; [congruence|]. destruct H as (u & -> & Hu), H' as (u' & -> & Hu'). constructor. by eapply val_like.
  - split; [congruence|]. rewrite H, H'. constructor.
Qed.
Lemma find_listed {A} (l : list (N * A)) i x : NoDup l.*1 → l !! i = Some x → ∀ y, y ∈ l → y.1 = x.1 → y = x.
Proof.
  intros Hn Hi y Hy E. apply elem_of_list_lookup in Hy as [j Hj]. assert (j = i) as -> by (eapply (NoDup_lookup _ _ _ (x.1) Hn); rewrite list_lookup_fmap, ?Hi, ?Hj; simpl; congruence). congruence.
Qed.
Lemma find_at (l : list (bblock * list value)) i x : NoDup l.*1 → l !! i = Some x → find_bb x.1 l = Some x.2.
Proof.
  intros Hn Hi. destruct x as [b is]. simpl. destruct (find_bb b l) as [js|] eqn:E.
  - apply find_bb_in in E. f_equal. eapply listed_once; [exact Hn|exact E|by eapply elem_of_list_lookup_2].
  - exfalso. eapply find_bb_out; [exact E|by eapply elem_of_list_lookup_2].
Qed.
Lemma insts_pair i x x' : bl !! i = Some x → bl' !! i = Some x' → Forall2 (pairs Vm) x.2 x'.2.
Proof.
  intros H1 H2. destruct (block_at _ _ _ H1 H2) as (b & Hb & (_ & _ & K1) & (_ & _ & K2)).
  apply Forall2_same_length_lookup. split; [by rewrite (Forall2_length _ _ _ K1), (Forall2_length _ _ _ K2)|]. intros j v v' Hv Hv'. apply place_pair.
  destruct (Forall2_lookup_l _ _ _ _ _ K1 Hv) as (st & Hst & K). eapply ap_inst; try done. by eapply (Forall2_lookup_lr _ _ _ _ _ _ K2).
Qed.
Lemma tree_sim : f_name fd' = f_name fd → f_ty fd' = f_ty fd → sim_fun Gr Fr Vm Bm fd fd'.
Proof.
  intros En Et. constructor; [done|done|exact Vm_once| | | |].
  - apply Forall2_same_length_lookup. split; [apply fp_len|]. intros j v v' Hv Hv'. apply place_pair.
    destruct (Forall2_lookup_l _ _ _ _ _ (sd_ps _ _ _ _ _ _ _ _ _ _ S) Hv) as (q & Hq & K). eapply ap_param; try done. by eapply (Forall2_lookup_lr _ _ _ _ _ _ (sd_ps _ _ _ _ _ _ _ _ _ _ S')).
  - intros v v' Hv. apply place_pair in Hv. destruct Hv as [j w w' q H1 H2 H3 (_ & t & k & K1 & K2) (_ & t' & k' & K1' & K2')|i x x' b d d' j w w' q H1 H2 _ H3 H4 H5 H6 _ (_ & t & k & K1 & K2) (_ & t' & k' & K1' & K2')|i x x' b j w w' st H1 H2 H3 _ _ H6 K1 K2].
    + destruct (pl_fp _ _ P _ _ H1) as (e & He & Ek), (pl_fp _ _ P' _ _ H2) as (e' & He' & Ek'). exists e, e'. split; [done|]. split; [done|].
      apply in_datas in K1 as (e1 & He1 & <- & _), K1' as (e1' & He1' & <- & _). rewrite He in He1. injection He1 as <-. rewrite He' in He1'. injection He1' as <-.
      split; [by eapply denotes_fun|]. rewrite Ek, Ek'. constructor.
    + destruct (pl_bp _ _ P _ _ _ _ H3 H5) as (e & He & Ek), (pl_bp _ _ P' _ _ _ _ H4 H6) as (e' & He' & Ek'). exists e, e'. split; [done|]. split; [done|].
      apply in_datas in K1 as (e1 & He1 & <- & _), K1' as (e1' & He1' & <- & _). rewrite He in He1. injection He1 as <-. rewrite He' in He1'. injection He1' as <-.
      split; [by eapply denotes_fun|]. rewrite Ek, Ek'. constructor.
    + pose proof K1 as (t & k & E & _). pose proof K2 as (t' & k' & E' & _). apply in_datas in E as (d & Hd & _), E' as (d' & Hd' & _).
      exists d, d'. split; [done|]. split; [done|]. by eapply inst_like.
  - intros b b' Hb. apply Bm_at in Hb as (i & x & x' & H1 & H2 & <- & <-). destruct (block_at _ _ _ H1 H2) as (bk & Hbk & K1 & K2). split.
    + pose proof (bparams_eq _ _ K1) as Q1. pose proof (bparams_eq' _ _ K2) as Q2.
      destruct K1 as (_ & (qs & E1 & F1) & _), K2 as (_ & (qs' & E2 & F2) & _). rewrite lookup_fmap in E1, E2. apply fmap_Some in E1 as (d & E1 & ->), E2 as (d' & E2 & ->).
      exists d, d'. split; [done|]. split; [done|]. apply Forall2_same_length_lookup. split; [by rewrite (Forall2_length _ _ _ F1), (Forall2_length _ _ _ F2)|].
      intros j v v' Hv Hv'. apply place_pair. destruct (Forall2_lookup_l _ _ _ _ _ F1 Hv) as (q & Hq & K). eapply ap_bparam; try done. by eapply (Forall2_lookup_lr _ _ _ _ _ _ F2).
    + rewrite (find_at _ _ _ (pl_bbs _ _ P) H1), (find_at _ _ _ (pl_bbs _ _ P') H2). constructor. by eapply insts_pair.
  - pose proof (insts_pair 0) as H0. pose proof (Forall2_length _ _ _ blocks2) as Hl. destruct bl as [|x l], bl' as [|x' l']; try done; [constructor|]. constructor. by apply H0.
Qed.
End two.
