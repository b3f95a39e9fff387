(** Programs that are described by the same text run alike (C64). *)
From Coq Require Import Lia ZifyBool ZifyNat ZifyN.
From Verif Require Import Base IdModel TypeModel IrModel WorldModel ParserModel ArithModel InterpModel
  LayoutModel LayoutSpec LayoutProofs DfgSpec UsesSpec FlowSpec TypingSpec FaithSpec FaithProofs RoundProofs PrintSpec AcceptSpec SizedProofs CanonSpec CanonNameProofs CanonProofs TreeTextProofs
  RetreeFunProofs RetreeTopProofs RetreeProgProofs RawSpec FrontShapeProofs AcceptFunProofs RegularProofs IsoRunSpec IsoRunProofs IsoProgProofs SameTreeProofs SameRunProofs.

(** Names and types of the functions of a program, in order *)
Definition signatures (p : program) : list (option (string * ty)) := (λ f, (λ fd, (f_name fd, f_ty fd)) <$> p_funcs p !! f) <$> p_func_layout p.

(** ** What a text says about a program *)
(** Names [L], [B] of the values and blocks of the function [fd] *)
Record locals (G Fn L B : gmap N string) (fd : fdata) (ps : list (string * aty)) (bbs : list ablock) : Prop := {
  lo_nameable : nameable fd L B;
  lo_li : inj_names L;
  lo_bi : inj_names B;
  lo_gl : ∀ v w n, G !! v = Some n → L !! w = Some n → False;
  lo_names : NoDup (fun_names ps bbs);
  lo_ps : Forall2 (FaithSpec.is_param L (datas (vals fd)) KFuncArg) (f_params fd) ps;
  lo_bs : Forall2 (is_block G Fn L B (datas (vals fd)) (bb_params <$> blks fd)) (l_bbs (f_layout fd)) bbs;
}.
Definition types_as (fd : fdata) (ps : list aty) (r : option aty) : Prop := ∃ ts t, f_ty fd = TFun ts t ∧ Forall2 denotes ps ts ∧ denotes_ret r t.
(** [Q]: what else is known about the names *)
Definition described_fun (Q : gmap N string → gmap N string → list (string * aty) → list ablock → Prop) (G Fn : gmap N string) (f : func) (fd : fdata) (t : atop) : Prop :=
  match t with
  | TFunDecl n ps r => Fn !! f = Some n ∧ blks fd = ∅ ∧ vals fd = ∅ ∧ types_as fd ps r
  | TFunDef n ps r bbs => Fn !! f = Some n ∧ types_as fd (map snd ps) r ∧ in_order bbs bbs ∧ ∃ L B, locals G Fn L B fd ps bbs ∧ Q L B ps bbs
  | _ => False
  end.
Record described Q (p : program) (gs fs : list atop) (G Fn : gmap N string) : Prop := {
  ds_gi : inj_names G;
  ds_fi : inj_names Fn;
  ds_g : ∀ v n, G !! v = Some n → v ∈ p_inst_layout p;
  ds_f : ∀ c n, Fn !! c = Some n → ∃ x, p_funcs p !! c = Some x ∧ f_name x = n;
  ds_gs : Forall2 (redescribes_global G (p_values p)) (p_inst_layout p) gs;
  ds_fs : Forall2 (λ f t, ∃ fd, p_funcs p !! f = Some fd ∧ described_fun Q G Fn f fd t) (p_func_layout p) fs;
}.
Definition listed_names (L B : gmap N string) (ps : list (string * aty)) (bbs : list ablock) : Prop :=
  (∀ v n, L !! v = Some n → n ∈ fun_names ps bbs) ∧ (∀ b n, B !! b = Some n → n ∈ map b_name bbs).

Lemma denotes_all ps : ∀ ts ts', Forall2 denotes ps ts → Forall2 denotes ps ts' → ts = ts'.
Proof. induction ps as [|a ps IH]; intros ts ts' H H'; inversion H; inversion H'; subst; [done|]. f_equal; [by eapply denotes_fun|by apply IH]. Qed.
Lemma denotes_ret_fun r t t' : denotes_ret r t → denotes_ret r t' → t = t'.
Proof. destruct r; simpl; [apply denotes_fun|congruence]. Qed.
Lemma types_same fd fd' ps r : types_as fd ps r → types_as fd' ps r → f_ty fd' = f_ty fd.
Proof. intros (ts & t & -> & H1 & H2) (ts' & t' & -> & H3 & H4). f_equal; [by eapply denotes_all|by eapply denotes_ret_fun]. Qed.
Lemma types_denoted l ts : Forall2 type_of l ts → Forall2 denotes l ts.
Proof. intros H. eapply Forall2_impl; [exact H|]. intros. by apply type_of_denotes. Qed.
Lemma ret_denoted r t : ret_of r t → denotes_ret r t.
Proof. destruct r; simpl; [apply type_of_denotes|done]. Qed.

Section prog.
Context (Q : gmap N string → gmap N string → list (string * aty) → list ablock → Prop) (p : program) (gs fs : list atop) (G Fn : gmap N string).
Context (HD : described Q p gs fs G Fn) (Fp : front p) (Hw : well_formed (gs ++ fs)) (Wg : Forall wf_global gs) (Wf : Forall wf_func fs).

Lemma global_typed v n : G !! v = Some n → ∃ a i d t, TGlobal n a i ∈ gs ∧ p_values p !! v = Some d ∧ type_of a t ∧ v_ty d = TPtr t.
Proof.
  intros Hv. pose proof (ds_g _ _ _ _ _ _ HD _ _ Hv) as Hin. apply elem_of_list_lookup in Hin as [j Hj].
  destruct (Forall2_lookup_l _ _ _ _ _ (ds_gs _ _ _ _ _ _ HD) Hj) as (t & Ht & Hr). destruct t as [n' a i| | | |]; try done.
  destruct Hr as (Hn & d & init & e & Hd & Hk & He & _ & Hden & _). assert (n' = n) as -> by congruence.
  apply elem_of_list_lookup_2 in Ht as Hin. pose proof Hin as Hin2. apply elem_of_list_split in Hin as (l1 & l2 & E).
  destruct (Hw l1 (TGlobal n a i) (l2 ++ fs)) as (_ & t0 & Ht0 & _); [by rewrite E, <- app_assoc|].
  exists a, i, d, t0. split; [done|]. split; [done|]. split; [done|].
  pose proof (proj1 (fr_typed _ Fp) _ _ Hd) as HT. rewrite Hk in HT. inversion HT as [| | | |i0 t1 H1 H2 E1 E2| | | | | | | | | | |]; subst.
  f_equal. simpl in H1. rewrite He in H1. injection H1 as <-. eapply denotes_fun; [exact Hden|by apply type_of_denotes].
Qed.
Lemma in_gs n a i : TGlobal n a i ∈ gs ++ fs → TGlobal n a i ∈ gs.
Proof. intros [?|H]%elem_of_app; [done|]. eapply list.Forall_forall in Wf; [|exact H]. done. Qed.
Lemma in_fs t : t ∈ gs ++ fs → is_fun_top t = true → t ∈ fs.
Proof. intros [H|?]%elem_of_app Ht; [|done]. eapply list.Forall_forall in Wg; [|exact H]. by destruct t. Qed.
Lemma fun_typed c x ts t : Fn !! c = Some x → fun_in (gs ++ fs) x ts t → ∃ cd, p_funcs p !! c = Some cd ∧ f_ty cd = TFun ts t.
Proof.
  intros Hc (ps & r & Hin & Hps & Hr).
  assert (∃ f fd, Fn !! f = Some x ∧ p_funcs p !! f = Some fd ∧ types_as fd ps r) as (f & fd & Hf & Hfd & Hty).
  { destruct Hin as [Hin|(qs & bbs & -> & Hin)]; apply in_fs in Hin; try done; apply elem_of_list_lookup in Hin as [i Hi];
      destruct (Forall2_lookup_r _ _ _ _ _ (ds_fs _ _ _ _ _ _ HD) Hi) as (f & _ & fd & Hfd & Hd); exists f, fd.
    - destruct Hd as (? & _ & _ & ?). done.
    - destruct Hd as (? & ? & _). done. }
  assert (f = c) as -> by (by eapply (ds_fi _ _ _ _ _ _ HD)). exists fd. split; [done|]. destruct Hty as (ts' & t' & -> & H1 & H2).
  f_equal; [eapply denotes_all; [exact H1|by apply types_denoted]|eapply denotes_ret_fun; [exact H2|by apply ret_denoted]].
Qed.
Lemma fun_in_mono l l' x ts t : (∀ y, y ∈ l → y ∈ l') → fun_in l x ts t → fun_in l' x ts t.
Proof. intros H (ps & r & [Hin|(qs & bbs & E & Hin)] & Hps); exists ps, r; (split; [|done]); [left; auto|right; eauto 6]. Qed.
Lemma side_of f fd L B pre self ps bbs t0 Ty post : p_funcs p !! f = Some fd → locals G Fn L B fd ps bbs → gs ++ fs = (gs ++ pre) ++ self :: post →
  fun_of (gs ++ pre) self ps t0 bbs bbs Ty → side (gs ++ pre) self ps bbs p G Fn L B fd.
Proof.
  intros Hf HL E HO. destruct HL as [N1 N2 N3 N4 N5 N6 N7]. pose proof (front_regular p Fp) as HR. constructor; try done.
  - intros v d. by apply (proj2 (fr_typed _ Fp) f).
  - intros v n Hv. destruct (global_typed _ _ Hv) as (a & i & d & t & H1 & H2 & H3 & H4). split; [apply (fr_gid _ Fp); eauto|].
    exists d. split; [done|]. exists a, i, t. split; [apply elem_of_app; by left|done].
  - intros n t (a & i & u & Hin & _). assert (Hin2 : TGlobal n a i ∈ gs).
    { apply in_gs. rewrite E, elem_of_app. by left. }
    apply elem_of_list_lookup in Hin2 as [j Hj]. destruct (Forall2_lookup_r _ _ _ _ _ (ds_gs _ _ _ _ _ _ HD) Hj) as (v & _ & Hv & _). eauto.
  - intros c x Hc. destruct (ds_f _ _ _ _ _ _ HD _ _ Hc) as (cd & Hcd & _). exists cd. split; [done|]. intros ts t Hi.
    destruct (fun_typed c x ts t Hc) as (cd' & Hcd' & ?); [|congruence]. eapply fun_in_mono; [|exact Hi]. intros y. rewrite E, !elem_of_app, !elem_of_cons, elem_of_nil. tauto.
  - apply (fr_gid _ Fp).
  - intros v. by apply (rg_local _ HR f).
  - apply (ds_gi _ _ _ _ _ _ HD).
Qed.
Lemma nodup_insts f fd : p_funcs p !! f = Some fd → NoDup (concat (map snd (l_bbs (f_layout fd)))).
Proof.
  intros Hf. pose proof (front_regular p Fp) as HR. pose proof (λ b b' is is' v, rg_insts_once _ HR f fd b b' is is' v Hf) as H1.
  pose proof (rg_bbs_once _ HR _ _ Hf) as H2. destruct (fr_good _ Fp) as [n Hg]. destruct (Hg _ _ Hf) as [_ _ _ _ _ _ [[_ H3] _] _ _]. clear -H1 H2 H3.
  induction (l_bbs (f_layout fd)) as [|[b is] l IH]; [constructor|]. cbn [map concat snd]. cbn in H2. apply list.NoDup_cons in H2 as [H4 H5].
  apply list.NoDup_app. split; [by apply (H3 b); left|]. split.
  - intros v Hv Hc. apply elem_of_list_In, in_concat in Hc as (is' & Hi & Hc). apply in_map_iff in Hi as ([b' js] & <- & Hi). apply elem_of_list_In in Hi, Hc. simpl in Hc.
    assert (b = b') as <- by (eapply (H1 b b' is js v); [by left|by right|done|done]). apply H4, elem_of_list_fmap. by exists (b, js).
  - apply IH; [intros b1 b2 i1 i2 v A1 A2 A3 A4; apply (H1 b1 b2 i1 i2 v); [by right|by right|done|done]|done|intros b1 i1 A; apply (H3 b1); by right].
Qed.
Lemma placed_of f fd L B ps bbs : p_funcs p !! f = Some fd → locals G Fn L B fd ps bbs → l_bbs (f_layout fd) ≠ [] → placed L fd.
Proof.
  intros Hf HL Hne. destruct HL as [N1 N2 N3 N4 N5 N6 N7]. pose proof (front_regular p Fp) as HR.
  assert (HF : ∀ j v, f_params fd !! j = Some v → ∃ d, vals fd !! v = Some d ∧ v_kind d = KFuncArg (N.of_nat j)).
  { intros j v Hv. destruct (rg_params _ HR _ _ Hf) as (ts & t & _ & Hp). rewrite decide_False in Hp by done. destruct Hp as [Hl Hp].
    apply lookup_lt_Some in Hv as Hlt. rewrite Hl in Hlt. apply lookup_lt_is_Some in Hlt as [u Hu]. destruct (Hp _ _ _ Hv Hu) as (d & ? & ? & _). eauto. }
  assert (HB : ∀ b d j v, blks fd !! b = Some d → bb_params d !! j = Some v → ∃ e, vals fd !! v = Some e ∧ v_kind e = KBlockArg (N.of_nat j)).
  { intros b d j v Hb Hv. destruct (rg_bb_params _ HR _ _ _ _ Hf Hb) as (ts & Hl & Hp).
    apply lookup_lt_Some in Hv as Hlt. rewrite Hl in Hlt. apply lookup_lt_is_Some in Hlt as [u Hu]. destruct (Hp _ _ _ Hv Hu) as (e & ? & ? & _). eauto. }
  constructor; [|exact (rg_bbs_once _ HR _ _ Hf)|exact HF|exact HB|].
  2: { intros v n Hv _. destruct (na_val _ _ _ N1 _ _ Hv) as (_ & d & ? & ? & _). eauto. }
  unfold places. rewrite app_assoc. apply list.NoDup_app. split; [|split; [|by eapply nodup_insts]].
  - apply (nodup_names L _ (map fst ps ++ concat (map param_names bbs))).
    + apply Forall2_app; [eapply param_named; exact N6|]. clear -N7. induction N7 as [|x b l l' (_ & (qs & Hqs & Hq) & _) Hl IH]; simpl; [constructor|].
      apply Forall2_app; [|by apply IH]. unfold bparams. rewrite Hqs. simpl. by eapply param_named.
    + unfold fun_names in N5. rewrite app_assoc in N5. by apply list.NoDup_app in N5 as [? _].
  - assert (HP : ∀ v, v ∈ f_params fd ++ concat (map (bparams fd) (l_bbs (f_layout fd))) → ∃ d, vals fd !! v = Some d ∧ TypingSpec.is_param (v_kind d) = true).
    { intros v [Hv|Hv]%elem_of_app.
      - apply elem_of_list_lookup in Hv as [j Hj]. destruct (HF _ _ Hj) as (d & ? & E). exists d. by rewrite E.
      - apply elem_of_list_In, in_concat in Hv as (l & Hl & Hv). apply in_map_iff in Hl as (x & <- & _). apply elem_of_list_In in Hv. unfold bparams in Hv. rewrite lookup_fmap in Hv.
        destruct (blks fd !! x.1) as [d|] eqn:Eb; [|by apply elem_of_nil in Hv]. simpl in Hv. apply elem_of_list_lookup in Hv as [j Hj]. destruct (HB _ _ _ _ Eb Hj) as (e & ? & E). exists e. by rewrite E. }
    intros v Hv Hc. destruct (HP _ Hv) as (d & Hd & Hk). apply elem_of_list_In, in_concat in Hc as (l & Hl & Hc). apply in_map_iff in Hl as (x & <- & Hx). apply elem_of_list_In in Hx, Hc.
    apply elem_of_list_lookup in Hx as [j Hj]. destruct (Forall2_lookup_l _ _ _ _ _ N7 Hj) as (b & _ & (_ & _ & Hs)). apply elem_of_list_lookup in Hc as [k Hk'].
    destruct (Forall2_lookup_l _ _ _ _ _ Hs Hk') as (st & _ & t & k0 & E & Hst). apply in_datas in E as (d' & Hd' & _ & <-). rewrite Hd in Hd'. injection Hd' as <-. clear -Hk Hst.
    destruct st as [m e|y z|g args|c y ta z fa|y args|[a|]|]; cbn in Hst; try done.
    + destruct Hst as (_ & _ & He). destruct e; cbn in He; [destruct He as [E _]|destruct He as (? & E & _)|destruct He as (? & ? & E & _)..]; by rewrite E in Hk.
    + destruct Hst as (? & ? & E & _). by rewrite E in Hk.
    + destruct Hst as (? & ? & E & _). by rewrite E in Hk.
    + destruct Hst as (? & ? & ? & ? & ? & E & _). by rewrite E in Hk.
    + destruct Hst as (? & ? & E & _). by rewrite E in Hk.
    + destruct Hst as (? & E & _). by rewrite E in Hk.
    + by rewrite Hst in Hk.
Qed.
Lemma globals_aggregates : aggregates (p_values p).
Proof.
  intros v d l Hd Hk. pose proof (proj1 (fr_typed _ Fp) _ _ Hd) as HT. rewrite Hk in HT. cbn in HT. inversion HT as [| | |es t H1 H2 H3 E1 E2| | | | | | | | | | | |]; subst.
  exists t, (N.of_nat (length l)). split; [done|]. intros e d' He Hd'. destruct (H3 _ He) as [H4 _]. simpl in H4. rewrite Hd' in H4. by injection H4.
Qed.
End prog.

(** ** Two programs *)
Section both.
Context (Q : gmap N string → gmap N string → list (string * aty) → list ablock → Prop) (p p' : program) (gs fs : list atop) (G Fn G' Fn' : gmap N string).
Context (HD : described Q p gs fs G Fn) (HD' : described listed_names p' gs fs G' Fn') (Fp : front p) (Fp' : front p').
Context (Hw : well_formed (gs ++ fs)) (Wg : Forall wf_global gs) (Wf : Forall wf_func fs).
Context (Hnd : NoDup (p_inst_layout p)) (Hnd' : NoDup (p_inst_layout p')).
Notation lay := (p_inst_layout p).
Notation lay' := (p_inst_layout p').
Definition Gm : gmap N N := list_to_map (zip lay lay').
Definition Fr (f f' : N) : Prop := ∃ i : nat, p_func_layout p !! i = Some f ∧ p_func_layout p' !! i = Some f'.
Lemma lay_len : length lay = length lay'.
Proof. by rewrite (Forall2_length _ _ _ (ds_gs _ _ _ _ _ _ HD)), (Forall2_length _ _ _ (ds_gs _ _ _ _ _ _ HD')). Qed.
Lemma Gm_at v v' : pairs Gm v v' ↔ ∃ i, lay !! i = Some v ∧ lay' !! i = Some v'.
Proof. unfold pairs, Gm. rewrite <- elem_of_list_to_map, in_zip; [done|]. rewrite fst_zip; [done|]. by rewrite lay_len. Qed.
Lemma Gm_once : one_to_one Gm.
Proof. intros a a' b (i & H1 & H2)%Gm_at (j & H3 & H4)%Gm_at. assert (i = j) as <- by (by eapply (NoDup_lookup _ _ _ b Hnd')). congruence. Qed.
Lemma Gm_named v v' n : G !! v = Some n → G' !! v' = Some n → pairs Gm v v'.
Proof.
  intros H H'. apply Gm_at. pose proof (ds_g _ _ _ _ _ _ HD _ _ H) as [i Hi]%elem_of_list_lookup.
  destruct (Forall2_lookup_l _ _ _ _ _ (ds_gs _ _ _ _ _ _ HD) Hi) as (t & Ht & Hr). destruct (Forall2_lookup_r _ _ _ _ _ (ds_gs _ _ _ _ _ _ HD') Ht) as (w & Hw' & Hr').
  exists i. split; [done|]. destruct t as [n' a j| | | |]; try done. destruct Hr as [Hr _], Hr' as [Hr' _]. assert (n' = n) as -> by congruence.
  assert (w = v') as -> by (by eapply (ds_gi _ _ _ _ _ _ HD')). done.
Qed.
Lemma fs_name f fd t : described_fun Q G Fn f fd t → ∃ n, gfun_names t = [n] ∧ Fn !! f = Some n.
Proof. destruct t; try done; intros [H _]; eexists; split; [done|exact H|done|exact H]. Qed.
Lemma fs_name' f fd t : described_fun listed_names G' Fn' f fd t → ∃ n, gfun_names t = [n] ∧ Fn' !! f = Some n.
Proof. destruct t; try done; intros [H _]; eexists; split; [done|exact H|done|exact H]. Qed.
Lemma Fr_named c c' n : Fn !! c = Some n → Fn' !! c' = Some n → Fr c c'.
Proof.
  intros H H'. destruct (ds_f _ _ _ _ _ _ HD' _ _ H') as (cd & Hcd & _). assert (Hin : c' ∈ p_func_layout p') by (apply (fr_funcs _ Fp'); eauto).
  apply elem_of_list_lookup in Hin as [i Hi]. destruct (Forall2_lookup_l _ _ _ _ _ (ds_fs _ _ _ _ _ _ HD') Hi) as (t & Ht & fd' & _ & Hd').
  destruct (Forall2_lookup_r _ _ _ _ _ (ds_fs _ _ _ _ _ _ HD) Ht) as (f & Hf & fd & _ & Hd). destruct (fs_name _ _ _ Hd) as (m & E & Hm), (fs_name' _ _ _ Hd') as (m' & E' & Hm').
  exists i. split; [|done]. assert (m' = m) as -> by congruence. assert (m = n) as -> by congruence. assert (f = c) as -> by (by eapply (ds_fi _ _ _ _ _ _ HD)). done.
Qed.
Lemma vars_once pre n t t' : (∀ y, y ∈ pre → y ∈ gs ++ fs) → var_in pre n t → var_in pre n t' → t = t'.
Proof.
  intros Hsub (a & i & u & H1 & H2 & ->) (a' & i' & u' & H3 & H4 & ->). f_equal. apply Hsub, (in_gs gs fs Wf) in H1, H3. apply elem_of_list_lookup in H1 as [j H1], H3 as [k H3].
  destruct (Forall2_lookup_r _ _ _ _ _ (ds_gs _ _ _ _ _ _ HD) H1) as (v & _ & Hv & d & init & e & Hd & Hk & He & _ & Hden & _).
  destruct (Forall2_lookup_r _ _ _ _ _ (ds_gs _ _ _ _ _ _ HD) H3) as (w & _ & Hw' & d' & init' & e' & Hd' & Hk' & He' & _ & Hden' & _).
  assert (v = w) as <- by (by eapply (ds_gi _ _ _ _ _ _ HD)). rewrite Hd in Hd'. injection Hd' as <-. rewrite Hk in Hk'. injection Hk' as <-. rewrite He in He'. injection He' as <-.
  etrans; [eapply denotes_fun; [by apply type_of_denotes|exact Hden]|]. eapply denotes_fun; [exact Hden'|by apply type_of_denotes].
Qed.
Lemma no_blocks q f fd : front q → p_funcs q !! f = Some fd → blks fd = ∅ → l_bbs (f_layout fd) = [] ∧ f_params fd = [].
Proof.
  intros Fq Hf Hb. pose proof (front_regular q Fq) as HR. assert (E : l_bbs (f_layout fd) = []).
  { destruct (l_bbs (f_layout fd)) as [|[b is] l] eqn:E; [done|]. destruct (rg_bbs _ HR _ _ b Hf) as [d Hd]; [rewrite E; by left|]. by rewrite Hb, lookup_empty in Hd. }
  split; [done|]. destruct (rg_params _ HR _ _ Hf) as (ts & t & _ & Hp). by rewrite decide_True in Hp.
Qed.
Lemma fun_sim f f' : Fr f f' → ∃ fd fd' Vm Bm, p_funcs p !! f = Some fd ∧ p_funcs p' !! f' = Some fd' ∧ sim_fun (pairs Gm) Fr Vm Bm fd fd'.
Proof.
  intros (i & Hi & Hi'). destruct (Forall2_lookup_l _ _ _ _ _ (ds_fs _ _ _ _ _ _ HD) Hi) as (t & Ht & fd & Hfd & Hd).
  destruct (Forall2_lookup_lr _ _ _ _ _ _ (ds_fs _ _ _ _ _ _ HD') Hi' Ht) as (fd' & Hfd' & Hd').
  destruct (fs_name _ _ _ Hd) as (m & E & Hm), (fs_name' _ _ _ Hd') as (m' & E' & Hm'). assert (m' = m) as -> by congruence.
  assert (En : f_name fd' = f_name fd).
  { destruct (ds_f _ _ _ _ _ _ HD _ _ Hm) as (x & Hx & H1), (ds_f _ _ _ _ _ _ HD' _ _ Hm') as (x' & Hx' & H2). congruence. }
  exists fd, fd'. destruct t as [|n ps r bbs|n ps r| |]; try done.
  - destruct Hd as (_ & Hty & Hord & L & B & HL & _), Hd' as (_ & Hty' & _ & L' & B' & HL' & HN1 & HN2). apply middle in Ht as (pre & post & Efs & _).
    assert (E2 : gs ++ fs = (gs ++ pre) ++ TFunDef n ps r bbs :: post) by (by rewrite Efs, app_assoc).
    destruct (Hw _ _ _ E2) as (_ & t0 & l & Ty & _ & HO). assert (l = bbs) as ->.
    { pose proof (fo_order _ _ _ _ _ _ _ HO) as Ho. apply order_unique; [|done|done]. by eapply in_order_nodup. }
    pose proof (side_of Q p gs fs G Fn HD Fp Hw Wg Wf f fd L B pre _ ps bbs t0 Ty post Hfd HL E2 HO) as S.
    pose proof (side_of listed_names p' gs fs G' Fn' HD' Fp' Hw Wg Wf f' fd' L' B' pre _ ps bbs t0 Ty post Hfd' HL' E2 HO) as S'.
    assert (Hne : bbs ≠ []) by (intros ->; destruct Hord as (e & ? & _); done).
    assert (P : placed L fd).
    { eapply (placed_of p G Fn Fp f); [done|exact HL|]. intros E0. apply Hne. pose proof (lo_bs _ _ _ _ _ _ _ HL) as F. rewrite E0 in F. by inversion F. }
    assert (P' : placed L' fd').
    { eapply (placed_of p' G' Fn' Fp' f'); [done|exact HL'|]. intros E0. apply Hne. pose proof (lo_bs _ _ _ _ _ _ _ HL') as F. rewrite E0 in F. by inversion F. }
    exists (Vm fd fd'), (Bm fd fd'). split; [done|]. split; [done|].
    eapply (tree_sim (gs ++ pre) (TFunDef n ps r bbs) ps t0 bbs Ty HO _ p p' G G' Fn Fn' L L' B B' fd fd' S S' P P' HN1 HN2 (pairs Gm) Fr); [exact Gm_named|exact Fr_named|done|by eapply types_same].
    Unshelve. intros n0 u u'. apply vars_once. intros y. rewrite E2, !elem_of_app. tauto.
  - destruct Hd as (_ & Hb & Hv & Hty), Hd' as (_ & Hb' & Hv' & Hty'). destruct (no_blocks _ _ _ Fp Hfd Hb) as [E1 E2], (no_blocks _ _ _ Fp' Hfd' Hb') as [E1' E2'].
    exists ∅, ∅. split; [done|]. split; [done|]. constructor; [done|by eapply types_same|..].
    + intros a a' b H. by rewrite lookup_empty in H.
    + rewrite E2, E2'. constructor.
    + intros v v' H. unfold pairs in H. by rewrite lookup_empty in H.
    + intros v v' H. unfold pairs in H. by rewrite lookup_empty in H.
    + rewrite E1, E1'. constructor.
Qed.
Lemma global_alike i v v' : lay !! i = Some v → lay' !! i = Some v' → ∃ d d' init init', p_values p !! v = Some d ∧ p_values p' !! v' = Some d' ∧
  v_kind d = KGlobalAlloc init ∧ v_kind d' = KGlobalAlloc init' ∧ ∀ k n, x_const k (p_values p) init n = x_const k (p_values p') init' n.
Proof.
  intros Hi Hi'. destruct (Forall2_lookup_l _ _ _ _ _ (ds_gs _ _ _ _ _ _ HD) Hi) as (t & Ht & Hr). pose proof (Forall2_lookup_lr _ _ _ _ _ _ (ds_gs _ _ _ _ _ _ HD') Hi' Ht) as Hr'.
  destruct t as [n a j| | | |]; try done. destruct Hr as (_ & d & init & e & Hd & Hk & He & Hc & Hden & _), Hr' as (_ & d' & init' & e' & Hd' & Hk' & He' & Hc' & Hden' & _).
  exists d, d', init, init'. do 4 (split; [done|]). eapply const_alike; [by apply globals_aggregates|by apply globals_aggregates|exact Hc|exact Hc'|].
  intros x x' Hx Hx'. rewrite He in Hx. injection Hx as <-. rewrite He' in Hx'. injection Hx' as <-. by eapply denotes_fun.
Qed.
Lemma globals_alike {E} fuel l l' : Forall2 (λ v v', ∃ i, lay !! i = Some v ∧ lay' !! i = Some v') l l' → ∀ m m' (W : xworld E), same_vars Gm m m' →
  xsame (λ a b, same_vars Gm a.1 b.1 ∧ a.2 = b.2) (x_globals fuel p l m W) (x_globals fuel p' l' m' W).
Proof.
  induction 1 as [|v v' l l' (i & Hi & Hi') Hl IH]; intros m m' W Hm; [by split|]. cbn [x_globals].
  destruct (global_alike _ _ _ Hi Hi') as (d & d' & init & init' & Hd & Hd' & Hk & Hk' & Hc). rewrite Hd, Hd'. cbn [xneed mbind xres_bind]. rewrite Hk, Hk'.
  rewrite Hc. destruct (x_const fuel (p_values p') init' (x_next W)) as [[x n]| | | |]; cbn [mbind xres_bind xsame]; try done.
  destruct (x_box x (x_upto W n)) as [b W1]. apply IH. apply same_vars_insert; [exact Gm_once|apply Gm_at; eauto|apply (fr_gid _ Fp); eauto|apply (fr_gid _ Fp'); eauto|done].
Qed.
Lemma by_position {A B} (l : list A) (l' : list B) : length l = length l' → Forall2 (λ x y, ∃ i, l !! i = Some x ∧ l' !! i = Some y) l l'.
Proof. intros H. apply Forall2_same_length_lookup. split; [done|]. eauto. Qed.
Lemma funcs_len : length (p_func_layout p) = length (p_func_layout p').
Proof. by rewrite (Forall2_length _ _ _ (ds_fs _ _ _ _ _ _ HD)), (Forall2_length _ _ _ (ds_fs _ _ _ _ _ _ HD')). Qed.
Lemma names_once f g fd gd : p_funcs p !! f = Some fd → p_funcs p !! g = Some gd → f_name fd = f_name gd → f = g.
Proof.
  intros Hf Hg E. assert (∀ h hd, p_funcs p !! h = Some hd → Fn !! h = Some (f_name hd)) as HN.
  { intros h hd Hh. assert (Hin : h ∈ p_func_layout p) by (apply (fr_funcs _ Fp); eauto). apply elem_of_list_lookup in Hin as [i Hi].
    destruct (Forall2_lookup_l _ _ _ _ _ (ds_fs _ _ _ _ _ _ HD) Hi) as (t & _ & hd' & _ & Hd). destruct (fs_name _ _ _ Hd) as (m & _ & Hm).
    destruct (ds_f _ _ _ _ _ _ HD _ _ Hm) as (x & Hx & <-). congruence. }
  eapply (ds_fi _ _ _ _ _ _ HD); [exact (HN _ _ Hf)|]. rewrite E. exact (HN _ _ Hg).
Qed.
Lemma described_interpret {E} (C : xconfig E) fuel order order' e : all_functions p order → all_functions p' order' →
  interpret C fuel order p e = interpret C fuel order' p' e.
Proof.
  intros Ho Ho'. unfold interpret. apply xsame_eq. eapply xsame_bind.
  { eapply globals_alike; [apply by_position, lay_len|]. split; [done|]. split; intros; apply lookup_empty. }
  intros [vars W] [vars' W'] [(V1 & V2 & V3) E1]. cbn [fst snd] in V1, V2, V3, E1. subst W'.
  assert (Hgo : go_same (pairs Gm) Fr (x_bb C p vars fuel) (x_bb C p' vars' fuel)).
  { apply bb_same; [|done|done|exact fun_sim]. intros v v' Hv. split; [by apply V1|]. apply Gm_at in Hv as (i & Hi & Hi').
    destruct (global_alike _ _ _ Hi Hi') as (d & d' & init & init' & Hd & Hd' & Hk & Hk' & _). exists d, d'. rewrite Hk, Hk'. done. }
  destruct (x_main p order) as [fd|] eqn:Em, (x_main p' order') as [fd'|] eqn:Em'.
  - apply main_is in Em as (f & _ & Hf & En). apply main_is in Em' as (f' & _ & Hf' & En').
    assert (Hin : f' ∈ p_func_layout p') by (apply (fr_funcs _ Fp'); eauto). apply elem_of_list_lookup in Hin as [i Hi].
    destruct (Forall2_lookup_r _ _ _ _ _ (by_position _ _ funcs_len) Hi) as (g & Hg & Hfr). change (Fr g f') in Hfr.
    destruct (fun_sim _ _ Hfr) as (gd & fd2 & Vm & Bm & Hgd & Hf2 & S). rewrite Hf' in Hf2. injection Hf2 as <-.
    assert (g = f) as -> by (eapply names_once; [exact Hgd|exact Hf|]; rewrite <- (sm_name _ _ _ _ _ _ S); congruence).
    rewrite Hf in Hgd. injection Hgd as <-. rewrite (func_same C _ _ _ _ _ _ _ _ [] W Hgo S). by apply xsame_refl.
  - apply main_is in Em as (f & _ & Hf & En). assert (Hin : f ∈ p_func_layout p) by (apply (fr_funcs _ Fp); eauto). apply elem_of_list_lookup in Hin as [i Hi].
    destruct (Forall2_lookup_l _ _ _ _ _ (by_position _ _ funcs_len) Hi) as (f' & _ & Hfr). destruct (fun_sim _ _ Hfr) as (gd & fd2 & Vm & Bm & Hgd & Hf2 & S).
    rewrite Hf in Hgd. injection Hgd as <-. exfalso. eapply (main_found _ _ Em' f'); [apply Ho'; by eexists|exact Hf2|]. by rewrite (sm_name _ _ _ _ _ _ S).
  - apply main_is in Em' as (f' & _ & Hf' & En'). assert (Hin : f' ∈ p_func_layout p') by (apply (fr_funcs _ Fp'); eauto). apply elem_of_list_lookup in Hin as [i Hi].
    destruct (Forall2_lookup_r _ _ _ _ _ (by_position _ _ funcs_len) Hi) as (g & _ & Hfr). destruct (fun_sim _ _ Hfr) as (gd & fd2 & Vm & Bm & Hgd & Hf2 & S).
    rewrite Hf' in Hf2. injection Hf2 as <-. exfalso. eapply (main_found _ _ Em g); [apply Ho; by eexists|exact Hgd|]. by rewrite <- (sm_name _ _ _ _ _ _ S).
  - done.
Qed.
(** The functions are the same, by name and type. *)
Lemma described_functions : signatures p = signatures p'.
Proof.
  unfold signatures. assert (H : Forall2 Fr (p_func_layout p) (p_func_layout p')) by apply by_position, funcs_len. induction H as [|f f' l l' H _ IH]; [done|]. cbn [fmap list_fmap]. f_equal; [|exact IH].
  destruct (fun_sim _ _ H) as (fd & fd' & Vm & Bm & -> & -> & S). simpl. by rewrite (sm_name _ _ _ _ _ _ S), (sm_ty _ _ _ _ _ _ S).
Qed.
End both.
