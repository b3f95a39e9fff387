(** The front end accepts well-formed texts (C49): functions, global variables and texts. *)
From Coq Require Import Lia ZifyBool ZifyNat ZifyN.
From Verif Require Import Base IdModel TypeModel IrModel LayoutModel BuilderModel WorldModel
  LexerModel ParserModel ParserSpec FrontModel FrontProofs FlowSpec FlowProofs BlockListProofs
  CleanProofs BuildCleanProofs FunCleanProofs FlowBuildProofs DriverModel DriverSpec DriverProofs UsesSpec UsesProofs
  DfgSpec DfgProofs WorldSpec WorldProofs TypingSpec TypingProofs TypingHistory EqHistory SkelProofs ParamProofs HistoryProofs
  FaithSpec RoundProofs ViewProofs FaithProofs FaithFunProofs FaithTopProofs CanonProofs CanonReadProofs RetreeFunProofs
  AcceptSpec AcceptProofs AcceptFunProofs.

(** ** The blocks of a function *)
Lemma add_pred_go a b s : is_Some (b_bbs s !! b) → ∃ s', clean (add_pred a b) s tt s'.
Proof. intros [i Hi]. unfold clean, add_pred. rewrite Hi. by eexists. Qed.
Lemma link_go b s : (∃ body fin, b_stmts b = body ++ [fin] ∧ ends_block fin) → (∀ n, succ b n → is_Some (b_bbs s !! n)) →
  ∃ s', clean (link_step b) s tt s'.
Proof.
  intros (body & fin & E & Hf) Hs. unfold link_step. rewrite E, last_snoc.
  assert (Hg : ∀ n, goes_to fin n → is_Some (b_bbs s !! n)) by (intros n Hn; apply Hs; by exists body, fin).
  destruct fin as [| | |c t ta e ea|t ta| |]; try done; simpl in Hg.
  - destruct (add_pred_go (b_name b) t s) as (s1 & H1); [apply Hg; by left|].
    destruct (add_pred_go (b_name b) e s1) as (s2 & H2).
    { apply linked_add_pred in H1 as (_ & H1 & _). eapply same_defs_is_Some; [|apply Hg; by right].
      intros z. symmetry. apply H1. }
    exists s2. eapply goes_mthen; [exact H1|exact H2].
  - apply add_pred_go. by apply Hg.
  - by exists s.
Qed.
Lemma links_go l : ∀ s, (∀ b, b ∈ l → ∃ body fin, b_stmts b = body ++ [fin] ∧ ends_block fin) →
  (∀ b n, b ∈ l → succ b n → is_Some (b_bbs s !! n)) → ∃ s', clean (b_each link_step l) s tt s'.
Proof.
  induction l as [|b l IH]; intros s He Hs; cbn [b_each]; [by eexists; apply goes_mok|].
  destruct (link_go b s) as (s1 & H1); [apply He; by left|intros n; apply Hs; by left|].
  destruct (IH s1) as (s2 & H2).
  { intros c Hc. apply He. by right. }
  { intros c n Hc Hn. apply linked_step in H1 as (_ & H1 & _). eapply same_defs_is_Some; [|eapply Hs; [by right|exact Hn]].
    intros z. symmetry. apply H1. }
  exists s2. eapply goes_mthen; [exact H1|exact H2].
Qed.

Section init.
Context (f : func) (Gs : views) (Fs : gmap N ty) (gt : string → ty → Prop) (ft : string → list ty → ty → Prop) (Ty : string → ty).
Notation pi := (pi f Gs Fs gt ft Ty).
Notation blocks_in := (blocks_in f Gs Fs gt ft Ty).
Lemma goes_init_bbs rest : ∀ bs x s k, blocks_in bs x s →
  (∀ b, b ∈ rest → well_named (b_name b) ∧ ∀ n a, (n, a) ∈ b_params b → type_of a (Ty n)) →
  (∀ n, n ∈ concat (map param_names rest) → well_named n ∧ b_gvars s !! n = None) →
  NoDup (concat (map param_names (bs ++ rest))) → NoDup (map b_name (bs ++ rest)) →
  left_in (sum_of (λ b, N.of_nat (length (b_params b)) + 1)%N rest + k) (w_ids (b_world s)) →
  ∃ x' s', clean (b_each (init_bb f) rest) s tt s' ∧ blocks_in (bs ++ rest) x' s' ∧ only f x x' (b_world s) (b_world s') ∧
    left_in k (w_ids (b_world s')) ∧ w_vals x ⊆ w_vals x' ∧ b_gvars s' = b_gvars s ∧ b_gfuncs s' = b_gfuncs s.
Proof.
  induction rest as [|b rest IH]; intros bs x s k I Hb Hn Hnd Hk Hl; cbn [b_each].
  { rewrite app_nil_r. exists x, s. split; [apply goes_mok|]. split; [done|]. split; [eapply only_refl, (bi_pi _ _ _ _ _ _ _ _ _ I)|]. done. }
  simpl in Hl, Hn. destruct (goes_init_bb f Gs Fs gt ft Ty bs x s b (sum_of (λ b, N.of_nat (length (b_params b)) + 1)%N rest + k)) as (x1 & s1 & A1 & A2 & A3 & A4 & A5 & A6 & A7); try done.
  { destruct (Hb b) as [B1 B2]; [by left|]. constructor; try done.
    - intros n Hin. destruct (Hn n) as [N1 N2]; [apply elem_of_app; by left|]. split_and!; [done| |done].
      rewrite (bi_syms _ _ _ _ _ _ _ _ _ I), elem_of_list_to_set. rewrite map_app, concat_app in Hnd. apply list.NoDup_app in Hnd as (_ & Hnd & _).
      intros Hc. apply (Hnd n Hc). simpl. apply elem_of_app. by left.
    - rewrite map_app, concat_app in Hnd. apply list.NoDup_app in Hnd as (_ & _ & Hnd). simpl in Hnd. by apply list.NoDup_app in Hnd as (? & _). }
  { rewrite map_app in Hk. apply list.NoDup_app in Hk as (_ & Hk & _). intros Hc. apply (Hk _ Hc). simpl. by left. }
  { eapply left_mono; [|exact Hl]. lia. }
  destruct (IH (bs ++ [b]) x1 s1 k) as (x2 & s2 & B1 & B2 & B3 & B4 & B5 & B6 & B7); try done.
  { intros c Hc. apply Hb. by right. }
  { intros n Hin. rewrite A6. apply Hn. apply elem_of_app. by right. }
  { by rewrite <- app_assoc. }
  { by rewrite <- app_assoc. }
  exists x2, s2. rewrite <- app_assoc in B2. split; [eapply goes_mthen; [exact A1|exact B1]|]. split; [done|]. split; [by eapply only_trans|].
  split; [done|]. split; [by etrans|]. split; congruence.
Qed.
Lemma goes_init_local args l x s k : blocks_in [] x (set_bbs ∅ s) → b_syms s = ∅ →
  (∀ n v, args !! n = Some v → is_global_id v = false ∧ ∃ y, w_vals x !! v = Some y ∧ y.2.1 = Ty n) →
  l ≠ [] →
  (∀ b, b ∈ l → well_named (b_name b) ∧ ∀ n a, (n, a) ∈ b_params b → type_of a (Ty n)) →
  (∀ b, b ∈ l → ∃ body fin, b_stmts b = body ++ [fin] ∧ ends_block fin) →
  (∀ b n, b ∈ l → succ b n → n ∈ map b_name l) →
  (∀ n, n ∈ concat (map param_names l) → well_named n ∧ b_gvars s !! n = None) →
  NoDup (concat (map param_names l)) → NoDup (map b_name l) →
  left_in (sum_of (λ b, N.of_nat (length (b_params b)) + 1)%N l + k) (w_ids (b_world s)) →
  ∃ x' s', clean (init_local_bbs f args l) s tt s' ∧ pi (blk_in l) x' s' ∧
    map snd (w_lay x') = replicate (length l) [] ∧ NoDup (map fst (w_lay x')) ∧
    Forall2 (λ y b, bi_bb <$> b_bbs s' !! b_name b = Some y.1) (w_lay x') l ∧
    only f x x' (b_world s) (b_world s') ∧ left_in k (w_ids (b_world s')) ∧
    b_gvars s' = b_gvars s ∧ b_gfuncs s' = b_gfuncs s ∧
    b_syms s' = list_to_set (concat (map param_names l)) ∪ dom args.
Proof.
  intros I Hs0 Ha Hne Hb He Ht Hn Hnd Hk Hl.
  destruct (goes_init_bbs l [] x (set_bbs ∅ s) k I) as (x1 & s1 & A1 & A2 & A3 & A4 & A5 & A6 & A7); try done.
  destruct l as [|e l]; [done|]. clear Hne. set (L := e :: l) in *. simpl in A2. fold L in A2. destruct A2 as [P1 P2 P3 P4 P5 P6 P7 P8 P9].
  assert (Hin : ∀ b, b ∈ L → is_Some (b_bbs s1 !! b_name b)).
  { intros b Hbl. apply elem_of_list_lookup in Hbl as [i Hi]. pose proof (Forall2_lookup_r _ _ _ _ _ P5 Hi) as (y & _ & Hy).
    apply fmap_Some in Hy as (? & ? & _). by eauto. }
  destruct (Hin e) as [info Hi]; [by left|]. set (q := b_syms s1 ∪ dom args).
  set (B := <[b_name e := BbInfo (bi_bb info) (bi_preds info) args]> (b_bbs s1)).
  set (s2 := set_bbs B (set_syms q s1)).
  assert (C2 : clean (entry_step (b_name e) args) (set_syms q s1) tt s2).
  { split; [|done]. unfold entry_step. simpl. by rewrite Hi. }
  assert (HB : ∀ n, bi_bb <$> B !! n = bi_bb <$> b_bbs s1 !! n).
  { intros n. unfold B. destruct (decide (n = b_name e)) as [-> |Hne]; [by rewrite lookup_insert, Hi|by rewrite lookup_insert_ne]. }
  assert (HBS : ∀ n, n ∈ map b_name L → is_Some (B !! n)).
  { intros n (b & -> & Hbl)%elem_of_list_fmap. destruct (Hin b Hbl) as [i E]. specialize (HB (b_name b)). rewrite E in HB. apply fmap_Some in HB as (? & ? & _). by eauto. }
  destruct (links_go L s2 He) as (s3 & C3).
  { intros b n Hbl Hs. unfold s2. simpl. apply HBS. by eapply Ht. }
  pose proof (linked_steps _ _ _ _ C3) as (L1 & L2 & L3 & L4). unfold s2 in L2, L3, L4. simpl in L2, L3, L4.
  assert (HB3 : ∀ n, bi_bb <$> b_bbs s3 !! n = bi_bb <$> b_bbs s1 !! n).
  { intros n. rewrite <- HB. specialize (L2 n). destruct (B !! n) as [i1|], (b_bbs s3 !! n) as [i2|]; simpl in L2; try done. injection L2 as E1 E2. simpl. by rewrite E1. }
  assert (E3 : s3 = set_bbs (b_bbs s3) (set_syms q s1)).
  { rewrite L1 at 1. done. }
  exists x1, s3. split_and!.
  - rewrite init_local_eq. eapply goes_mthen; [by apply goes_upd|]. eapply goes_mthen; [exact A1|].
    eapply goes_mthen; [by apply goes_upd|]. eapply goes_mthen; [by apply goes_some|]. eapply goes_mthen; [exact C2|exact C3].
  - rewrite E3. apply pi_bbs; [done|done| |].
    + intros b n v Hd. assert (Hd' : defines B b n v).
      { destruct Hd as (i & Hi' & Hv). specialize (L2 b). rewrite Hi' in L2. destruct (B !! b) as [j|] eqn:Ej; [|done]. simpl in L2.
        injection L2 as E1 E2. exists j. split; [done|]. by rewrite E2. }
      destruct Hd' as (i & Hi' & Hv). unfold B in Hi'. destruct (decide (b = b_name e)) as [-> |Hne].
      * rewrite lookup_insert in Hi'. injection Hi' as <-. simpl in Hv. destruct (Ha _ _ Hv) as (? & y & Hy & ?).
        split; [done|]. exists y. split; [by eapply lookup_weaken|done].
      * rewrite lookup_insert_ne in Hi' by done. eapply (pi_defs _ _ _ _ _ _ _ _ _ P1). by exists i.
    + intros b p Hp. apply L3 in Hp as [Hp|(c & Hc & -> & _)].
      * exfalso. destruct Hp as (i & Hi' & Hp). unfold B in Hi'. destruct (decide (b = b_name e)) as [-> |Hne].
        -- rewrite lookup_insert in Hi'. injection Hi' as <-. apply (P7 (b_name e) p). by exists info.
        -- rewrite lookup_insert_ne in Hi' by done. apply (P7 b p). by exists i.
      * destruct (Hin c Hc) as [i Ei]. specialize (HB3 (b_name c)). rewrite Ei in HB3. apply fmap_Some in HB3 as (? & ? & _). by eauto.
  - done.
  - done.
  - eapply list.Forall2_impl; [exact P5|]. intros y b Hy. cbn beta in *. by rewrite HB3.
  - rewrite E3. exact A3.
  - rewrite E3. exact A4.
  - rewrite E3. exact A6.
  - rewrite E3. exact A7.
  - rewrite E3. simpl. unfold q. by rewrite P9.
Qed.
End init.

(** ** Function definitions *)
Section body.
Context (f : func) (Gs : views) (Fs : gmap N ty) (pre : list atop) (self : atop) (Ty : string → ty).
Notation gt := (var_in pre).
Notation ft := (fun_in (pre ++ [self])).
Lemma order_head bbs l : in_order bbs l → head (map b_name l) = head (map b_name bbs) ∧ is_Some (head (map b_name l)).
Proof.
  intros (e & He & _ & Hn). rewrite Hn. simpl. destruct bbs; [done|]. injection He as ->. simpl. eauto.
Qed.
Lemma usable_name ps l front b sts rest st after n : l = front ++ b :: rest → b_stmts b = sts ++ st :: after →
  usable ps l front b sts n → n ∈ fun_names ps l.
Proof.
  intros El Eb (d & Hd & _ & H). unfold fun_names. rewrite !elem_of_app.
  assert (Hc : ∀ (g : ablock → list string) c, c ∈ l → n ∈ g c → n ∈ concat (map g l)).
  { intros g c Hc Hn. apply elem_of_list_In, in_concat. exists (g c). split; [by apply in_map, elem_of_list_In|by apply elem_of_list_In]. }
  destruct H as [H|[[H1 H2]|[-> H]]].
  - case_decide; [by left|]. right. left. by eapply Hc.
  - right. right. eapply Hc; [exact Hd|exact H2].
  - right. right. eapply Hc; [exact Hd|]. unfold body_names. rewrite Eb, map_app, concat_app. apply elem_of_app. by left.
Qed.
Lemma goes_body ps r bbs l args x s k : blocks_in f Gs Fs gt ft Ty [] x (set_bbs ∅ s) → b_syms s = ∅ →
  fun_of pre self ps r bbs l Ty →
  (∀ n, is_Some (args !! n) ↔ n ∈ map fst ps) →
  (∀ n v, args !! n = Some v → is_global_id v = false ∧ ∃ y, w_vals x !! v = Some y ∧ y.2.1 = Ty n) →
  left_in (sum_of (λ b, N.of_nat (length (b_params b)) + 1)%N l + (sum_of (λ b, sum_of stmt_size (b_stmts b)) l + k)) (w_ids (b_world s)) →
  ∃ x' s1 s', clean (init_local_bbs f args l) s tt s1 ∧ clean (b_each (build_block f r) l) s1 tt s' ∧
    pi f Gs Fs gt ft Ty (blk_in l) x' s' ∧ only f x x' (b_world s) (b_world s') ∧
    left_in k (w_ids (b_world s')) ∧ b_gvars s' = b_gvars s ∧ b_gfuncs s' = b_gfuncs s.
Proof.
  intros I Hs0 Fo Ha Hat Hl. pose proof (fo_order _ _ _ _ _ _ _ Fo) as Ho. pose proof (in_order_nodup _ _ Ho) as Hnd.
  destruct (order_head _ _ Ho) as [Hh Hh'].
  assert (Hne : l ≠ []) by (intros ->; by destruct Hh').
  assert (Hg : ∀ n, n ∈ fun_names ps l → well_named n ∧ b_gvars s !! n = None).
  { intros n Hn. split.
    - pose proof (fo_named _ _ _ _ _ _ _ Fo) as F. apply list.Forall_app in F as [_ F]. rewrite list.Forall_forall in F. by apply F.
    - destruct (b_gvars s !! n) as [v|] eqn:E; [|done].
      destruct (pi_gvars _ _ _ _ _ _ _ _ _ (bi_pi _ _ _ _ _ _ _ _ _ I) n v E) as (_ & t & Hv & _).
      exfalso. by eapply (fo_globals _ _ _ _ _ _ _ Fo). }
  pose proof (fo_names _ _ _ _ _ _ _ Fo) as Nn. unfold fun_names in Nn, Hg. apply list.NoDup_app in Nn as (N1 & N2 & Nn).
  apply list.NoDup_app in Nn as (N3 & N4 & N5).
  assert (Hcl : ∀ b n, b ∈ l → succ b n → n ∈ map b_name l).
  { intros b n Hb Hs. destruct (fo_targets _ _ _ _ _ _ _ Fo b n Hb Hs) as [T _]. apply elem_of_list_fmap in T as (c & -> & Hc).
    apply elem_of_list_fmap_1. destruct Ho as (e & He & Hin & _). apply Hin. split; [done|].
    apply Hin in Hb as [_ [q Hq]]. exists (S q). by eapply bpath_snoc. }
  destruct (goes_init_local f Gs Fs gt ft Ty args l x s (sum_of (λ b, sum_of stmt_size (b_stmts b)) l + k)) as (x1 & s1 & A1 & A2 & A3 & A4 & A5 & A6 & A7 & A8 & A9 & A10); try done.
  { intros b Hb. split.
    - pose proof (fo_named _ _ _ _ _ _ _ Fo) as F. apply list.Forall_app in F as [F _]. rewrite list.Forall_forall in F. apply F. by apply elem_of_list_fmap_1.
    - intros n a Hn. apply (fo_params _ _ _ _ _ _ _ Fo). apply elem_of_app. right. apply elem_of_list_In, in_concat.
      exists (b_params b). split; [by apply in_map, elem_of_list_In|by apply elem_of_list_In]. }
  { apply Fo. }
  { intros n Hn. apply Hg. rewrite !elem_of_app. auto. }
  destruct (clean_init_local _ _ _ _ _ _ A1 Hnd) as (first & Hf & D1 & D2 & _ & D4 & D5).
  assert (Hfn : head (map b_name l) = Some (b_name first)) by (destruct l; [done|]; injection Hf as ->; done).
  destruct (goes_blocks f Gs Fs gt ft Ty (blk_in l) r (b_bbs s1) l) with (rest := l) (front := @nil ablock) (l1 := @nil (N * list N)) (l2 := w_lay x1) (x := x1) (s := s1) (k := k)
    as (x2 & s2 & B1 & B2 & B3); try done.
  { intros front b rest sts st after El Eb. eexists. split; [exact (fo_stmts _ _ _ _ _ _ _ Fo front b rest sts st after El Eb)|].
    intros s' Hm Hfr Hsts. assert (Hb : b ∈ l) by (rewrite El; apply elem_of_app; right; by left). split.
    { apply Hm, D1. by apply elem_of_list_fmap_1. }
    intros n t [Hv|[Hu ->]]; [by left|right]. pose proof (usable_name _ _ _ _ _ _ _ _ _ El Eb Hu) as Hn.
    split; [intros t'; by apply (fo_globals _ _ _ _ _ _ _ Fo)|]. split; [done|].
    destruct Hu as (d & Hd & [q Hq] & Hdef). destruct Hm as (M1 & M2 & M3).
    assert (∃ v, defines (b_bbs s') (b_name d) n v) as [v Hv].
    { destruct Hdef as [Hdef|[[H1 H2]|[-> H]]]; [|by apply Hfr|by apply Hsts].
      rewrite Hfn in Hdef. destruct (decide (Some (b_name first) = Some (b_name d))) as [E|E].
      - injection E as E. apply Ha in Hdef as [v Hv]. apply D5 in Hv. rewrite <- E. by eapply M3.
      - apply D4 in Hdef as [v Hv]; [by eapply M3|done|]. by intros ->. }
    exists v, (b_name d). split; [|done]. eapply path_preds; [|exact Hq]. intros y t [q' Hy] Hs. apply M2, D2. exists y. split_and!; [|done..].
    by eapply bpath_in. }
  { intros b is v Hb Hv. exfalso. assert (is = []) as ->; [|by apply elem_of_nil in Hv].
    assert (Hin : is ∈ map snd (w_lay x1)) by (apply elem_of_list_fmap; by exists (b, is)). rewrite A3 in Hin.
    apply elem_of_replicate in Hin. by destruct Hin. }
  { apply more_refl. }
  { by intros d n ?%elem_of_nil. }
  { intros n Hn. destruct (Hg n) as [G1 G2]; [rewrite !elem_of_app; auto|]. split; [done|]. rewrite A10, A8. split; [|done].
    intros [Hc|Hc]%elem_of_union.
    - apply elem_of_list_to_set in Hc. by apply (N4 n Hc).
    - apply elem_of_dom, Ha in Hc. apply (N2 n Hc). apply elem_of_app. by right. }
  exists x2, s1, s2. split; [done|]. split; [done|]. split; [apply B2|]. split; [eapply only_trans; [exact A6|apply B2]|]. split; [done|].
  split; [rewrite (bt_gvars _ _ _ _ _ _ _ _ _ _ _ B2); done|rewrite (bt_gfuncs _ _ _ _ _ _ _ _ _ _ _ B2); done].
Qed.
End body.

(** ** Texts *)
(** The definitions [pre] have been read, and [k] more values, blocks and functions can be made. *)
Record ti (k : N) (pre : list atop) (s : bstate) : Prop := {
  ti_room : room k (b_world s);
  ti_left : left_in k (w_ids (b_world s));
  ti_gvars : ∀ n v, b_gvars s !! n = Some v → is_global_id v = true ∧ ∃ t, var_in pre n t ∧ vty (gvs (b_world s)) ∅ v = Some t;
  ti_gt : ∀ n t, var_in pre n t → is_Some (b_gvars s !! n);
  ti_gt_fun : ∀ n t t', var_in pre n t → var_in pre n t' → t = t';
  ti_ft : ∀ n ts r, fun_in pre n ts r → ∃ c, b_gfuncs s !! n = Some c ∧ (w_fty <$> fvs (b_world s)) !! c = Some (TFun ts r);
  ti_gfuncs : ∀ n, is_Some (b_gfuncs s !! n) → n ∈ concat (map top_names pre);
}.
Lemma in_concat_map {A B} (g : A → list B) l a b : a ∈ l → b ∈ g a → b ∈ concat (map g l).
Proof. intros H1 H2. apply elem_of_list_In, in_concat. exists (g a). split; [by apply in_map, elem_of_list_In|by apply elem_of_list_In]. Qed.
Lemma var_in_name pre n t : var_in pre n t → n ∈ concat (map top_names pre).
Proof. intros (a & i & t0 & H & _). eapply in_concat_map; [exact H|]. simpl. by left. Qed.
Lemma fun_in_name pre n ts r : fun_in pre n ts r → n ∈ concat (map top_names pre).
Proof. intros (ps & r0 & [H|(qs & bbs & _ & H)] & _); (eapply in_concat_map; [exact H|]); simpl; by left. Qed.
Lemma ti_gvars_none k pre s n : ti k pre s → n ∉ concat (map top_names pre) → b_gvars s !! n = None ∧ b_gfuncs s !! n = None.
Proof.
  intros I Hn. split; apply eq_None_not_Some; intros Hs.
  - destruct Hs as [v Hv]. apply (ti_gvars _ _ _ I) in Hv as (_ & t & Hv & _). apply Hn. by eapply var_in_name.
  - apply Hn. by apply (ti_gfuncs _ _ _ I).
Qed.
Lemma var_in_snoc pre u n t : var_in (pre ++ [u]) n t ↔ var_in pre n t ∨ var_in [u] n t.
Proof. unfold var_in. setoid_rewrite elem_of_app. naive_solver. Qed.
Lemma fun_in_snoc pre u n ts r : fun_in (pre ++ [u]) n ts r ↔ fun_in pre n ts r ∨ fun_in [u] n ts r.
Proof. unfold fun_in. setoid_rewrite elem_of_app. naive_solver. Qed.

Lemma new_func_args_go k ps : ∀ i idx g, Forall (λ p : option string * ty, valid_opt_name p.1 = true) ps →
  left_in (N.of_nat (length ps) + k) i →
  ∃ vs i' g', new_func_args i idx ps g = Some (vs, i', g') ∧ left_in k i'.
Proof.
  induction ps as [|[n t] ps IH]; intros i idx g Hn Hl; cbn [new_func_args].
  { eexists _, _, _. split; [done|]. by eapply left_mono; [|exact Hl]. }
  apply list.Forall_cons in Hn as [Hn1 Hn2]. simpl in Hn1.
  destruct (left_lv (N.of_nat (length ps) + k) i) as (v & i' & Hi & Hl' & _).
  { eapply left_mono; [|exact Hl]. simpl. lia. }
  unfold dfg_new_value_data. rewrite Hi. simpl. unfold dfg_set_value_name. simpl. rewrite lookup_insert. simpl. unfold set_name. rewrite Hn1. simpl.
  edestruct (IH i') as (vs & i2 & g2 & E & Hl2); [done|exact Hl'|]. rewrite E. simpl. eauto 10.
Qed.
Lemma sanity_go n ts : well_named n → Forall (λ t, t ≠ TUnit) ts → check_sanity n ts = Some tt.
Proof.
  intros Hn Ht. unfold check_sanity. rewrite well_named_valid by done. simpl.
  replace (forallb _ ts) with true; [done|]. symmetry. apply forallb_forall. intros t Hin%elem_of_list_In.
  rewrite list.Forall_forall in Ht. apply Ht in Hin. by destruct t.
Qed.
Lemma new_func_def_go n ps r k w : well_named n → Forall (λ p : option string * ty, valid_opt_name p.1 = true ∧ p.2 ≠ TUnit) ps →
  left_in (N.of_nat (length ps) + (1 + k)) (w_ids w) →
  ∃ f w', w_new_func_def n ps r w = Some (f, w') ∧ left_in k (w_ids w').
Proof.
  intros Hn Hps Hl. unfold w_new_func_def, prog_new_func_def, fdata_with_param_names. rewrite sanity_go; [|done|].
  2: { apply list.Forall_forall. intros t (p & -> & Hp)%elem_of_list_fmap. rewrite list.Forall_forall in Hps. by apply Hps. }
  simpl. destruct (new_func_args_go (1 + k) ps (w_ids w) 0 dfg0) as (vs & i' & g' & E & Hl'); [|done|].
  { eapply list.Forall_impl; [exact Hps|]. by intros p []. }
  rewrite E. simpl. unfold prog_new_func. destruct (left_fn k i' Hl') as (c & i2 & Ec & Hl2 & _). rewrite Ec. simpl. eauto.
Qed.
Lemma new_func_decl_go n ts r k w : well_named n → Forall (λ t, t ≠ TUnit) ts → left_in (1 + k) (w_ids w) →
  ∃ f w', w_new_func_decl n ts r w = Some (f, w') ∧ left_in k (w_ids w').
Proof.
  intros Hn Ht Hl. unfold w_new_func_decl, prog_new_func_decl, fdata_new_decl. rewrite sanity_go by done. simpl.
  unfold prog_new_func. destruct (left_fn k _ Hl) as (c & i2 & Ec & Hl2 & _). rewrite Ec. simpl. eauto.
Qed.
Lemma arg_map_go ps : ∀ d s, NoDup (map fst ps) → (∀ n, n ∈ map fst ps → d !! n = None) → ∃ d', clean (arg_map ps d) s d' s.
Proof.
  induction ps as [|[n v] ps IH]; intros d s Hnd Hd; cbn [arg_map]; [by exists d|].
  simpl in Hnd, Hd. apply list.NoDup_cons in Hnd as [N1 N2].
  destruct (IH (<[n := v]> d) s N2) as (d' & H').
  { intros m Hm. rewrite lookup_insert_ne; [apply Hd; by right|]. by intros ->. }
  exists d'. eapply goes_mthen; [|exact H']. rewrite decide_False; [apply goes_mok|]. rewrite Hd by (by left). by intros [? ?].
Qed.
Lemma def_func_go n f s : b_gvars s !! n = None → b_gfuncs s !! n = None →
  clean (def_func n f) s tt (set_gfuncs (<[n := f]> (b_gfuncs s)) s).
Proof.
  intros H1 H2. split; [|done]. unfold def_func. rewrite decide_False by (rewrite H1; by intros [? ?]).
  by rewrite decide_False by (rewrite H2; by intros [? ?]).
Qed.

(** *** Declarations *)
Lemma ti_decl k pre n ps r s : ti (1 + k) pre s → top_of pre (TFunDecl n ps r) →
  ∃ s', clean (build_fun_decl n ps r) s tt s' ∧ ti k (pre ++ [TFunDecl n ps r]) s'.
Proof.
  intros I [Hn (ts & t0 & Hps & Hr)]. apply list.Forall_cons in Hn as [[Hn1 Hn2] _].
  destruct (ti_gvars_none _ _ _ _ I Hn2) as [G1 G2]. destruct I as [R L I1 I2 I3 I4 I5].
  destruct (new_func_decl_go n ts t0 k (b_world s)) as (c & w & Hw & L'); [done| |done|].
  { clear -Hps. induction Hps as [|a t l ts Ha _ IH]; constructor; [by eapply type_not_unit|done]. }
  pose proof (goes_prog _ s _ _ Hw) as Hc. pose proof (room_clean (1 + k) _ _ _ _ _ Hc R) as R'. simpl in R'.
  apply (view_new_decl (1 + k)) in Hw as (V1 & V2 & V3 & _); [|done].
  eexists. split.
  - unfold build_fun_decl. eapply goes_mthen; [apply goes_some, types_gen, Hps|]. eapply goes_mthen; [apply goes_some, ret_gen, Hr|].
    eapply goes_mthen; [exact Hc|]. by apply def_func_go.
  - assert (Hv : ∀ m t, var_in [TFunDecl n ps r] m t → False) by (by intros m t (a & i & t1 & ?%elem_of_list_singleton & _)).
    constructor; simpl.
    + eapply room_mono; [|exact R']. lia.
    + done.
    + intros m v Hm. destruct (I1 m v Hm) as (E1 & t & Ht & E2). split; [done|]. exists t. split; [apply var_in_snoc; by left|]. by rewrite V3.
    + intros m t [Hm|?%Hv]%var_in_snoc; [by eapply I2|done].
    + intros m t t' [Hm|?%Hv]%var_in_snoc [Hm'|?%Hv]%var_in_snoc; [by eapply I3|done..].
    + intros m l t [Hm|Hm]%fun_in_snoc.
      * destruct (I4 _ _ _ Hm) as (d & Hd & Hd'). exists d. split.
        -- rewrite lookup_insert_ne; [done|]. intros <-. apply Hn2. by eapply fun_in_name.
        -- rewrite V2, fmap_insert, lookup_insert_ne; [done|]. intros <-. by rewrite lookup_fmap, V1 in Hd'.
      * destruct Hm as (qs & r' & [E%elem_of_list_singleton|(q & b & _ & ?%elem_of_list_singleton)] & Hq & Hr'); [|done]. injection E as -> -> ->.
        rewrite (types_fun _ _ _ Hq Hps). apply ret_gen in Hr, Hr'. rewrite Hr in Hr'. injection Hr' as ->.
        exists c. rewrite lookup_insert. split; [done|]. rewrite V2, fmap_insert, lookup_insert. done.
    + intros m Hm. rewrite map_app, concat_app. apply elem_of_app. destruct (decide (m = n)) as [-> |Hne]; [right; simpl; by left|].
      rewrite lookup_insert_ne in Hm by done. left. by apply I5.
Qed.

(** *** Definitions *)
Lemma sum_of_app {A} (g : A → N) l1 l2 : sum_of g (l1 ++ l2) = (sum_of g l1 + sum_of g l2)%N.
Proof. induction l1 as [|a l1 IH]; simpl; [done|]. rewrite IH. lia. Qed.
Lemma sum_of_sub {A} (g : A → N) l1 l2 : l1 ⊆+ l2 → (sum_of g l1 ≤ sum_of g l2)%N.
Proof. induction 1; simpl in *; lia. Qed.
Lemma order_size bbs l : in_order bbs l →
  (sum_of (λ b, N.of_nat (length (b_params b)) + 1)%N l + sum_of (λ b, sum_of stmt_size (b_stmts b)) l ≤ sum_of block_size bbs)%N.
Proof.
  intros Ho. pose proof (in_order_nodup _ _ Ho) as Hnd. destruct Ho as (e & _ & Hin & _).
  assert (l ⊆+ bbs) as Hs%(sum_of_sub block_size).
  { apply NoDup_submseteq; [by eapply NoDup_fmap_1|]. intros b Hb. by apply Hin in Hb as [? _]. }
  etrans; [|exact Hs]. clear. induction l as [|b l IH]; [done|]. cbn [sum_of foldr] in *. fold (sum_of block_size l) in *.
  change (block_size b) with (N.of_nat (length (b_params b)) + sum_of stmt_size (b_stmts b) + 1)%N.
  unfold sum_of in *. lia.
Qed.
Lemma ti_def k pre n ps r bbs s : ti (top_size (TFunDef n ps r bbs) + k) pre s → top_of pre (TFunDef n ps r bbs) →
  ∃ s', clean (build_fun_def n ps r bbs) s tt s' ∧ ti k (pre ++ [TFunDef n ps r bbs]) s'.
Proof.
  intros I [Hn (t0 & l & Ty & Hr & Fo)]. set (self := TFunDef n ps r bbs) in *. apply list.Forall_cons in Hn as [[Hn1 Hn2] _].
  destruct (ti_gvars_none _ _ _ _ I Hn2) as [G1 G2]. destruct I as [R L I1 I2 I3 I4 I5].
  set (qs := map (λ p : string * aty, (opt_name p.1, Ty p.1)) ps).
  destruct (params_gen ps Ty) as [Hps Hts].
  { intros m a Hm. apply (fo_params _ _ _ _ _ _ _ Fo). apply elem_of_app. by left. }
  fold qs in Hps.
  assert (Hqs : Forall (λ p : option string * ty, valid_opt_name p.1 = true ∧ p.2 ≠ TUnit) qs).
  { apply list.Forall_forall. intros p ([m a] & -> & Hp)%elem_of_list_fmap. simpl. split.
    - apply well_named_opt. pose proof (fo_named _ _ _ _ _ _ _ Fo) as F. apply list.Forall_app in F as [_ F]. rewrite list.Forall_forall in F. apply F.
      unfold fun_names. apply elem_of_app. left. apply elem_of_list_fmap. by exists (m, a).
    - eapply type_not_unit. apply (fo_params _ _ _ _ _ _ _ Fo). apply elem_of_app. left. exact Hp. }
  set (c1 := sum_of (λ b, N.of_nat (length (b_params b)) + 1)%N l). set (c2 := sum_of (λ b, sum_of stmt_size (b_stmts b)) l).
  pose proof (order_size _ _ (fo_order _ _ _ _ _ _ _ Fo)) as Hsz. fold c1 c2 in Hsz.
  destruct (new_func_def_go n qs t0 (c1 + (c2 + k)) (b_world s)) as (f & w & Hw & L'); [done|done| |].
  { eapply left_mono; [|exact L]. unfold qs. rewrite map_length. simpl. lia. }
  pose proof (goes_prog _ s _ _ Hw) as Hc. pose proof (room_clean _ _ _ _ _ _ Hc R) as R'. simpl in R'.
  pose proof (view_new_def _ _ _ _ _ _ _ Hw R) as (m & vs & V1 & V2 & V3 & _ & _ & (A1 & A2 & A3 & A4 & A5)).
  unfold qs in A2. rewrite map_length in A2.
  set (x := FView n (TFun (map snd qs) t0) vs m ∅ []) in *.
  assert (Hx : fvs w !! f = Some x) by (by rewrite V2, lookup_insert).
  assert (Hfd : f_params <$> p_funcs (w_prog w) !! f = Some vs).
  { rewrite lookup_fmap in Hx. apply fmap_Some in Hx as (fd & -> & E). simpl. apply (f_equal w_pars) in E. simpl in E. by rewrite E. }
  assert (Hzip : map fst (zip (map fst ps) vs) = map fst ps) by (apply fst_zip; rewrite map_length; lia).
  destruct (arg_map_go (zip (map fst ps) vs) ∅ (set_world w s)) as (args & Hargs).
  { rewrite Hzip. pose proof (fo_names _ _ _ _ _ _ _ Fo) as Nn. unfold fun_names in Nn. by apply list.NoDup_app in Nn as (? & _). }
  { intros ? _. by rewrite lookup_empty. }
  pose proof (clean_arg_map _ _ _ _ _ Hargs) as (_ & _ & _ & Hav).
  set (s0 := set_syms ∅ (set_gfuncs (<[n := f]> (b_gfuncs s)) (set_world w s))).
  destruct (block_list_go bbs l s0) as (kw & Hbl); [apply Fo..|].
  assert (Hsig : TFun (map snd qs) t0 = TFun (map (λ p : string * aty, Ty p.1) ps) t0).
  { f_equal. unfold qs. by rewrite map_map. }
  assert (Hft : ∀ m l t, fun_in (pre ++ [self]) m l t → ∃ c, <[n := f]> (b_gfuncs s) !! m = Some c ∧ (w_fty <$> fvs w) !! c = Some (TFun l t)).
  { intros m' l' t [Hm|Hm]%fun_in_snoc.
    - destruct (I4 _ _ _ Hm) as (d & Hd & Hd'). exists d. split.
      + rewrite lookup_insert_ne; [done|]. intros <-. apply Hn2. by eapply fun_in_name.
      + rewrite V2, fmap_insert, lookup_insert_ne; [done|]. intros <-. by rewrite lookup_fmap, V1 in Hd'.
    - destruct Hm as (qs' & r' & [?%elem_of_list_singleton|(q & b & -> & E%elem_of_list_singleton)] & Hq & Hr'); [done|]. injection E as -> -> -> ->.
      rewrite (types_fun _ _ _ Hq Hts). apply ret_gen in Hr, Hr'. rewrite Hr in Hr'. injection Hr' as ->.
      exists f. rewrite lookup_insert. split; [done|]. rewrite V2, fmap_insert, lookup_insert. unfold x. simpl. by rewrite Hsig. }
  destruct (goes_body f (gvs w) (w_fty <$> fvs w) pre self Ty ps t0 bbs l args x (set_warns kw s0) k) as (x' & s1 & s' & B1 & B2 & B3 & B4 & B5 & B6 & B7); try done.
  { constructor; simpl; try done; try (by intros ? ?%elem_of_nil).
    - constructor; simpl; try done.
      + eapply room_mono; [|exact R']. lia.
      + intros m' v Hm. destruct (I1 _ _ Hm) as (? & t & ? & ?). split; [done|]. exists t. split; [done|]. by rewrite V3.
      + intros b n' v (i & Hi & _). by rewrite lookup_empty in Hi.
      + intros n' ts (b & ?%elem_of_nil & _). done.
      + intros b p (i & Hi & _). by rewrite lookup_empty in Hi.
    - constructor.
    - intros n' Hs. rewrite lookup_empty in Hs. by destruct Hs.
    - intros n' p (i & Hi & _). by rewrite lookup_empty in Hi.
    - by intros d n' ?%elem_of_nil. }
  { intros m'. rewrite <- Hzip. split.
    - intros [v Hv]. apply Hav in Hv as [Hv|Hv]; [|by rewrite lookup_empty in Hv]. apply elem_of_list_fmap. by exists (m', v).
    - intros ([m2 v] & -> & Hv)%elem_of_list_fmap. exists v. apply Hav. by left. }
  { intros m' v Hv. apply Hav in Hv as [Hv|Hv]; [|by rewrite lookup_empty in Hv]. apply elem_of_list_lookup in Hv as [j Hv].
    apply lookup_zip_with_Some in Hv as (n1 & v1 & [= <- <-] & Hm & Hv). rewrite list_lookup_fmap in Hm. apply fmap_Some in Hm as ([n' a] & Hp & ->).
    split; [by apply A3; eapply elem_of_list_lookup_2|]. eexists. split; [apply (A5 j); [done|]|done].
    unfold qs. apply (map_at (λ p, (opt_name p.1, Ty p.1)) _ _ _ Hp). }
  assert (Hrun : clean (build_fun_def n ps r bbs) s tt s').
  { unfold build_fun_def. eapply goes_mthen; [apply goes_some, ret_gen, Hr|]. eapply goes_mthen; [apply goes_some, Hps|].
    eapply goes_mthen; [exact Hc|]. eapply goes_mthen; [split; reflexivity|]. eapply goes_mthen; [apply goes_some; exact Hfd|].
    eapply goes_mthen; [exact Hargs|]. eapply goes_mthen; [by apply def_func_go|]. eapply goes_mthen; [by apply goes_upd|].
    eapply goes_mthen; [exact Hbl|]. eapply goes_mthen; [exact B1|exact B2]. }
  exists s'. split; [done|]. pose proof (room_clean _ _ _ _ _ _ Hrun R) as R2.
  assert (Hv : ∀ m t, var_in [self] m t → False) by (by intros m' t (a & i & t1 & ?%elem_of_list_singleton & _)).
  pose proof (pi_Gs _ _ _ _ _ _ _ _ _ B3) as EG. pose proof (pi_Fs _ _ _ _ _ _ _ _ _ B3) as EF.
  constructor.
  - eapply room_mono; [|exact R2]. lia.
  - done.
  - intros m' v Hm. rewrite B6 in Hm. destruct (I1 m' v Hm) as (E1 & t & Ht & E2). split; [done|]. exists t. split; [apply var_in_snoc; by left|].
    by rewrite EG, V3.
  - intros m' t [Hm|?%Hv]%var_in_snoc; [|done]. rewrite B6. by eapply I2.
  - intros m' t t' [Hm|?%Hv]%var_in_snoc [Hm'|?%Hv]%var_in_snoc; [by eapply I3|done..].
  - intros m' l' t Hm. rewrite B7, EF. by apply Hft.
  - intros m' Hm. rewrite B7 in Hm. simpl in Hm. rewrite map_app, concat_app. apply elem_of_app. destruct (decide (m' = n)) as [-> |Hne]; [right; simpl; by left|].
    rewrite lookup_insert_ne in Hm by done. left. by apply I5.
Qed.

(** *** Global variables *)
Definition genv (m : views) : env :=
  Env (λ v, (λ y, y.2.1) <$> m !! v) (λ v, match m !! v with Some y => is_const y.2.2 | None => false end) (λ _, None) (λ _, None).
Lemma new_global_go r t k w : room (1 + k) w → global_req r = true → has_type (genv (gvs w)) (requested r) t → requested_ty r t →
  ∃ v w', w_new_global r w = Some (v, w') ∧ gvs w !! v = None ∧ is_global_id v = true ∧
    gvs w' = <[v := (None, (t, requested r))]> (gvs w) ∧ fvs w' = fvs w ∧ room k w' ∧
    ∀ j, left_in j (w_ids w) → left_in j (w_ids w').
Proof.
  intros R Hr Ht Hty. set (p := w_prog w) in *.
  assert (Hb : build (global_querier p) r = Some (new_vdata t (requested r))).
  { apply build_complete; [apply q_ok_global| |done]. eapply has_type_ext; [..|exact Ht].
    - intros u. simpl. rewrite lookup_fmap. by destruct (p_values p !! u).
    - intros u. simpl. rewrite lookup_fmap. by destruct (p_values p !! u).
    - done.
    - done. }
  destruct (room_gv _ _ R) as [[G1 G2] _].
  assert (Hi : ∃ v i', next_global_value_id (w_ids w) = Some (v, i') ∧ ∀ j, left_in j (w_ids w) → left_in j i').
  { unfold next_global_value_id, fetch_add1, new_unchecked. destruct (N.eqb_spec (next_gv (w_ids w)) 0); [lia|]. eexists _, _. by split. }
  destruct Hi as (v & i' & Hi & Hj).
  assert (Hu : ∃ gs, upd_guses (add_user v) (value_uses (requested r)) (p_values p) = Some gs).
  { rewrite upd_guses_upd_uses.
    destruct (upd_uses_spec (add_user v) (value_uses (requested r)) (add_user_idem v) (p_values p) ∅) as [[-> _]|[_ (u & Hu & N1 & N2)]].
    - intros u _. apply lookup_empty.
    - by eexists.
    - exfalso. assert (u ∈ operands (requested r)) as Hu' by (by rewrite <- value_uses_operands || exact Hu).
      apply (has_type_operands _ _ _ Ht) in Hu'. simpl in Hu'. apply fmap_is_Some in Hu' as [y Hy].
      rewrite lookup_fmap in Hy. change (w_prog w) with p in Hy. rewrite N1 in Hy. done. }
  destruct Hu as (gs & Hu).
  assert (Hw : ∃ w', w_new_global r w = Some (v, w') ∧ w_ids w' = i').
  { unfold w_new_global. fold p. rewrite Hb. simpl. unfold w_new_global_data, global_insert_value, prog_new_value_data. fold p.
    rewrite Hi. simpl. rewrite Hu. simpl. by eexists. }
  destruct Hw as (w' & Hw & <-). exists v, w'. split; [done|].
  pose proof (view_new_global _ _ _ _ _ Hw Hr R) as (d & Hd & A1 & A2 & A3 & A4 & _ & _ & A5).
  fold p in Hd. rewrite Hb in Hd. injection Hd as <-. simpl in A3. done.
Qed.
Definition gconst (t : ty) (m : views) (v : value) : Prop := ∃ y, m !! v = Some y ∧ y.2.1 = t ∧ is_const y.2.2 = true.
Lemma gconst_mono t m m' v : m ⊆ m' → gconst t m v → gconst t m' v.
Proof. intros H (y & Hy & E). exists y. split; [by eapply lookup_weaken|done]. Qed.
(** Only constants are made. *)
Definition ggoes {A} (m : F A) (c : N) (s : bstate) (P : views → A → Prop) : Prop :=
  ∀ k, room (c + k) (b_world s) → ∃ a w, clean m s a (set_world w s) ∧ gvs (b_world s) ⊆ gvs w ∧ fvs w = fvs (b_world s) ∧
    room k w ∧ (∀ j, left_in j (w_ids (b_world s)) → left_in j (w_ids w)) ∧ P (gvs w) a.
Lemma ggoes_bind {A B} (m : F A) (g : A → F B) c1 c2 s P Q : ggoes m c1 s P →
  (∀ a w, gvs (b_world s) ⊆ gvs w → P (gvs w) a → ggoes (g a) c2 (set_world w s) Q) → ggoes (mthen m g) (c1 + c2) s Q.
Proof.
  intros H1 H2 k Hk. destruct (H1 (c2 + k)%N) as (a & w & A1 & A2 & A3 & A4 & A5 & A6); [by rewrite N.add_assoc|].
  destruct (H2 a w A2 A6 k A4) as (b & w' & B1 & B2 & B3 & B4 & B5 & B6). simpl in *. exists b, w'.
  split; [eapply goes_mthen; [exact A1|exact B1]|]. split; [by etrans|]. split; [congruence|]. split; [done|]. split; [auto|done].
Qed.
Lemma ggoes_mok {A} (a : A) s (P : views → A → Prop) : P (gvs (b_world s)) a → ggoes (mok a) 0 s P.
Proof. intros H k Hk. exists a, (b_world s). split; [by destruct s|]. done. Qed.
Lemma ggoes_new r t s : global_req r = true → is_const (requested r) = true → has_type (genv (gvs (b_world s))) (requested r) t → requested_ty r t →
  ggoes (new_global r) 1 s (gconst t).
Proof.
  intros Hr Hc Ht Hty k Hk. destruct (new_global_go r t k (b_world s) Hk Hr Ht Hty) as (v & w & A1 & A2 & A3 & A4 & A5 & A6 & A7).
  exists v, w. split; [by apply goes_prog|]. split; [rewrite A4; by apply insert_subseteq|]. split; [done|]. split; [done|]. split; [done|].
  eexists. rewrite A4, lookup_insert. done.
Qed.
Lemma ggoes_init i : ∀ t s, init_of i t → ggoes (gen_global_init t i) (init_nodes i) s (gconst t).
Proof.
  unfold gen_global_init. induction i as [z| | |l IH] using ainit_ind'; intros t s H; cbn [gen_init init_nodes]; inversion H; subst.
  - simpl. apply ggoes_new; [done..|constructor|done].
  - apply ggoes_new; [done..|by constructor|done].
  - apply ggoes_new; [done..|by constructor|done].
  - rewrite N.eqb_refl. rename select (Forall _ l) into HF. rename t0 into t.
    assert (Hl : ∀ s, ggoes (b_map (gen_init new_global t) l) (foldr (λ i n, init_nodes i + n)%N 0%N l) s (λ M vs, length vs = length l ∧ Forall (gconst t M) vs)).
    { clear -IH HF. induction IH as [|i l Hi _ IHl]; intros s; cbn [b_map foldr]; [by apply ggoes_mok|].
      apply list.Forall_cons in HF as [HF1 HF2]. eapply ggoes_bind; [by apply Hi|]. intros v w Hw Hv. cbn beta in Hv.
      rewrite <- (N.add_0_r (foldr _ _ _)). eapply ggoes_bind; [by apply IHl|]. intros vs w2 Hw2 [Hvs1 Hvs2]. apply ggoes_mok. simpl.
      split; [by rewrite Hvs1|]. constructor; [|done]. eapply gconst_mono; [|exact Hv]. done. }
    intros k Hk. apply (ggoes_bind (mok tt) _ 0 (foldr (λ i n, init_nodes i + n)%N 0%N l + 1) s (λ _ _, True) (gconst (TArray t (N.of_nat (length l))))).
    + by apply ggoes_mok.
    + intros _ w _ _. eapply ggoes_bind; [by apply Hl|]. intros vs w2 Hw2 [Hvs1 Hvs2]. rewrite <- Hvs1. apply ggoes_new; [done..| |done].
      constructor; [by destruct vs, l|done|]. intros e He. rewrite list.Forall_forall in Hvs2. destruct (Hvs2 e He) as (y & E1 & E2 & E3).
      simpl in *. rewrite E1. simpl. by rewrite E2.
    + eapply room_mono; [|exact Hk]. lia.
Qed.
Lemma ti_global k pre n a i s : ti (top_size (TGlobal n a i) + k) pre s → top_of pre (TGlobal n a i) →
  ∃ s', clean (build_global n a i) s tt s' ∧ ti k (pre ++ [TGlobal n a i]) s'.
Proof.
  intros I [Hn (t0 & Ha & Hi)]. apply list.Forall_cons in Hn as [[Hn1 Hn2] _].
  destruct (ti_gvars_none _ _ _ _ I Hn2) as [G1 G2]. destruct I as [R L I1 I2 I3 I4 I5]. cbn [top_size] in R, L.
  destruct (ggoes_init i t0 s Hi (1 + k)%N) as (v0 & w0 & A1 & A2 & A3 & A4 & A5 & (y & Y1 & Y2 & Y3)).
  { eapply room_mono; [|exact R]. lia. }
  destruct (new_global_go (BGlobalAlloc v0) (TPtr t0) k w0) as (v & w1 & B1 & B2 & B3 & B4 & B5 & B6 & B7); try done.
  { constructor; [simpl; rewrite Y1; simpl; by rewrite Y2|by eapply type_not_unit]. }
  pose proof (goes_prog _ (set_world w0 s) _ _ B1) as C1. simpl in C1. change (set_world w1 (set_world w0 s)) with (set_world w1 s) in C1.
  assert (Hname : ∃ w2, clean (if is_temp n then mok tt else b_prog_ (w_name_global v (Some n))) (set_world w1 s) tt (set_world w2 s) ∧
    gvs w2 = <[v := (opt_name n, (TPtr t0, KGlobalAlloc v0))]> (gvs w0) ∧ fvs w2 = fvs w1 ∧ room k w2 ∧ w_ids w2 = w_ids w1).
  { rewrite opt_name_if. destruct (is_temp n); [by exists w1|].
    assert (Hv : ∃ d, p_values (w_prog w1) !! v = Some d).
    { assert (Hv : gvs w1 !! v = Some (None, (TPtr t0, KGlobalAlloc v0))) by (by rewrite B4, lookup_insert). rewrite lookup_fmap in Hv.
      apply fmap_Some in Hv as (d & ? & _). by exists d. }
    destruct Hv as (d & Hv).
    assert (Hw : ∃ w2, w_name_global v (Some n) w1 = Some w2 ∧ w_ids w2 = w_ids w1).
    { unfold w_name_global, prog_set_value_name. rewrite Hv. simpl. unfold set_name. simpl. rewrite well_named_valid by done. simpl. by eexists. }
    destruct Hw as (w2 & Hw & Ei). exists w2. pose proof (goes_prog_ _ (set_world w1 s) _ Hw) as C2.
    split; [exact C2|]. pose proof (room_name_global _ _ _ _ _ Hw B6). apply view_name_global in Hw as (z & Hz & E1 & E2 & _).
    rewrite B4, lookup_insert in Hz. injection Hz as <-. rewrite B4, insert_insert in E1. done. }
  destruct Hname as (w2 & C2 & W1 & W2 & W3 & W4). exists (set_gvars (<[n := v]> (b_gvars s)) (set_world w2 s)). split.
  - unfold build_global. eapply goes_mthen; [apply goes_some, type_gen, Ha|]. split; [|reflexivity]. unfold b_ok. rewrite (proj1 A1).
    assert (C3 : clean (mthen (new_global (BGlobalAlloc v0)) (λ v, (if is_temp n then mok tt else b_prog_ (w_name_global v (Some n)));; def_gvar n v))
      (set_world w0 s) tt (set_gvars (<[n := v]> (b_gvars s)) (set_world w2 s))); [|exact (proj1 C3)].
    eapply goes_mthen; [exact C1|]. cbn beta. eapply goes_mthen; [exact C2|]. split; [|done]. unfold def_gvar. simpl.
    rewrite decide_False by (rewrite G2; by intros [? ?]). by rewrite decide_False by (rewrite G1; by intros [? ?]).
  - assert (Hv : ∀ m t, var_in [TGlobal n a i] m t ↔ m = n ∧ t = TPtr t0).
    { intros m t. split.
      - intros (a' & i' & t1 & E%elem_of_list_singleton & Ht & ->). injection E as -> -> ->. by rewrite (type_fun _ _ _ Ht Ha).
      - intros [-> ->]. exists a, i, t0. split; [by apply elem_of_list_singleton|done]. }
    assert (Hsub : gvs (b_world s) ⊆ gvs w2).
    { etrans; [exact A2|]. rewrite W1. by apply insert_subseteq. }
    constructor; simpl.
    + done.
    + rewrite W4. apply B7, A5. eapply left_mono; [|exact L]. lia.
    + intros m u Hm. destruct (decide (m = n)) as [-> |Hne].
      * rewrite lookup_insert in Hm. injection Hm as <-. split; [done|]. exists (TPtr t0). split; [apply var_in_snoc; right; by apply Hv|].
        unfold vty. rewrite map_union_empty. rewrite W1, lookup_insert. done.
      * rewrite lookup_insert_ne in Hm by done. destruct (I1 m u Hm) as (E1 & t & Ht & E2). split; [done|]. exists t. split; [apply var_in_snoc; by left|].
        unfold vty in *. rewrite map_union_empty in E2 |- *. apply fmap_Some in E2 as (z & Hz & ->). by rewrite (lookup_weaken _ _ _ _ Hz Hsub).
    + intros m t [Hm|[-> ->]%Hv]%var_in_snoc; [|rewrite lookup_insert; eauto]. destruct (decide (m = n)) as [-> |Hne]; [rewrite lookup_insert; eauto|].
      rewrite lookup_insert_ne by done. by eapply I2.
    + intros m t t' [Hm|[-> ->]%Hv]%var_in_snoc [Hm'|[E ->]%Hv]%var_in_snoc; [by eapply I3| | |done].
      * subst m. exfalso. apply Hn2. by eapply var_in_name.
      * exfalso. apply Hn2. by eapply var_in_name.
    + intros m l t [Hm|Hm]%fun_in_snoc; [|by destruct Hm as (qs & r' & [?%elem_of_list_singleton|(q & b & _ & ?%elem_of_list_singleton)] & _)].
      rewrite W2, B5, A3. by apply I4.
    + intros m Hm. rewrite map_app, concat_app. apply elem_of_app. left. by apply I5.
Qed.

(** *** Texts *)
Lemma ti_top k pre t s : ti (top_size t + k) pre s → top_of pre t → ∃ s', clean (build_on t) s tt s' ∧ ti k (pre ++ [t]) s'.
Proof.
  intros I Ht. destruct t; cbn [build_on].
  - by apply ti_global.
  - by apply ti_def.
  - apply ti_decl; [|done]. exact I.
  - by destruct Ht.
  - by destruct Ht.
Qed.
Lemma ti_tops post : ∀ k pre s, ti (sum_of top_size post + k) pre s → well_formed (pre ++ post) → ∃ s', builds s post s' ∧ ti k (pre ++ post) s'.
Proof.
  induction post as [|t post IH]; intros k pre s I Hw.
  { exists s. split; [constructor|]. by rewrite app_nil_r. }
  simpl in I. rewrite <- N.add_assoc in I. destruct (ti_top _ pre t s I) as (s1 & H1 & I1); [by apply (Hw pre t post)|].
  destruct (IH k (pre ++ [t]) s1 I1) as (s2 & H2 & I2); [by rewrite <- app_assoc|]. exists s2. rewrite <- app_assoc in I2. split; [|done].
  destruct H1 as [H1 E1]. by econstructor.
Qed.
(** A well-formed text is accepted. *)
Lemma well_formed_builds ts : well_formed ts → small ts → ∃ b, builds (bstate0 ids0 0 0) ts b.
Proof.
  intros Hw Hs. unfold small in Hs. destruct (ti_tops ts 0 [] (bstate0 ids0 0 0)) as (b & H & _); [|done|by exists b].
  rewrite N.add_0_r. constructor.
  - apply room0. exact Hs.
  - unfold left_in. simpl. unfold two32, global_value_id_starts_from, local_value_id_starts_from, bb_id_starts_from, func_id_starts_from in *. lia.
  - intros n v Hn. simpl in Hn. by rewrite lookup_empty in Hn.
  - by intros n t (a & i & t0 & ?%elem_of_nil & _).
  - by intros n t t' (a & i & t0 & ?%elem_of_nil & _).
  - by intros n l r (ps & r0 & [?%elem_of_nil|(qs & bbs & _ & ?%elem_of_nil)] & _).
  - intros n Hn. simpl in Hn. rewrite lookup_empty in Hn. by destruct Hn.
Qed.
