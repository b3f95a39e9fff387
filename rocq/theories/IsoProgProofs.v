(** From isomorphic programs to programs that run alike (C63). *)
From Coq Require Import Lia ZifyBool ZifyNat ZifyN.
From Verif Require Import Base IdModel TypeModel IrModel LayoutModel BuilderModel WorldModel ArithModel InterpModel UsesSpec DfgSpec TypingSpec RawModel RawSpec RawInvProofs IsoRunSpec IsoRunProofs.

(** ** Constants *)
Lemma const_same (G Vm : gmap N N) (V B F : N → N → Prop) (m m' : gmap N vdata) :
  (∀ v v', V v v' → (m !! v = None ∧ m' !! v' = None) ∨ ∃ d d', m !! v = Some d ∧ m' !! v' = Some d' ∧ v_ty d' = v_ty d ∧ renamed V B F (v_kind d) (v_kind d')) →
  ∀ k v v' n, V v v' → x_const k m v n = x_const k m' v' n.
Proof.
  intros H. induction k as [|k IH]; intros v v' n Hv; [done|]. cbn [x_const].
  destruct (H _ _ Hv) as [[-> ->]|(d & d' & -> & -> & Et & Hk)]; [done|]. cbn [xneed mbind xres_bind].
  destruct Hk; try done; [by rewrite Et|]. apply xbind_eq; [|by intros []]. eapply x_each_eq; [done|]. intros. by apply IH.
Qed.
Lemma renamed_const V B F k k' : renamed V B F k k' → is_const k = is_const k'.
Proof. by destruct 1. Qed.

(** ** Blocks *)
Lemma find_bb_in b l is : find_bb b l = Some is → (b, is) ∈ l.
Proof.
  induction l as [|[c js] l IH]; [done|]. cbn [find_bb]. destruct (N.eqb_spec c b) as [->|Hne]; [intros [= ->]; by left|right; by apply IH].
Qed.
Lemma find_bb_out b l : find_bb b l = None → ∀ is, (b, is) ∉ l.
Proof.
  induction l as [|[c js] l IH]; [intros _ is; apply not_elem_of_nil|]. cbn [find_bb]. destruct (N.eqb_spec c b) as [->|Hne]; [done|].
  intros H is. apply not_elem_of_cons. split; [congruence|by apply IH].
Qed.
Lemma pairs_det (m : gmap N N) l l1 : Forall2 (pairs m) l l1 → ∀ l2, Forall2 (pairs m) l l2 → l1 = l2.
Proof.
  induction 1 as [|a b l l1 Ha Hl IH]; intros l2 H; [by apply Forall2_nil_inv_l in H|].
  apply Forall2_cons_inv_l in H as (c & l3 & Hc & H & ->). unfold pairs in *. rewrite Ha in Hc. injection Hc as ->. f_equal. by apply IH.
Qed.
Lemma listed_once (l : list (bblock * list value)) b is is' : NoDup l.*1 → (b, is) ∈ l → (b, is') ∈ l → is = is'.
Proof.
  intros Hn H1 H2. apply elem_of_list_lookup in H1 as [i H1]. apply elem_of_list_lookup in H2 as [j H2].
  assert (i = j) as <- by (eapply (NoDup_lookup _ _ _ b Hn); by rewrite list_lookup_fmap, ?H1, ?H2). rewrite H1 in H2. by injection H2.
Qed.

(** ** Functions *)
Lemma same_sim p p' (G Fm : gmap N N) f f' fd fd' bs :
  apart p → apart p' → p_funcs p !! f = Some fd → p_funcs p' !! f' = Some fd' →
  (∀ v v', pairs G v v' → is_Some (p_values p !! v) ∧ is_Some (p_values p' !! v')) →
  NoDup (l_bbs (f_layout fd)).*1 → same_entry bs (l_bbs (f_layout fd)).*1 →
  same_function G Fm fd bs fd' → ∃ Vm Bm, sim_fun (pairs G) (pairs Fm) Vm Bm fd fd'.
Proof.
  intros [A1 A2] [A1' A2'] Hf Hf' HG Hnd [Hperm Hhd] [S1 S2 (Vm & Bm & I1 & I2 & S3 & S4 & S5 & S6 & S7 & S8)]. exists Vm, Bm.
  assert (HC : ∀ k v v' n, pairs (G ∪ Vm) v v' → x_const k (vals fd) v n = x_const k (vals fd') v' n).
  { eapply (const_same G Vm). intros v v' Hv. unfold pairs in Hv. apply lookup_union_Some_raw in Hv as [Hv|[_ Hv]].
    - left. destruct (HG _ _ Hv) as [H1 H2]. apply A1 in H1. apply A1' in H2.
      split; apply eq_None_not_Some; intros H; [apply (A2 _ _ _ Hf) in H|apply (A2' _ _ _ Hf') in H]; congruence.
    - right. destruct (S6 _ _ Hv) as (d & d' & H1 & H2 & H3 & _ & H4). eauto 8. }
  assert (HL : ∀ v v', pairs (G ∪ Vm) v v' → vlike (pairs G) fd fd' Vm v v').
  { intros v v' Hv. pose proof (λ k n, HC k v v' n Hv) as Hc. unfold pairs in Hv. apply lookup_union_Some_raw in Hv as [Hv|[_ Hv]].
    - left. destruct (HG _ _ Hv) as [H1 H2]. apply A1 in H1. apply A1' in H2. done.
    - right. destruct (S6 _ _ Hv) as (d & d' & H1 & H2 & H3 & _ & H4). split; [by eapply A2|]. split; [by eapply A2'|].
      pose proof (renamed_const _ _ _ _ _ H4) as Ek. destruct (is_const (v_kind d)) eqn:Ekd.
      + left. exists d, d'. repeat split; [done|done|done|done|exact Hc].
      + right. split; [done|]. exists d, d'. done. }
  assert (HB : ∀ b, b ∈ (l_bbs (f_layout fd)).*1 → b ∈ bs) by (intros b Hb; by rewrite Hperm).
  constructor; [done|done|done|done| | |].
  - intros v v' Hv. destruct (S6 _ _ Hv) as (d & d' & H1 & H2 & H3 & _ & H4). exists d, d'. split; [done|]. split; [done|]. split; [done|].
    eapply renamed_mono; [exact HL|done|done|exact H4].
  - intros b b' Hb. split; [destruct (S5 _ _ Hb) as (d & d' & ? & ? & _ & ?); eauto 6|].
    assert (HE : ∀ is', (b', is') ∈ l_bbs (f_layout fd') → ∃ is, (b, is) ∈ l_bbs (f_layout fd) ∧ Forall2 (pairs Vm) is is').
    { intros is' Hin. apply elem_of_list_lookup in Hin as [j Hj]. destruct (Forall2_lookup_r _ _ _ _ _ S4 Hj) as (c & _ & Hc & is & H1 & H2).
      cbn in Hc, H2. assert (c = b) as -> by (by eapply I2). eauto. }
    destruct (find_bb b (l_bbs (f_layout fd))) as [is|] eqn:Ef.
    + pose proof (find_bb_in _ _ _ Ef) as Hin. assert (Hbs : b ∈ bs) by (apply HB, elem_of_list_fmap; by exists (b, is)).
      apply elem_of_list_lookup in Hbs as [j Hj]. destruct (Forall2_lookup_l _ _ _ _ _ S4 Hj) as ([c is'] & Hc & Hbc & is2 & H1 & H2).
      cbn in Hbc, H2. unfold pairs in Hb, Hbc. rewrite Hb in Hbc. injection Hbc as <-.
      assert (is2 = is) as -> by (by eapply listed_once).
      destruct (find_bb b' (l_bbs (f_layout fd'))) as [is3|] eqn:Ef'.
      * apply find_bb_in in Ef'. destruct (HE _ Ef') as (is4 & H3 & H4). assert (is4 = is) as -> by (by eapply listed_once). by constructor.
      * exfalso. eapply find_bb_out; [exact Ef'|]. by eapply elem_of_list_lookup_2.
    + destruct (find_bb b' (l_bbs (f_layout fd'))) as [is3|] eqn:Ef'; [|constructor]. apply find_bb_in in Ef'. destruct (HE _ Ef') as (is4 & H3 & _).
      exfalso. by eapply find_bb_out.
  - destruct S4 as [|b e bs l' (Hb & is & H1 & H2) S4].
    + destruct (l_bbs (f_layout fd)); [constructor|done].
    + destruct (l_bbs (f_layout fd)) as [|[c js] l]; [done|]. cbn in Hhd |- *. injection Hhd as <-.
      constructor. assert (is = js) as -> by (eapply listed_once; [exact Hnd|exact H1|by left]). exact H2.
Qed.

(** ** Global variables *)
Definition same_vars (G : gmap N N) (m m' : gmap N xval) : Prop :=
  (∀ v v', pairs G v v' → m !! v = m' !! v') ∧
  (∀ v, is_global_id v = false → m !! v = None) ∧ (∀ v, is_global_id v = false → m' !! v = None).
Lemma same_vars_insert G m m' v v' x : one_to_one G → pairs G v v' → is_global_id v = true → is_global_id v' = true → same_vars G m m' →
  same_vars G (<[v := x]> m) (<[v' := x]> m').
Proof.
  intros H1 Hv E E' (H2 & H3 & H4). split; [|split].
  - intros w w' Hw. destruct (decide (v = w)) as [<-|Hne].
    + unfold pairs in *. rewrite Hv in Hw. injection Hw as <-. by rewrite !lookup_insert.
    + rewrite !lookup_insert_ne; [by apply H2| |done]. intros ->. apply Hne. by eapply H1.
  - intros w Hw. rewrite lookup_insert_ne; [by apply H3|congruence].
  - intros w Hw. rewrite lookup_insert_ne; [by apply H4|congruence].
Qed.
Lemma globals_same {E} p p' G fuel l l' : apart p → apart p' → one_to_one G →
  (∀ v v', pairs G v v' → ∃ d d', p_values p !! v = Some d ∧ p_values p' !! v' = Some d' ∧
     v_ty d' = v_ty d ∧ v_name d' = v_name d ∧ renamed (pairs G) (λ _ _, False) (λ _ _, False) (v_kind d) (v_kind d')) →
  Forall2 (pairs G) l l' → ∀ m m' (W : xworld E), same_vars G m m' →
  xsame (λ a b, same_vars G a.1 b.1 ∧ a.2 = b.2) (x_globals fuel p l m W) (x_globals fuel p' l' m' W).
Proof.
  intros A A' H1 HG. induction 1 as [|v v' l l' Hv Hl IH]; intros m m' W Hm; [by split|]. cbn [x_globals].
  destruct (HG _ _ Hv) as (d & d' & Hd & Hd' & _ & _ & Hk). rewrite Hd, Hd'. cbn [xneed mbind xres_bind]. destruct Hk as [| | | | | | |init init' Hi| | | | | | | | | |]; try done.
  assert (HC : ∀ k v v' n, pairs G v v' → x_const k (p_values p) v n = x_const k (p_values p') v' n).
  { eapply (const_same G ∅). intros u u' Hu. right. destruct (HG _ _ Hu) as (e & e' & ? & ? & ? & _ & ?). eauto 8. }
  rewrite (HC _ _ _ _ Hi). destruct (x_const fuel (p_values p') init' (x_next W)) as [[x n]| | | |]; cbn [mbind xres_bind xsame]; try done.
  destruct (x_box x (x_upto W n)) as [b W1]. apply IH. apply same_vars_insert; [done|done| | |done]; [by eapply (proj1 A)|by eapply (proj1 A')].
Qed.

(** ** The function [@main] *)
Lemma main_found p order : x_main p order = None → ∀ f fd, f ∈ order → p_funcs p !! f = Some fd → f_name fd ≠ "@main"%string.
Proof.
  induction order as [|g order IH]; intros H f fd Hf Hfd; [by apply elem_of_nil in Hf|]. cbn [x_main] in H.
  apply elem_of_cons in Hf as [->|Hf].
  - rewrite Hfd in H. destruct (String.eqb_spec (f_name fd) "@main"); [done|done].
  - destruct (p_funcs p !! g) as [gd|]; [|by eapply IH]. destruct (String.eqb (f_name gd) "@main"); [done|by eapply IH].
Qed.
Lemma main_is p order fd : x_main p order = Some fd → ∃ f, f ∈ order ∧ p_funcs p !! f = Some fd ∧ f_name fd = "@main"%string.
Proof.
  induction order as [|g order IH]; intros H; [done|]. cbn [x_main] in H.
  assert (R : x_main p order = Some fd → ∃ f, f ∈ g :: order ∧ p_funcs p !! f = Some fd ∧ f_name fd = "@main"%string).
  { intros H'. destruct (IH H') as (f & ? & ?). exists f. split; [by right|done]. }
  destruct (p_funcs p !! g) as [gd|] eqn:Eg; [|by apply R]. destruct (String.eqb_spec (f_name gd) "@main") as [En|]; [|by apply R].
  injection H as ->. exists g. split; [by left|done].
Qed.

(** ** Programs *)
Lemma isomorphic_interpret {E} (C : xconfig E) fuel order order' p p' bs e :
  isomorphic_as (p_inst_layout p) (p_func_layout p) bs p p' → apart p → apart p' →
  (∀ f fd, p_funcs p !! f = Some fd → f ∈ p_func_layout p ∧ NoDup (l_bbs (f_layout fd)).*1 ∧ same_entry (bs f) (l_bbs (f_layout fd)).*1) →
  one_main p → all_functions p order → all_functions p' order' →
  interpret C fuel order p e = interpret C fuel order' p' e.
Proof.
  intros (G & Fm & I1 & I2 & L1 & L2 & HG & HF & OG & OF) A A' Hfs Hm Ho Ho'. unfold interpret. apply xsame_eq.
  eapply xsame_bind.
  { eapply (globals_same p p' G); [done|done|done|exact HG|exact L1|]. split; [done|]. split; intros; apply lookup_empty. }
  intros [vars W] [vars' W'] [(V1 & V2 & V3) E1]. cbn [fst snd] in V1, V2, V3, E1. subst W'.
  assert (HG2 : ∀ v v', pairs G v v' → is_Some (p_values p !! v) ∧ is_Some (p_values p' !! v')).
  { intros v v' Hv. destruct (HG _ _ Hv) as (d & d' & -> & -> & _). split; by eexists. }
  assert (HS : ∀ f f', pairs Fm f f' → ∃ fd fd' Vm Bm, p_funcs p !! f = Some fd ∧ p_funcs p' !! f' = Some fd' ∧ sim_fun (pairs G) (pairs Fm) Vm Bm fd fd').
  { intros f f' Hf. destruct (HF _ _ Hf) as (fd & fd' & Hd & Hd' & S). destruct (Hfs _ _ Hd) as (_ & Hn & He).
    destruct (same_sim p p' G Fm f f' fd fd' (bs f) A A' Hd Hd' HG2 Hn He S) as (Vm & Bm & S2). exists fd, fd', Vm, Bm. done. }
  assert (Hgo : go_same (pairs G) (pairs Fm) (x_bb C p vars fuel) (x_bb C p' vars' fuel)).
  { apply bb_same; [|done|done|exact HS]. intros v v' Hv. split; [by apply V1|]. destruct (HG _ _ Hv) as (d & d' & H1 & H2 & _ & _ & H3).
    exists d, d'. split; [done|]. split; [done|]. by eapply renamed_const. }
  destruct (x_main p order) as [fd|] eqn:Em, (x_main p' order') as [fd'|] eqn:Em'.
  - apply main_is in Em as (f & _ & Hf & En). apply main_is in Em' as (f' & _ & Hf' & En').
    destruct (OF f') as [g Hg]; [by eexists|]. destruct (HS _ _ Hg) as (gd & fd2 & Vm & Bm & Hgd & Hf2 & S). rewrite Hf' in Hf2. injection Hf2 as <-.
    assert (g = f) as -> by (eapply Hm; [exact Hgd|exact Hf| |exact En]; by rewrite <- (sm_name _ _ _ _ _ _ S)).
    rewrite Hf in Hgd. injection Hgd as <-. rewrite (func_same C _ _ _ _ _ _ _ _ [] W Hgo S). by apply xsame_refl.
  - apply main_is in Em as (f & _ & Hf & En). destruct (Hfs _ _ Hf) as [Hl _]. apply elem_of_list_lookup in Hl as [j Hj].
    destruct (Forall2_lookup_l _ _ _ _ _ L2 Hj) as (f' & _ & Hff). destruct (HF _ _ Hff) as (fd2 & fd' & Hf2 & Hf' & S). rewrite Hf in Hf2. injection Hf2 as <-.
    exfalso. eapply (main_found _ _ Em' f'); [apply Ho'; by eexists|exact Hf'|]. by rewrite (sf_name _ _ _ _ _ S).
  - apply main_is in Em' as (f' & _ & Hf' & En'). destruct (OF f') as [g Hg]; [by eexists|]. destruct (HF _ _ Hg) as (gd & fd2 & Hgd & Hf2 & S).
    rewrite Hf' in Hf2. injection Hf2 as <-. exfalso. eapply (main_found _ _ Em g); [apply Ho; by eexists|exact Hgd|]. by rewrite <- (sf_name _ _ _ _ _ S).
  - done.
Qed.
