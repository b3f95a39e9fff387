(** What is printed for a program says the same about it and about the program that is read
    from it (C64). *)
From Coq Require Import Lia ZifyBool ZifyNat ZifyN.
From Verif Require Import Base IdModel TypeModel IrModel WorldModel LexerModel ParserModel ParserSpec DriverModel DriverSpec InterpModel
  LayoutModel DfgSpec FlowSpec TypingSpec FaithSpec FaithProofs FaithTopProofs PrintSpec KoopaModel CanonSpec CanonNameProofs CanonProofs CanonReadProofs TreeTextProofs RoundProofs FrontProofs FrontModel DriverProofs LexerRunProofs BackProofs
  RetreeFunProofs RetreeTopProofs RetreeProgProofs AcceptSpec ReadAgainProofs RegularProofs IsoProgProofs IsoRunSpec SameTreeProofs SameRunProofs SameProgProofs.

Lemma printed_described p gs fs : redescribed p gs fs → ∃ G Fn, described (λ _ _ _ _, True) p gs fs G Fn.
Proof.
  intros (G & Fn & HG & HF & _ & [HGl HFk] & Hgs & Hfs). exists G, Fn. constructor; [done|done|intros v n Hv; apply HGl; eauto|done|done|].
  eapply Forall2_impl; [exact Hfs|]. intros f t (fd & Hfd & Hr). exists fd. split; [done|]. destruct t as [|n ps r bbs|n ps r| |]; try done.
  destruct Hr as (Hn & _ & Hty & L & B & R1 & R2 & R3 & R4 & R5 & R6 & R7 & R8 & R9 & R10 & R11 & R12).
  split; [done|]. split; [done|]. split; [done|]. exists L, B. split; [|done]. by constructor.
Qed.
Lemma read_described p gs fs : canonical gs fs → faithful p (gs ++ fs) → ∃ G Fn, described listed_names p gs fs G Fn.
Proof.
  intros (Wg & Wf & _ & Hfit) (G & Fn & Hg & Hf & HG & HF & HGi & HFi). destruct (filter_globals gs fs Wg Wf) as [E1 E2]. rewrite E1 in Hg. rewrite E2 in Hf.
  exists G, Fn. constructor; [done|done|intros v n Hv; by apply (HG v n)| | |].
  - intros c n Hc. apply HF in Hc as Hin. apply elem_of_list_lookup in Hin as [i Hi]. destruct (Forall2_lookup_l _ _ _ _ _ Hf Hi) as (t & _ & fd & Hfd & Hfn & _).
    exists fd. split; [done|]. congruence.
  - apply Forall2_same_length_lookup. split; [by eapply Forall2_length|]. intros i v t Hv Ht. pose proof (Forall2_lookup_lr _ _ _ _ _ _ Hg Hv Ht) as Hgi.
    assert (Hft : top_fits (gs ++ fs) t) by (eapply list.Forall_forall in Hfit; [exact Hfit|]; apply elem_of_app; left; by eapply elem_of_list_lookup_2).
    destruct t as [n a j| | | |]; try done. destruct Hgi as (Hn & d & init & e & Hd & Hk & _ & He & Hc & Hden & _). split; [done|].
    exists d, init, e. do 4 (split; [done|]). split; [by apply Hden|exact Hft].
  - apply Forall2_same_length_lookup. split; [by eapply Forall2_length|]. intros i f t Hi Ht. destruct (Forall2_lookup_lr _ _ _ _ _ _ Hf Hi Ht) as (fd & Hfd & Hfn & Hfi).
    exists fd. split; [done|].
    assert (Hft : top_fits (gs ++ fs) t) by (eapply list.Forall_forall in Hfit; [exact Hfit|]; apply elem_of_app; right; by eapply elem_of_list_lookup_2).
    destruct t as [|n ps r bbs|n ps r| |]; try done.
    + destruct Hfi as (En & _ & Hty & L & B & l & Hnames & Hord & Hnd & HL & HB & Hps & Hbs). destruct Hft as (Hord' & Hnd' & Hng & _).
      assert (l = bbs) as -> by (by apply order_unique). split; [by rewrite <- En|]. split; [done|]. split; [done|]. exists L, B. destruct HL as [HL1 HL2], HB as [HB1 HB2].
      split; [|done]. constructor; [by apply names_nameable|intros v w x; by apply HL2|intros v w x; by apply HB2| |done|done|done].
      intros v w x Hv Hw. apply (Hng x); [by eapply HL1|]. destruct (HG _ _ Hv) as [_ Hin]. apply elem_of_list_lookup in Hin as [k Hk].
      destruct (Forall2_lookup_l _ _ _ _ _ Hg Hk) as (u & Hu & Hgu). destruct u as [n0 a j| | | |]; try done. destruct Hgu as [Hgn _].
      assert (n0 = x) as -> by congruence. unfold gvars_of. apply elem_of_list_In, in_concat. exists [x]. split; [|by left].
      apply elem_of_list_lookup_2 in Hu. apply in_map_iff. exists (TGlobal x a j). split; [done|]. apply elem_of_list_In, elem_of_app. by left.
    + destruct Hfi as (En & Hb & Hv & Hty). split; [by rewrite <- En|]. done.
Qed.
Lemma read_again gs fs p n b : Forall wf_global gs → Forall wf_func fs → read_program (RByte <$> String.list_ascii_of_string (text_program gs fs)) = (Rok p, n, b) →
  ∃ s s', driver_new (RByte <$> String.list_ascii_of_string (text_program gs fs)) = (Rok s, 0%N) ∧ parses s (gs ++ fs) s'.
Proof.
  intros Wg Wf Hr. destruct (program_round_trip gs fs 0 Wg Wf) as (s & l & s' & Hs & Hp & _).
  destruct (driver_new (RByte <$> String.list_ascii_of_string (text_program gs fs))) as [d e] eqn:Hd.
  pose proof Hr as Hr'. unfold read_program in Hr'. rewrite Hd in Hr'.
  destruct (generate_ok _ _ _ _ _ _ _ _ _ Hd Hr') as (-> & _ & s1 & ts & s2 & -> & _).
  assert (s1 = s) as -> by (unfold driver_new in Hd; rewrite Hs in Hd; congruence). eauto.
Qed.
Lemma printed_both r p n b s ts s' gs fs p' n' b' : read_program r = (Rok p, n, b) → driver_new r = (Rok s, 0%N) → parses s ts s' → small ts →
  canonical gs fs → redescribed p gs fs → read_program (RByte <$> String.list_ascii_of_string (text_program gs fs)) = (Rok p', n', b') →
  (signatures p = signatures p') ∧
  ∀ E (C : xconfig E) fuel order order' e, all_functions p order → all_functions p' order' → interpret C fuel order p e = interpret C fuel order' p' e.
Proof.
  intros Hr Hd Hp Hsm HC HR Hr'. pose proof HC as (Wg & Wf & _). destruct (read_well _ _ _ _ _ _ _ _ _ Hr Hd Hp Hsm HC HR) as [Hw Hsm'].
  pose proof (small_globals _ Hsm) as Hb. pose proof (small_globals _ Hsm') as Hb'. destruct (read_again _ _ _ _ _ Wg Wf Hr') as (s2 & s3 & Hd' & Hp').
  pose proof (read_faithful _ _ _ _ _ _ _ Hr Hd Hp Hb) as HF. pose proof (read_faithful _ _ _ _ _ _ _ Hr' Hd' Hp' Hb') as HF'.
  destruct (printed_described _ _ _ HR) as (G & Fn & HD). destruct (read_described _ _ _ HC HF') as (G' & Fn' & HD').
  pose proof (read_front _ _ _ _ _ _ _ Hr Hd Hp Hb) as FP. pose proof (read_front _ _ _ _ _ _ _ Hr' Hd' Hp' Hb') as FP'.
  destruct (read_layouts _ _ _ _ _ _ _ Hr Hd Hp HF) as [N1 _]. destruct (read_layouts _ _ _ _ _ _ _ Hr' Hd' Hp' HF') as [N2 _]. split.
  - by eapply described_functions.
  - intros E C fuel order order' e. by eapply described_interpret.
Qed.
Lemma printed_runs r p n b s ts s' gs fs p' n' b' : read_program r = (Rok p, n, b) → driver_new r = (Rok s, 0%N) → parses s ts s' → small ts →
  canonical gs fs → redescribed p gs fs → read_program (RByte <$> String.list_ascii_of_string (text_program gs fs)) = (Rok p', n', b') →
  ∀ E (C : xconfig E) fuel order order' e, all_functions p order → all_functions p' order' → interpret C fuel order p e = interpret C fuel order' p' e.
Proof. intros Hr Hd Hp Hsm HC HR Hr'. by destruct (printed_both _ _ _ _ _ _ _ _ _ _ _ _ Hr Hd Hp Hsm HC HR Hr'). Qed.
