(** Proofs: what is printed for a program that was read is accepted again (C29). *)
From Coq Require Import Lia ZifyBool ZifyNat ZifyN.
From Verif Require Import BackProofs.
From Verif Require Import Base IdModel TypeModel IrModel WorldModel LexerModel ParserModel ParserSpec FrontModel
  LayoutModel DfgSpec FlowSpec TypingSpec DriverModel DriverSpec DriverProofs PrintSpec FaithSpec FaithTopProofs AcceptSpec AcceptTopProofs KoopaModel CanonSpec CanonReadProofs
  TreeWfProofs FunCleanProofs HistoryProofs RetreeFunProofs RetreeProgProofs LlvmSpec OrderProofs LlvmSigilProofs SizedProofs ScopeProofs RewellProofs ResizeProofs.

Lemma small_globals ts : small ts → (foldr (λ t n, globals_in t + n) 0 ts < local_value_id_starts_from)%N.
Proof.
  unfold small, local_value_id_starts_from. intros H. eapply N.le_lt_trans; [|exact H]. clear H.
  induction ts as [|t ts IH]; simpl; [lia|]. assert (globals_in t ≤ top_size t)%N by (destruct t; simpl; lia). lia.
Qed.
Lemma read_layouts r p n b s ts s' : read_program r = (Rok p, n, b) → driver_new r = (Rok s, 0%N) → parses s ts s' →
  faithful p ts → NoDup (p_inst_layout p) ∧ NoDup (p_func_layout p).
Proof.
  intros Hr Hd Hp HF. split.
  - unfold read_program in Hr. rewrite Hd in Hr. destruct (DriverProofs.generate_ok _ _ _ _ _ _ _ _ _ Hd Hr) as (_ & _ & s1 & ts' & s2 & E & Hp' & _ & _ & _ & Hb & _ & _).
    injection E as <-. assert (ts' = ts) as -> by (by eapply parses_det). destruct (builds_once _ _ _ _ _ Hb) as [Hnd _].
    destruct HF as (G & Fn & HG & _). apply (nodup_part gvar_names gfun_names is_global_def) in Hnd.
    eapply (nodup_names G); [|exact Hnd]. clear -HG. induction HG as [|v t vs l H _ IH]; [constructor|]. simpl. destruct t; try done. simpl. constructor; [by destruct H|done].
  - apply read_olds in Hr as (w & HO & <-). pose proof (od_sorted _ HO) as HS. revert HS. generalize (p_func_layout (w_prog w)) as l. clear. intros l HS.
    induction HS as [|f l _ IH Hf]; constructor; [|done]. intros Hin. eapply list.Forall_forall in Hf; [|exact Hin]. lia.
Qed.
Lemma read_well r p n b s ts s' gs fs : read_program r = (Rok p, n, b) → driver_new r = (Rok s, 0%N) → parses s ts s' → small ts →
  canonical gs fs → redescribed p gs fs → well_formed (gs ++ fs) ∧ small (gs ++ fs).
Proof.
  intros Hr Hd Hp Hs (Wg & Wf & _) HR. pose proof (small_globals _ Hs) as Hb.
  pose proof (read_faithful _ _ _ _ _ _ _ Hr Hd Hp Hb) as HF.
  destruct (read_layouts _ _ _ _ _ _ _ Hr Hd Hp HF) as [N1 N2]. destruct (read_apart _ _ _ _ _ _ _ Hr Hd Hp Hb) as [A1 A2]. split.
  - pose proof HR as (G & Fn & R1 & R2 & R3 & [R4 R4n] & R5 & R6). eapply (prog_well p G Fn gs fs); try eassumption.
    + by destruct (read_consistent _ _ _ _ _ _ _ Hr Hd Hp Hb) as (_ & _ & HT).
    + by destruct (read_ordered _ _ _ _ Hr).
    + destruct (read_builds _ _ _ _ _ _ _ Hr Hd Hp) as (-> & Hbu & He & _). exact (built_sized _ _ Hbu He Hb).
    + exact (read_scoped _ _ _ _ _ _ _ Hr Hd Hp Hb).
    + exact (read_returns _ _ _ _ _ _ _ Hr Hd Hp Hb).
    + intros f fd v Hf H1 H2. apply A1 in H1. pose proof (A2 _ _ _ Hf H2). lia.
  - unfold small in *. eapply N.le_lt_trans; [|exact Hs]. apply (size_le p); [done|done|]. intros f fd v Hf Hv.
    pose proof (A2 _ _ _ Hf Hv). unfold is_global_id. lia.
Qed.
Lemma text_accepted gs fs : Forall wf_global gs → Forall wf_func fs → well_formed (gs ++ fs) → small (gs ++ fs) →
  ∃ p b, read_program (RByte <$> String.list_ascii_of_string (text_program gs fs)) = (Rok p, 0%N, b).
Proof.
  intros Wg Wf Hw Hs. destruct (program_round_trip gs fs 0 Wg Wf) as (s & l & s' & Hn & Hp & He). destruct (well_formed_builds _ Hw Hs) as (b & Hb).
  exists (w_prog (b_world b)), b. set (r := RByte <$> _) in *. assert (Hd : driver_new r = (Rok s, 0%N)); [|unfold read_program; rewrite Hd; by eapply generate_accepts].
  assert (Hd : driver_new r = (Rok s, errs l)) by (unfold driver_new; change (RByte <$> _) with r in Hn; by rewrite Hn).
  pose proof Hd as Hd'. apply driver_spec in Hd' as (_ & _ & H3 & _). destruct (H3 s eq_refl) as (_ & _ & E). by rewrite <- E at 1.
Qed.
