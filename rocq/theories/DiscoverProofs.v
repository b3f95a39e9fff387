(** Walks through the programs of the front end exist, if definitions dominate uses (C59). *)
From Coq Require Import Sorted Lia ZifyBool ZifyNat ZifyN.
From Verif Require Import Base IdModel TypeModel IrModel LayoutModel BuilderModel WorldModel LexerModel ParserModel ParserSpec
  UsesSpec DfgSpec WorldSpec TypingSpec FlowSpec FaithSpec ScopeSpec CompleteSpec RawModel RawSpec RawWalkProofs RegularProofs DominSpec.

(** ** Walks know what they went through *)
Lemma walk_through p S l o : walk p S l o → ∀ t, t ∈ l → t ∈ S ++ o.
Proof.
  induction 1 as [S|S t l o Ht Hw IH|S v d l o o' Hn Hv Hp Hr IHr Hw IH|S b d is l o o' Hn Hb Hr IHr Hw IH|S f fd l o o' Hn Hf Hr IHr Hw IH]; intros x Hx.
  - by apply elem_of_nil in Hx.
  - apply elem_of_cons in Hx as [->|Hx]; [apply elem_of_app; by left|by apply IH].
  - apply elem_of_cons in Hx as [->|Hx]; [rewrite !elem_of_app, elem_of_list_singleton; auto|].
    specialize (IH _ Hx). by rewrite <- !app_assoc in *.
  - apply elem_of_cons in Hx as [->|Hx]; [rewrite !elem_of_app, elem_of_cons; auto|].
    specialize (IH _ Hx). by rewrite <- !app_assoc in *.
  - apply elem_of_cons in Hx as [->|Hx]; [rewrite !elem_of_app, elem_of_cons; auto|].
    specialize (IH _ Hx). by rewrite <- !app_assoc in *.
Qed.
(** [t'] is met on the way through the value or block [t]. *)
Definition content (p : program) (t t' : task) : Prop :=
  match t with
  | TVal v => ∃ d, value_of p v d ∧ TypingSpec.is_param (v_kind d) = false ∧ t' ∈ refs (v_kind d)
  | TBlk b => ∃ d is v, block_of p b d is ∧ t' = TVal v ∧ v ∈ is
  | _ => False
  end.
Definition closed (p : program) (S : list task) : Prop := ∀ t t', t ∈ S → content p t t' → t' ∈ S.

Section regular.
Context (p : program) (HR : regular p).
Lemma no_content f fd v t : p_funcs p !! f = Some fd → (v ∈ f_params fd ∨ ∃ b d, blks fd !! b = Some d ∧ v ∈ bb_params d) →
  ¬ content p (TVal v) t.
Proof.
  intros Hf H (d & Hv & Hp & _).
  assert (∃ d', vals fd !! v = Some d' ∧ TypingSpec.is_param (v_kind d') = true) as (d' & Hd' & Hk).
  { destruct H as [H|(b & bd & Hb & H)].
    - destruct (params_kind p HR _ _ _ Hf H) as (d' & j & Hd' & E). exists d'. by rewrite E.
    - destruct (bb_params_kind p HR _ _ _ _ _ Hf Hb H) as (d' & j & Hd' & E). exists d'. by rewrite E. }
  rewrite (value_of_det p HR v d d') in Hp; [congruence|done|right; eauto].
Qed.
Lemma walk_content S l o : walk p S l o → ∀ t t', t ∈ o → content p t t' → t' ∈ S ++ o.
Proof.
  induction 1 as [S|S t l o Ht Hw IH|S v d l o o' Hn Hv Hp Hr IHr Hw IH|S b d is l o o' Hn Hb Hr IHr Hw IH|S f fd l o o' Hn Hf Hr IHr Hw IH]; intros x y Hx Hc.
  - by apply elem_of_nil in Hx.
  - by eapply IH.
  - apply elem_of_app in Hx as [Hx|Hx]; [apply elem_of_app in Hx as [Hx|Hx]|].
    + specialize (IHr _ _ Hx Hc). revert IHr. rewrite !elem_of_app. intuition.
    + apply elem_of_list_singleton in Hx as ->. destruct Hc as (d' & Hd' & _ & Hy).
      rewrite (value_of_det p HR _ _ _ Hd' Hv) in Hy. pose proof (walk_through _ _ _ _ Hr _ Hy) as H. revert H. rewrite !elem_of_app. intuition.
    + specialize (IH _ _ Hx Hc). by rewrite <- !app_assoc in *.
  - apply elem_of_app in Hx as [Hx|Hx]; [apply elem_of_app in Hx as [Hx|Hx]|].
    + apply elem_of_cons in Hx as [->|Hx].
      * destruct Hc as (d' & is' & v & Hb' & -> & Hv). destruct (block_of_det p HR _ _ _ _ _ Hb' Hb) as [-> ->].
        pose proof (walk_through _ _ _ _ Hr (TVal v) ltac:(apply elem_of_list_fmap; eauto)) as H. revert H. rewrite !elem_of_app. intuition.
      * apply elem_of_list_fmap in Hx as (v & -> & Hv). destruct Hb as (f & fd & Hf & Hb & _). destruct (no_content f fd v y Hf); eauto.
    + specialize (IHr _ _ Hx Hc). revert IHr. rewrite !elem_of_app. intuition.
    + specialize (IH _ _ Hx Hc). by rewrite <- !app_assoc in *.
  - apply elem_of_app in Hx as [Hx|Hx]; [apply elem_of_app in Hx as [Hx|Hx]|].
    + apply elem_of_cons in Hx as [->|Hx]; [by destruct Hc|].
      apply elem_of_list_fmap in Hx as (v & -> & Hv). destruct (no_content f fd v y Hf); eauto.
    + specialize (IHr _ _ Hx Hc). revert IHr. rewrite !elem_of_app. intuition.
    + specialize (IH _ _ Hx Hc). by rewrite <- !app_assoc in *.
Qed.
Lemma walk_closed S l o : walk p S l o → closed p S → closed p (S ++ o).
Proof.
  intros Hw HS t t' Ht Hc. apply elem_of_app in Ht as [Ht|Ht]; [apply elem_of_app; left; by eapply HS|by eapply walk_content].
Qed.
End regular.

#[local] Instance task_eq : EqDecision task.
Proof. solve_decision. Defined.
(** ** Walks exist *)
Definition can (p : program) (S : list task) (l : list task) : Prop := ∃ o, walk p S l o.
Lemma can_all p S l : (∀ t S', t ∈ l → S ⊆ S' → can p S' [t]) → can p S l.
Proof.
  revert S. induction l as [|t l IH]; intros S H; [exists []; constructor|].
  destruct (H t S) as [o1 H1]; [by left|done|]. destruct (IH (S ++ o1)) as [o2 H2].
  { intros t' S' Ht' HS. apply H; [by right|]. set_solver. }
  exists (o1 ++ o2). by eapply walk_cons.
Qed.
Lemma can_known p S t : t ∈ S → can p S [t].
Proof. intros H. exists []. apply W_known; [done|constructor]. Qed.
Lemma can_value p S v d : value_of p v d → TypingSpec.is_param (v_kind d) = false → can p S (refs (v_kind d)) → can p S [TVal v].
Proof.
  intros Hv Hp [o Ho]. destruct (decide (TVal v ∈ S)) as [H|H]; [by apply can_known|].
  exists ((o ++ [TVal v]) ++ []). eapply W_value; [done|done|done|exact Ho|constructor].
Qed.
Lemma can_const p m v i : (∀ v d, m !! v = Some d → value_of p v d) → const_is (datas m) v i → ∀ S, can p S [TVal v].
Proof.
  intros Hm. revert v i. fix IH 3. intros v i H S.
  assert (Hd : ∀ t k, datas m !! v = Some (t, k) → ∃ d, value_of p v d ∧ v_kind d = k).
  { clear IH. intros t k E. unfold datas in E. rewrite lookup_fmap in E. apply fmap_Some in E as (d & E & E'). injection E' as _ ->. eauto. }
  destruct H as [v t z E|v t E|v t E|v t vs l E Hl]; destruct (Hd _ _ E) as (d & Hv & Hk); clear Hd E;
    (eapply can_value; [exact Hv|rewrite Hk; reflexivity|rewrite Hk]).
  1-3: exists []; constructor.
  cbn [refs operands]. clear Hk. revert S. induction Hl as [|e j vs l Hj _ IHl]; intros S; [exists []; constructor|].
  destruct (IH _ _ Hj S) as [o1 H1]. destruct (IHl (S ++ o1)) as [o2 H2]. exists (o1 ++ o2). rewrite fmap_cons. by eapply walk_cons.
Qed.

(** ** Functions *)
(** Jumps and branches are last in their block, and have no result; control gets to all blocks. *)
Record laid (fd : fdata) : Prop := {
  ld_last : ∀ b is v d c, (b, is) ∈ l_bbs (f_layout fd) → v ∈ is → vals fd !! v = Some d → c ∈ targets (v_kind d) →
    list.last is = Some v;
  ld_end : ∀ b is v, (b, is) ∈ l_bbs (f_layout fd) → list.last is = Some v → ¬ has_result fd v;
  ld_reach : ∀ b, b ∈ (l_bbs (f_layout fd)).*1 → ∃ l, gets_to fd l b;
}.
Lemma filter_le {A} (P Q : A → Prop) `{!∀ x, Decision (P x), !∀ x, Decision (Q x)} l :
  (∀ x, Q x → P x) → length (filter Q l) ≤ length (filter P l).
Proof.
  intros HPQ. induction l as [|x l IH]; [done|]. rewrite !filter_cons. repeat case_decide; simpl; [lia|naive_solver|lia|lia].
Qed.
Lemma filter_lt {A} (P Q : A → Prop) `{!∀ x, Decision (P x), !∀ x, Decision (Q x)} l y :
  (∀ x, Q x → P x) → y ∈ l → P y → ¬ Q y → length (filter Q l) < length (filter P l).
Proof.
  intros HPQ Hy HP HQ. induction l as [|x l IH]; [by apply elem_of_nil in Hy|]. rewrite !filter_cons.
  pose proof (filter_le P Q l HPQ). apply elem_of_cons in Hy as [<- |Hy].
  - rewrite decide_False by done. rewrite decide_True by done. simpl. lia.
  - specialize (IH Hy). repeat case_decide; simpl; [lia|naive_solver|lia|lia].
Qed.
Lemma last_end {A} (l : list A) v r : NoDup (l ++ v :: r) → list.last (l ++ v :: r) = Some v → r = [].
Proof.
  intros H1 H2. destruct (decide (r = [])) as [|Hr]; [done|exfalso].
  apply NoDup_app in H1 as (_ & _ & H1). apply list.NoDup_cons in H1 as [H1 _]. apply H1.
  destruct (exists_last Hr) as (r' & x & ->). rewrite app_comm_cons, app_assoc, last_snoc in H2. injection H2 as ->. set_solver.
Qed.
Lemma gets_to_head fd l b : gets_to fd l b → ∃ l', l = b :: l'.
Proof. destruct 1; eauto. Qed.

Section func.
Context (p : program) (Fp : front p) (f : func) (fd : fdata) (Hf : p_funcs p !! f = Some fd) (HL : laid fd) (HD : dominated fd).
Definition based (S : list task) : Prop :=
  (∀ v, v ∈ p_inst_layout p → TVal v ∈ S) ∧ (∀ g, g ∈ p_func_layout p → (g ≤ f)%N → TFunc g ∈ S) ∧
  ∀ v, v ∈ f_params fd → TVal v ∈ S.
Definition passed (S : list task) (c : bblock) : Prop :=
  (∀ d v, blks fd !! c = Some d → v ∈ bb_params d → TVal v ∈ S) ∧
  ∀ is v, (c, is) ∈ l_bbs (f_layout fd) → v ∈ is → has_result fd v → TVal v ∈ S.
Definition unmet (S : list task) : nat := length (filter (λ b, TBlk b ∉ S) (l_bbs (f_layout fd)).*1).
Lemma based_mono S S' : S ⊆ S' → based S → based S'.
Proof. intros H (H1 & H2 & H3). unfold based. set_solver. Qed.
Lemma passed_mono S S' c : S ⊆ S' → passed S c → passed S' c.
Proof. intros H (H1 & H2). split; intros; apply H; eauto. Qed.
Lemma unmet_mono S S' : S ⊆ S' → unmet S' ≤ unmet S.
Proof. intros H. apply filter_le. set_solver. Qed.
Lemma fr_bbs_once : NoDup (l_bbs (f_layout fd)).*1.
Proof. exact (rg_bbs_once _ (front_regular _ Fp) _ _ Hf). Qed.
Lemma one_list b is is' : (b, is) ∈ l_bbs (f_layout fd) → (b, is') ∈ l_bbs (f_layout fd) → is = is'.
Proof.
  intros H H'. assert (Hb : is_Some (blks fd !! b)).
  { apply (cf_blocks _ (proj2 (cp_funcs _ (fr_complete _ Fp) _ _ Hf))). apply elem_of_list_fmap. by exists (b, is). }
  destruct Hb as [d Hd]. eapply (block_of_det p (front_regular _ Fp) b d d); exists f, fd; done.
Qed.
Lemma fr_insts_once b is : (b, is) ∈ l_bbs (f_layout fd) → NoDup is.
Proof.
  intros H. destruct (fr_good _ Fp) as [n Hg]. destruct (Hg _ _ Hf) as [_ _ _ _ _ _ [[_ Hn] _] _ _]. by eapply Hn.
Qed.
Lemma can_operand S l b before v after d u : gets_to fd (b :: l) b → (b, before ++ v :: after) ∈ l_bbs (f_layout fd) →
  vals fd !! v = Some d → u ∈ operands (v_kind d) → based S → (∀ c, c ∈ l → passed S c) →
  (∀ d x, blks fd !! b = Some d → x ∈ bb_params d → TVal x ∈ S) → (∀ x, x ∈ before → TVal x ∈ S) → can p S [TVal u].
Proof.
  intros Hl Hb Hv Hu HS HP Hbp Hbe. pose proof Hb as Hlay. apply elem_of_list_split in Hlay as (front & rest & Hlay).
  assert (Hdom : ∀ c, defined_at fd u c → c = b ∨ c ∈ l).
  { intros c Hc. apply elem_of_cons. eapply HD; [exact Hb| |exact Hv|exact Hu|exact Hc|exact Hl]. set_solver. }
  destruct (proj1 (fr_scoped _ Fp _ _ Hf) _ _ _ _ _ _ _ _ Hlay Hv Hu) as [[H|(e & He & Hk)]|H].
  - apply can_known. by apply (proj1 HS).
  - destruct (fr_consts _ Fp _ _ _ _ Hf He Hk) as [i Hi]. eapply (can_const p (vals fd)); [|exact Hi]. intros w dw Hw. right. eauto.
  - apply can_known. destruct H as [H|c cd _ _ Hc H|c is _ Hc H Hr|H Hr].
    + by apply (proj2 (proj2 HS)).
    + destruct (Hdom c) as [-> |Hcl]; [left; eauto|by eapply Hbp|by eapply (proj1 (HP _ Hcl))].
    + assert (Hc' : (c, is) ∈ l_bbs (f_layout fd)) by (rewrite Hlay; apply elem_of_app; by left).
      destruct (Hdom c) as [-> |Hcl]; [right; eauto| |by eapply (proj2 (HP _ Hcl))].
      exfalso. pose proof fr_bbs_once as Hnd. rewrite Hlay, fmap_app in Hnd. apply NoDup_app in Hnd as (_ & Hnd & _).
      apply (Hnd b); [|by left]. apply elem_of_list_fmap. by exists (b, is).
    + by apply Hbe.
Qed.
Definition dfs (n : nat) : Prop := ∀ S l b, gets_to fd (b :: l) b → unmet S < n → based S → (∀ c, c ∈ l → passed S c) → can p S [TBlk b].
Lemma can_insts n : dfs n → ∀ rest before S l b, (b, before ++ rest) ∈ l_bbs (f_layout fd) → gets_to fd (b :: l) b →
  unmet S < n → based S → (∀ c, c ∈ l → passed S c) → (∀ d x, blks fd !! b = Some d → x ∈ bb_params d → TVal x ∈ S) →
  (∀ x, x ∈ before → TVal x ∈ S) → can p S (TVal <$> rest).
Proof.
  intros IH. induction rest as [|v rest IHr]; intros before S l b Hb Hl Hn HS HP Hbp Hbe; [exists []; constructor|].
  assert (Hvi : v ∈ before ++ v :: rest) by set_solver.
  destruct (fr_is_inst _ Fp _ _ _ _ _ Hf Hb Hvi) as (d & Hd & Hk).
  assert (Hc : can p S [TVal v]).
  { eapply can_value; [right; eauto|by destruct (v_kind d)|]. apply can_all. intros t S' Ht HSS.
    destruct t as [u|c|g].
    - apply elem_refs_val in Ht. eapply can_operand; [exact Hl|exact Hb|exact Hd|exact Ht|by eapply based_mono|..].
      + intros c Hc. eapply passed_mono; eauto.
      + eauto.
      + eauto.
    - apply elem_refs_blk in Ht. pose proof (ld_last _ HL _ _ _ _ _ Hb Hvi Hd Ht) as Hlast.
      apply (IH _ (b :: l)).
      + econstructor; [exact Hl|]. exists (before ++ v :: rest), v, d. done.
      + pose proof (unmet_mono _ _ HSS). lia.
      + by eapply based_mono.
      + intros c' Hc'. apply (passed_mono S); [done|]. apply elem_of_cons in Hc' as [-> |Hc']; [|by apply HP]. split; [by eauto|].
        intros is x Hi Hx Hr. rewrite <- (one_list _ _ _ Hb Hi) in Hx.
        pose proof (last_end _ _ _ (fr_insts_once _ _ Hb) Hlast) as ->.
        apply elem_of_app in Hx as [Hx|Hx]; [by apply Hbe|]. apply elem_of_list_singleton in Hx as ->.
        by destruct (ld_end _ HL _ _ _ Hb Hlast).
    - apply elem_refs_fun in Ht as [a Ek]. destruct (fr_calls _ Fp _ _ _ _ _ _ Hf Hd Ek) as [H1 H2]. apply can_known, HSS.
      by apply (proj1 (proj2 HS)). }
  destruct Hc as [o1 Ho1]. destruct (IHr (before ++ [v]) (S ++ o1) l b) as [o2 Ho2].
  - by rewrite <- app_assoc.
  - done.
  - enough (unmet (S ++ o1) ≤ unmet S) by lia. apply unmet_mono. set_solver.
  - eapply based_mono; [|done]. set_solver.
  - intros c Hc. eapply passed_mono; [|by apply HP]. set_solver.
  - intros d' x Hd' Hx. apply elem_of_app. left. eauto.
  - intros x Hx. apply elem_of_app in Hx as [Hx|Hx]; [apply elem_of_app; left; eauto|]. apply elem_of_list_singleton in Hx as ->.
    eapply walk_through; [exact Ho1|by left].
  - exists (o1 ++ o2). rewrite fmap_cons. by eapply walk_cons.
Qed.
Lemma gets_to_listed l b : gets_to fd l b → ∃ d is, blks fd !! b = Some d ∧ (b, is) ∈ l_bbs (f_layout fd).
Proof.
  assert (HB : b ∈ (l_bbs (f_layout fd)).*1 → ∃ d is, blks fd !! b = Some d ∧ (b, is) ∈ l_bbs (f_layout fd)).
  { intros H. pose proof H as H'. apply (cf_blocks _ (proj2 (cp_funcs _ (fr_complete _ Fp) _ _ Hf))) in H' as [d Hd].
    apply elem_of_list_fmap in H as ([b' is] & -> & H). by exists d, is. }
  intros H. apply HB. destruct H as [b H|l a b H (is & v & d & _ & _ & Hv & Hb)].
  - unfold first_block in H. apply head_Some in H as [l E]. change (map fst) with (fmap (M := list) (@fst bblock (list value))) in E. rewrite E. by left.
  - apply (cf_blocks _ (proj2 (cp_funcs _ (fr_complete _ Fp) _ _ Hf))). eapply (proj2 (proj2 (fr_closed _ Fp))); [exact Hf|]. by exists d.
Qed.
Lemma can_blocks n : dfs n.
Proof.
  induction n as [|n IH]; intros S l b Hl Hn HS HP; [lia|]. destruct (decide (TBlk b ∈ S)) as [|Hb]; [by apply can_known|].
  destruct (gets_to_listed _ _ Hl) as (d & is & Hd & Hi). destruct (can_insts n IH is [] (S ++ TBlk b :: (TVal <$> bb_params d)) l b) as [o Ho]; [done|done|..].
  - enough (unmet (S ++ TBlk b :: (TVal <$> bb_params d)) < unmet S) by lia. eapply filter_lt; [set_solver| |exact Hb|].
    + apply elem_of_list_fmap. by exists (b, is).
    + set_solver.
  - eapply based_mono; [|done]. set_solver.
  - intros c Hc. eapply passed_mono; [|by apply HP]. set_solver.
  - intros d' x Hd' Hx. rewrite Hd in Hd'. injection Hd' as <-. rewrite elem_of_app, elem_of_cons, elem_of_list_fmap. eauto.
  - by intros x ?%elem_of_nil.
  - eexists. eapply W_block; [done|exists f, fd; done|exact Ho|constructor].
Qed.
Lemma closed_reach S l b : closed p S → gets_to fd l b → (∀ c, first_block fd c → TBlk c ∈ S) → TBlk b ∈ S.
Proof.
  intros HS Hl H0. induction Hl as [b Hb|l b c Hl IH (is & v & d & Hb & Hv & Hd & Hc)]; [by apply H0|].
  destruct (gets_to_listed _ _ Hl) as (bd & is' & Hbd & _).
  assert (HvS : TVal v ∈ S). { eapply HS; [exact IH|]. exists bd, is, v. split; [by exists f, fd|]. split; [done|]. by apply last_Some_elem_of. }
  eapply HS; [exact HvS|]. exists d. split; [right; eauto|].
  destruct (fr_is_inst _ Fp f fd b is v Hf Hb (last_Some_elem_of _ _ Hv)) as (d' & Hd' & Hk). rewrite Hd in Hd'. injection Hd' as <-.
  split; [by destruct (v_kind d)|]. by apply elem_refs_blk.
Qed.
Lemma can_func S : closed p S → (∀ v, v ∈ p_inst_layout p → TVal v ∈ S) →
  (∀ g, g ∈ p_func_layout p → (g < f)%N → TFunc g ∈ S) → can p S [TFunc f].
Proof.
  intros HS H1 H2. destruct (decide (TFunc f ∈ S)) as [|Hn]; [by apply can_known|].
  set (S0 := S ++ TFunc f :: (TVal <$> f_params fd)).
  assert (HS0 : closed p S0).
  { intros t t' Ht Hc. unfold S0 in *. apply elem_of_app in Ht as [Ht|Ht]; [apply elem_of_app; left; by eapply HS|].
    apply elem_of_cons in Ht as [-> |Ht]; [done|]. apply elem_of_list_fmap in Ht as (v & -> & Hv).
    destruct (no_content p (front_regular _ Fp) f fd v t' Hf); auto. }
  assert (HB : based S0).
  { unfold S0. split_and!.
    - intros v Hv. apply elem_of_app. left. eauto.
    - intros g Hg Hle. rewrite elem_of_app, elem_of_cons. destruct (decide (g = f)) as [->|]; [auto|]. left. apply H2; [done|lia].
    - intros v Hv. rewrite elem_of_app, elem_of_cons, elem_of_list_fmap. eauto. }
  assert (can p S0 (TBlk <$> (l_bbs (f_layout fd)).*1)) as [o Ho].
  { destruct (l_bbs (f_layout fd)) as [|[b is] bbs] eqn:El; [exists []; constructor|].
    assert (Hfb : first_block fd b) by (unfold first_block; by rewrite El).
    destruct (can_blocks (Datatypes.S (unmet S0)) S0 [] b) as [o1 Ho1]; [by constructor|lia|done|by intros ? ?%elem_of_nil|].
    destruct (can_all p (S0 ++ o1) (TBlk <$> bbs.*1)) as [o2 Ho2].
    { intros t S' Ht HSS. apply can_known, HSS. apply elem_of_list_fmap in Ht as (c & -> & Hc).
      destruct (ld_reach _ HL c) as [l Hl]. { rewrite El. by right. }
      eapply closed_reach; [eapply walk_closed; [exact (front_regular _ Fp)|exact Ho1|done]|exact Hl|].
      intros c' Hc'. unfold first_block in Hfb, Hc'. rewrite Hfb in Hc'. injection Hc' as <-. eapply walk_through; [exact Ho1|by left]. }
    exists (o1 ++ o2). cbn [fmap list_fmap fst]. by eapply walk_cons. }
  eexists. eapply W_func; [done|done|exact Ho|constructor].
Qed.
End func.

(** ** Programs *)
Section program.
Context (p : program) (Fp : front p).
Lemma can_globals S : can p S (TVal <$> p_inst_layout p).
Proof.
  apply can_all. intros t S' Ht _. apply elem_of_list_fmap in Ht as (v & -> & Hv).
  destruct (fr_faithful _ Fp) as (ts & G & Fn & HG & _). apply elem_of_list_lookup in Hv as [j Hj].
  destruct (Forall2_lookup_l _ _ _ _ _ HG Hj) as (t & _ & Ht). destruct t; try done.
  destruct Ht as (_ & d & init & e & Hd & Hk & _ & He & Hc & _).
  eapply can_value; [left; exact Hd|by rewrite Hk|]. rewrite Hk. cbn [refs operands fmap list_fmap].
  eapply (can_const p (p_values p)); [|exact Hc]. intros w dw Hw. by left.
Qed.
Context (HL : ∀ f fd, p_funcs p !! f = Some fd → laid fd) (HD : ∀ f fd, p_funcs p !! f = Some fd → dominated fd).
Lemma can_funcs : ∀ todo prev S, p_func_layout p = prev ++ todo → closed p S → (∀ v, v ∈ p_inst_layout p → TVal v ∈ S) →
  (∀ g, g ∈ prev → TFunc g ∈ S) → can p S (TFunc <$> todo).
Proof.
  induction todo as [|f todo IH]; intros prev S El HS H1 H2; [exists []; constructor|].
  assert (Hin : f ∈ p_func_layout p) by (rewrite El; set_solver). pose proof Hin as [fd Hf]%(fr_funcs _ Fp).
  destruct (can_func p Fp f fd Hf (HL _ _ Hf) (HD _ _ Hf) S HS H1) as [o Ho].
  { intros g Hg Hlt. apply H2. rewrite El in Hg. apply elem_of_app in Hg as [Hg|Hg]; [done|exfalso].
    pose proof (fr_sorted _ Fp) as Hso. rewrite El in Hso. apply elem_of_cons in Hg as [-> |Hg]; [lia|].
    clear -Hso Hg Hlt. induction prev as [|x prev IH]; cbn [app] in Hso; apply StronglySorted_inv in Hso as [Hso Hfa]; [|by apply IH].
    rewrite List.Forall_forall in Hfa. specialize (Hfa g (proj1 (elem_of_list_In _ _) Hg)). lia. }
  destruct (IH (prev ++ [f]) (S ++ o)) as [o2 Ho2].
  - by rewrite <- app_assoc.
  - by eapply walk_closed; [exact (front_regular _ Fp)|exact Ho|].
  - intros v Hv. apply elem_of_app. left. eauto.
  - intros g Hg. apply elem_of_app in Hg as [Hg|Hg]; [apply elem_of_app; left; eauto|]. apply elem_of_list_singleton in Hg as ->.
    eapply walk_through; [exact Ho|by left].
  - exists (o ++ o2). rewrite fmap_cons. by eapply walk_cons.
Qed.
Lemma front_discovered : ∃ o, discovered p o.
Proof.
  destruct (can_globals []) as [o1 H1]. destruct (can_funcs (p_func_layout p) [] o1) as [o2 H2].
  - done.
  - eapply (walk_closed p (front_regular _ Fp) [] _ o1); [exact H1|]. by intros t t' ?%elem_of_nil.
  - intros v Hv. eapply (walk_through p [] _ o1); [exact H1|]. by apply elem_of_list_fmap_1.
  - by intros g ?%elem_of_nil.
  - exists (o1 ++ o2). by eapply walk_app.
Qed.
End program.
