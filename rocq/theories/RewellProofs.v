(** Proofs: what is printed for a program that was read is a well-formed text (for C29). *)
From Coq Require Import Lia ZifyBool ZifyNat ZifyN.
From Verif Require Import RoundProofs.
From Verif Require Import Base IdModel TypeModel IrModel WorldModel LexerModel ParserModel ParserSpec FrontModel
  LayoutModel DfgSpec UsesSpec FlowSpec TypingSpec ScopeSpec LlvmSpec LexerSpec PrintSpec FaithSpec AcceptSpec CanonNameProofs TreeTextProofs RetreeFunProofs
  RetreeTopProofs RetreeProgProofs SizedProofs ScopeProofs.

(** ** Constants *)
Lemma const_init (m : gmap N vdata) (E : env) i : ∀ v d,
  (∀ v d, m !! v = Some d → is_const (v_kind d) = true → has_type E (v_kind d) (v_ty d)) →
  (∀ v d, m !! v = Some d → e_ty E v = Some (v_ty d)) →
  const_is (datas m) v i → m !! v = Some d → init_of i (v_ty d).
Proof.
  induction i as [z| | |l IH] using ainit_ind'; intros v d HT HE Hc Hd;
    inversion Hc as [? t1 ? E1|? t1 E1|? t1 E1|? t1 vs ? E1 F1]; subst; unfold datas in E1; rewrite lookup_fmap, Hd in E1; injection E1 as Et Ek;
    pose proof (HT _ _ Hd) as Hh; rewrite Ek in Hh; specialize (Hh eq_refl).
  - inversion Hh. constructor.
  - inversion Hh. by constructor.
  - inversion Hh. by constructor.
  - inversion Hh as [| | |elems t Hne Hu He Hk Hty| | | | | | | | | | | |]. subst elems.
    rewrite (Forall2_length _ _ _ F1). constructor; [intros ->; inversion F1; congruence|done|].
    clear Hc Hne Hh Et Ek Hd Hty.
    induction F1 as [|u i us l Hu1 _ IHl]; [constructor|]. apply list.Forall_cons in IH as [IHi IHr]. constructor.
    + destruct (He u) as [Hty _]; [by left|]. destruct (const_kind _ _ _ Hu1) as (t2 & k2 & H2 & _).
      unfold datas in H2. rewrite lookup_fmap in H2. apply fmap_Some in H2 as (d2 & H2 & _).
      rewrite (HE _ _ H2) in Hty. injection Hty as <-. by eapply IHi.
    + apply IHl; [done|]. intros e He'. apply He. by right.
Qed.

(** ** Names *)
Lemma wf_well_named n : wf_name n → well_named n.
Proof.
  intros [_ H]. unfold well_named. destruct n as [|c [|d rest]]; simpl in H; [inversion H..|]. exists c, d, rest. split; [done|].
  inversion H as [|? ? _ _ _|? ? ? Ht]; subst; [by left|by left|]. by destruct Ht; [right|left].
Qed.
(** The type of the value with the name [n] *)
Definition type_named (L : gmap N string) (m : gmap N vdata) (n : string) : ty :=
  match list_find (λ x : N * string, x.2 = n) (map_to_list L) with
  | Some (_, (v, _)) => match m !! v with Some d => v_ty d | None => TUnit end
  | None => TUnit
  end.
Lemma type_named_ok L m v n d : inj_names L → L !! v = Some n → m !! v = Some d → type_named L m n = v_ty d.
Proof.
  intros Hi Hv Hd. unfold type_named. destruct (list_find _ _) as [[i [w n']]|] eqn:E.
  - apply list_find_Some in E as (E & Hn & _). simpl in Hn. subst n'. apply elem_of_list_lookup_2, elem_of_map_to_list in E.
    by rewrite (Hi _ _ _ E Hv), Hd.
  - apply list_find_None in E. eapply list.Forall_forall in E; [|apply elem_of_map_to_list; exact Hv]. done.
Qed.
Lemma wf_param_names l : Forall wf_param l → Forall well_named (map fst l).
Proof. induction 1 as [|x l [H _] _ IH]; simpl; constructor; [by apply wf_well_named|done]. Qed.
Lemma wf_fun_names ps bbs : Forall wf_param ps → Forall wf_block bbs → Forall well_named (map b_name bbs ++ fun_names ps bbs).
Proof.
  intros Hp Hb. unfold fun_names. rewrite !list.Forall_app. split; [|split; [by apply wf_param_names|split]].
  - induction Hb as [|b l (H & _) _ IH]; simpl; constructor; [by apply wf_well_named|done].
  - induction Hb as [|b l (_ & H & _) _ IH]; simpl; [constructor|]. apply list.Forall_app. split; [by apply wf_param_names|done].
  - induction Hb as [|b l (_ & _ & H & _) _ IH]; simpl; [constructor|]. apply list.Forall_app. split; [|done]. unfold body_names.
    clear IH. induction H as [|st sts Hst _ IH]; simpl; [constructor|]. apply list.Forall_app. split; [|done].
    destruct st; simpl; constructor; [|constructor]. apply wf_well_named. apply Hst.
Qed.
Lemma wf_ends b : wf_block b → ∃ body fin, b_stmts b = body ++ [fin] ∧ ends_block fin.
Proof.
  intros (_ & _ & Hs & body & fin & E & _ & Hf). exists body, fin. split; [done|]. rewrite E in Hs.
  apply list.Forall_app in Hs as [_ Hs]. apply list.Forall_cons in Hs as [Hs _]. by destruct fin, Hf.
Qed.

(** ** A function *)
(** Where a call, jump or branch is written, no argument is left out. *)
Definition passes_all (k : vkind) (st : astmt) : Prop :=
  match st, k with
  | SDef _ (ECall _ args), KCall _ vs => length vs = length args
  | SCall _ args, KCall _ vs => length vs = length args
  | SBr _ _ ta _ fa, KBranch _ _ _ vs ws => length vs = length ta ∧ length ws = length fa
  | SJump _ a, KJump _ vs => length vs = length a
  | _, _ => True
  end.
(** The blocks [l] are those of [bbs] that can be reached. *)
Section fn.
Context (p : program) (G Fn L B : gmap N string) (f : func) (fd : fdata) (n : string) (ps : list (string * aty)) (r : option aty) (bbs l : list ablock)
  (pre : list atop).
Notation D := (datas (vals fd)).
Notation self := (TFunDef n ps r bbs).
Notation Ty := (type_named L (vals fd)).
Context (Hfd : p_funcs p !! f = Some fd)
  (HTl : ∀ v d, vals fd !! v = Some d → if TypingSpec.is_param (v_kind d) then v_ty d ≠ TUnit else has_type (local_env p fd) (v_kind d) (v_ty d))
  (Hsc : scoped p fd) (Hrf : returns_fit p fd)
  (Hsz : ∀ v d, vals fd !! v = Some d → declares (v_kind d) = true → sized (v_ty d))
  (Hapart : ∀ v, is_Some (p_values p !! v) → is_Some (vals fd !! v) → False)
  (Hlist : ∀ v, v ∈ p_inst_layout p → is_Some (p_values p !! v))
  (HgV : ∀ v x, G !! v = Some x → ∃ t, e_ty (local_env p fd) v = Some t ∧ var_in pre x t)
  (Hgl : ∀ x t, x ∈ fun_names ps l → ¬ var_in pre x t)
  (Hcall : ∀ v d c vs x ts t, vals fd !! v = Some d → v_kind d = KCall c vs → Fn !! c = Some x → e_fun (local_env p fd) c = Some (TFun ts t) →
     fun_in (pre ++ [self]) x ts t)
  (Q1 : nameable fd L B) (Q2 : inj_names L) (Q3 : inj_names B)
  (Q4 : in_order bbs l) (Q5 : in_order l l) (Q6 : NoDup (map b_name l)) (Q6' : NoDup (map b_name bbs)) (Q7 : NoDup (fun_names ps l))
  (Q9 : ∀ b x, B !! b = Some x → x ∈ map b_name l)
  (Q10 : Forall2 (FaithSpec.is_param L D KFuncArg) (f_params fd) ps)
  (Q11 : Forall2 (is_block G Fn L B D (bb_params <$> blks fd)) (l_bbs (f_layout fd)) l)
  (Q12 : ∀ i x b u nm j, l_bbs (f_layout fd) !! i = Some x → l !! i = Some b → x.2 !! j = Some u → has_result fd u → L !! u = Some nm →
    ∃ e, b_stmts b !! j = Some (SDef nm e))
  (Q13 : ∀ i x b j v st d, l_bbs (f_layout fd) !! i = Some x → l !! i = Some b → x.2 !! j = Some v → b_stmts b !! j = Some st →
    vals fd !! v = Some d → passes_all (v_kind d) st)
  (Wn : Forall well_named (map b_name l ++ fun_names ps l)) (We : ∀ b, b ∈ l → ∃ body fin, b_stmts b = body ++ [fin] ∧ ends_block fin).

Lemma in_D v t k : D !! v = Some (t, k) → ∃ d, vals fd !! v = Some d ∧ v_ty d = t ∧ v_kind d = k.
Proof. unfold datas. rewrite lookup_fmap. intros H. apply fmap_Some in H as (d & H & E). injection E as -> ->. eauto. Qed.
Lemma local_ty v d : vals fd !! v = Some d → e_ty (local_env p fd) v = Some (v_ty d).
Proof.
  intros H. simpl. rewrite lookup_union_r; [by rewrite H|]. destruct (p_values p !! v) eqn:E; [|done]. exfalso. apply (Hapart v); eauto.
Qed.
Lemma local_const v d i : const_is D v i → vals fd !! v = Some d → init_of i (v_ty d).
Proof.
  intros Hc Hd. eapply (const_init (vals fd) (local_env p fd)); [|exact local_ty|exact Hc|exact Hd].
  intros u e He Hk. specialize (HTl _ _ He). destruct (v_kind e); try discriminate Hk; exact HTl.
Qed.

(** *** Blocks *)
Lemma blocks_at i x b : l_bbs (f_layout fd) !! i = Some x → l !! i = Some b → is_block G Fn L B D (bb_params <$> blks fd) x b.
Proof. intros Hx Hb. destruct (Forall2_lookup_l _ _ _ _ _ Q11 Hx) as (b' & Hb' & H). by rewrite Hb in Hb'; injection Hb' as <-. Qed.
Lemma name_at i j b b' : l !! i = Some b → l !! j = Some b' → b_name b = b_name b' → i = j.
Proof.
  intros H1 H2 E. apply (NoDup_lookup (map b_name l) i j (b_name b)); [exact Q6|by rewrite (map_at _ _ _ _ H1)|rewrite (map_at _ _ _ _ H2); simpl; by rewrite E].
Qed.
Lemma same_at i j x y : l_bbs (f_layout fd) !! i = Some x → l_bbs (f_layout fd) !! j = Some y → x.1 = y.1 → i = j.
Proof.
  intros Hx Hy E. destruct (Forall2_lookup_l _ _ _ _ _ Q11 Hx) as (b & Hb & Nb & _), (Forall2_lookup_l _ _ _ _ _ Q11 Hy) as (c & Hc & Nc & _).
  eapply name_at; [exact Hb|exact Hc|]. rewrite E in Nb. congruence.
Qed.
Lemma named_at b x : B !! b = Some x → ∃ i is a, l_bbs (f_layout fd) !! i = Some (b, is) ∧ l !! i = Some a ∧ b_name a = x.
Proof.
  intros Hb. pose proof (Q9 _ _ Hb) as Hin. apply elem_of_list_fmap in Hin as (a & -> & Ha). apply elem_of_list_lookup in Ha as [i Hi].
  destruct (Forall2_lookup_r _ _ _ _ _ Q11 Hi) as ([b' is] & Hx & HN & _). simpl in HN. assert (b = b') as <- by (by eapply Q3). by exists i, is, a.
Qed.
Lemma last_at i x b st : l_bbs (f_layout fd) !! i = Some x → l !! i = Some b → list.last (b_stmts b) = Some st →
  ∃ v, list.last x.2 = Some v ∧ is_stmt G Fn L B D v st.
Proof. intros Hx Hb Hl. destruct (blocks_at _ _ _ Hx Hb) as (_ & _ & Hst). eapply Forall2_last; eassumption. Qed.

Lemma head_at x : head (map b_name l) = Some x → ∃ a, l !! 0 = Some a ∧ b_name a = x.
Proof. clear. destruct l as [|a l']; [done|]. intros [= <-]. by exists a. Qed.
Lemma first_at b is : l_bbs (f_layout fd) !! 0 = Some (b, is) → first_block fd b.
Proof. unfold first_block. intros Hx. destruct (l_bbs (f_layout fd)); [done|]. by injection Hx as ->. Qed.
Lemma head_first x : head (map b_name l) = Some x → ∀ b, B !! b = Some x → first_block fd b.
Proof.
  intros Hh b Hb. destruct (named_at _ _ Hb) as (i & is & a & Hx & Ha & <-). destruct (head_at _ Hh) as (a0 & Ha0 & E).
  assert (i = 0) as -> by (by eapply name_at). by eapply first_at.
Qed.
Lemma flow_succ i b is c a : l_bbs (f_layout fd) !! i = Some (b, is) → l !! i = Some a → flows_to fd b c → ∃ j is' a',
  l_bbs (f_layout fd) !! j = Some (c, is') ∧ l !! j = Some a' ∧ succ a (b_name a').
Proof.
  intros Hx Ha (is0 & v & d & Hin & Hl & Hd & Hc). apply elem_of_list_lookup in Hin as [i' Hi'].
  assert (i' = i) as -> by (by eapply same_at). rewrite Hx in Hi'. injection Hi' as <-.
  destruct (We a) as (body & fin & E & Hfin); [by eapply elem_of_list_lookup_2|].
  assert (Hla : list.last (b_stmts a) = Some fin) by (rewrite E; apply last_snoc).
  destruct (last_at _ _ _ _ Hx Ha Hla) as (v' & Hl' & Hst). simpl in Hl'. rewrite Hl in Hl'. injection Hl' as <-.
  assert (Hn : ∃ x, B !! c = Some x).
  { destruct Hst as (t & k & Hk & H). destruct (in_D _ _ _ Hk) as (d' & Hd' & _ & <-). rewrite Hd in Hd'. injection Hd' as <-.
    destruct fin as [m e|x y|g args|x t1 ta e ea|t1 args|[x|]|]; try done.
    - destruct H as (v' & b1 & b2 & vs1 & vs2 & Ek & _ & H1 & _ & H2 & _). rewrite Ek in Hc. simpl in Hc.
      apply elem_of_cons in Hc as [-> |Hc]; [eauto|]. apply elem_of_list_singleton in Hc as ->. eauto.
    - destruct H as (b1 & vs1 & Ek & H1 & _). rewrite Ek in Hc. apply elem_of_list_singleton in Hc as ->. eauto.
    - destruct H as (u & Ek & _). rewrite Ek in Hc. by apply elem_of_nil in Hc.
    - rewrite H in Hc. by apply elem_of_nil in Hc. }
  destruct Hn as [x Hn]. destruct (named_at _ _ Hn) as (j & is' & a' & Hj & Ha' & <-). exists j, is', a'. split; [done|]. split; [done|].
  eapply last_succ; [exact Hla|]. eapply stmt_goes; [exact Hst| |exact Hc|exact Hn]. unfold datas. rewrite lookup_fmap, Hd. done.
Qed.
Lemma flow_reach c b : rtc (flows_to fd) c b → ∀ i is a, l_bbs (f_layout fd) !! i = Some (b, is) → l !! i = Some a →
  ∃ j is' a', l_bbs (f_layout fd) !! j = Some (c, is') ∧ l !! j = Some a' ∧ FlowSpec.reachable l a' a.
Proof.
  induction 1 as [b|c c1 b H1 _ IH]; intros i is a Hx Ha.
  { exists i, is, a. split; [done|]. split; [done|]. exists 0. constructor. }
  destruct (IH _ _ _ Hx Ha) as (j & is' & a' & Hj & Ha' & [k Hk]).
  pose proof H1 as (is0 & v & d & Hin & _). apply elem_of_list_lookup in Hin as [i0 Hi0].
  destruct (Forall2_lookup_l _ _ _ _ _ Q11 Hi0) as (a0 & Ha0 & _).
  destruct (flow_succ _ _ _ _ _ Hi0 Ha0 H1) as (j' & is1 & a1 & Hj' & Ha1 & Hsu).
  assert (j' = j) as -> by (by eapply same_at). rewrite Ha' in Ha1. injection Ha1 as <-.
  exists i0, is0, a0. split; [done|]. split; [done|]. exists (S k). econstructor; [exact Hsu|by eapply elem_of_list_lookup_2|done].
Qed.

(** *** Symbols *)
Lemma param_in arg qs u x : Forall2 (FaithSpec.is_param L D arg) u qs → ∀ v, v ∈ u → L !! v = Some x → x ∈ map fst qs.
Proof.
  induction 1 as [|v q vs qs [H _] _ IH]; intros w Hw Hx; [by apply elem_of_nil in Hw|]. apply elem_of_cons. simpl.
  apply elem_of_cons in Hw as [-> |Hw]; [left; congruence|right; by eapply IH].
Qed.
Lemma def_in sts j x e : sts !! j = Some (SDef x e) → x ∈ concat (map stmt_defs sts).
Proof.
  revert j. induction sts as [|st sts IH]; intros [|j] H; try done; simpl in *.
  - injection H as ->. by left.
  - apply elem_of_app. right. by eapply IH.
Qed.

Section stmt.
Context (front rest : list ablock) (b : ablock) (sts after : list astmt) (st : astmt)
  (front' rest' : list (bblock * list value)) (bb : bblock) (before after' : list value) (v : value) (d : vdata)
  (El : l_bbs (f_layout fd) = front' ++ (bb, before ++ v :: after') :: rest') (Eb : l = front ++ b :: rest) (Es : b_stmts b = sts ++ st :: after)
  (Hlen : length front' = length front) (Hlen' : length before = length sts) (Hd : vals fd !! v = Some d).
Notation V := (λ x t, var_in pre x t ∨ usable ps l front b sts x ∧ t = Ty x).
Lemma here_x : l_bbs (f_layout fd) !! length front = Some (bb, before ++ v :: after').
Proof. rewrite El, <- Hlen. by apply list_lookup_middle. Qed.
Lemma here_b : l !! length front = Some b.
Proof. rewrite Eb. by apply list_lookup_middle. Qed.
Lemma avail_usable u x : available fd front' bb before u → L !! u = Some x → usable ps l front b sts x.
Proof.
  intros H HL. destruct H as [Hu|c cd Hr Hnf Hc Hu|c is Hr Hin Hu Hres|Hu Hres].
  - destruct Q5 as (entry & Hh & Hrch & _). exists entry. rewrite head_lookup in Hh.
    split; [by eapply elem_of_list_lookup_2|]. split; [apply Hrch; eapply elem_of_list_lookup_2; apply here_b|]. left.
    rewrite decide_True by (rewrite head_lookup; by apply map_at). eapply param_in; eassumption.
  - destruct (flow_reach _ _ Hr _ _ _ here_x here_b) as (j & is' & a & Hj & Ha & Hra). exists a.
    split; [by eapply elem_of_list_lookup_2|]. split; [done|]. left.
    destruct (blocks_at _ _ _ Hj Ha) as (Hn & (qs & Hqs & Hpar) & _). simpl in Hn, Hqs. rewrite decide_False.
    2: { intros Hhd. apply Hnf. by eapply head_first. }
    rewrite lookup_fmap, Hc in Hqs. injection Hqs as <-. eapply param_in; eassumption.
  - destruct (flow_reach _ _ Hr _ _ _ here_x here_b) as (j & is' & a & Hj & Ha & Hra). exists a.
    split; [by eapply elem_of_list_lookup_2|]. split; [done|]. right. left.
    apply elem_of_list_lookup in Hin as [i Hi].
    assert (Hi' : l_bbs (f_layout fd) !! i = Some (c, is)) by (rewrite El; by apply lookup_app_l_Some).
    assert (i = j) as -> by (by eapply same_at). rewrite Hj in Hi'. injection Hi' as ->.
    split.
    + eapply elem_of_list_lookup_2 with (i := j). apply lookup_lt_Some in Hi. rewrite Eb in Ha. rewrite lookup_app_l in Ha by lia. done.
    + apply elem_of_list_lookup in Hu as Hu'. destruct Hu' as [q Hq]. destruct (Q12 _ _ _ _ _ q Hj Ha Hq Hres HL) as [e He]. by eapply def_in.
  - exists b. split; [eapply elem_of_list_lookup_2; apply here_b|]. split; [exists 0; constructor|]. right. right. split; [done|].
    apply elem_of_list_lookup in Hu as Hu'. destruct Hu' as [q Hq].
    assert (Hq' : (before ++ v :: after') !! q = Some u) by (by apply lookup_app_l_Some).
    destruct (Q12 _ _ _ _ _ q here_x here_b Hq' Hres HL) as [e He].
    apply lookup_lt_Some in Hq. rewrite Es in He. rewrite lookup_app_l in He by lia. by eapply def_in.
Qed.
Lemma op_called u x : u ∈ operands (v_kind d) → is_called G L u x → ∃ t, e_ty (local_env p fd) u = Some t ∧ V x t.
Proof.
  intros Hop H. unfold is_called in H. destruct (is_global_id u) eqn:Eg.
  - destruct (HgV _ _ H) as (t & H1 & H2). exists t. split; [done|by left].
  - destruct (na_val _ _ _ Q1 _ _ H) as (_ & e & He & Hk1 & Hk2). exists (v_ty e). split; [by apply local_ty|]. right.
    split; [|by rewrite (type_named_ok _ _ _ _ _ Q2 H He)]. eapply avail_usable; [|exact H].
    destruct (proj1 Hsc _ _ _ _ _ _ _ _ El Hd Hop) as [[Ha|(e' & He' & Hk)]|Ha]; [..|done].
    + exfalso. apply (Hapart u); [by apply Hlist|eauto].
    + rewrite He in He'. injection He' as <-. congruence.
Qed.
Lemma op_val u a t : u ∈ operands (v_kind d) → is_val G L D u a → e_ty (local_env p fd) u = Some t → val_of V a t.
Proof.
  intros Hop H Ht. destruct a as [x|z|]; cbn [is_val] in H.
  - destruct (op_called _ _ Hop H) as (t' & Ht' & HV). assert (t' = t) as -> by congruence. exact HV.
  - destruct (const_kind _ _ _ H) as (t' & k' & Hk & _). destruct (in_D _ _ _ Hk) as (e & He & _). pose proof (local_const _ _ _ H He) as Hi.
    rewrite (local_ty _ _ He) in Ht. injection Ht as <-. inversion Hi; subst. done.
  - destruct (const_kind _ _ _ H) as (t' & k' & Hk & _). destruct (in_D _ _ _ Hk) as (e & He & _). pose proof (local_const _ _ _ H He) as Hi.
    rewrite (local_ty _ _ He) in Ht. injection Ht as <-. by inversion Hi; subst.
Qed.
Lemma op_sym u x t : u ∈ operands (v_kind d) → is_called G L u x → e_ty (local_env p fd) u = Some t → V x t.
Proof. intros Hop H Ht. exact (op_val u (VSym x) t Hop H Ht). Qed.
Lemma op_stored u a t : u ∈ operands (v_kind d) → is_stored G L D u a → e_ty (local_env p fd) u = Some t → stored_of V a t.
Proof.
  intros Hop H Ht. destruct a as [x|i]; cbn [is_stored] in H; [exact (op_sym _ _ _ Hop H Ht)|].
  destruct (const_kind _ _ _ H) as (t' & k' & Hk & _). destruct (in_D _ _ _ Hk) as (e & He & _). pose proof (local_const _ _ _ H He) as Hi.
  rewrite (local_ty _ _ He) in Ht. by injection Ht as <-.
Qed.
Lemma op_args us args ts : (∀ u, u ∈ us → u ∈ operands (v_kind d)) → Forall2 (is_val G L D) us args →
  Forall2 (λ t a, e_ty (local_env p fd) a = Some t) ts us → Forall2 (val_of V) args ts.
Proof.
  intros Hop H. revert ts. induction H as [|u a us args Hu _ IH]; intros ts Ht; inversion Ht as [|t0 ? ts0 ? Ht0 Hts E1]; [constructor|]. constructor.
  - eapply op_val; [apply Hop; by left|exact Hu|exact Ht0].
  - apply IH; [|exact Hts]. intros w Hw. apply Hop. by right.
Qed.
Lemma op_target c x us args : (∀ u, u ∈ us → u ∈ operands (v_kind d)) → B !! c = Some x → args_match (local_env p fd) c us →
  Forall2 (is_val G L D) us args → ∃ ts, blk_in l x ts ∧ Forall2 (val_of V) args ts.
Proof.
  intros Hop HB (qs & Hqs & Hm) Hv. destruct (named_at _ _ HB) as (j & is & a & Hj & Ha & <-).
  destruct (blocks_at _ _ _ Hj Ha) as (_ & (qs' & Hqs' & Hpar) & _). simpl in Hqs, Hqs'. rewrite lookup_fmap in Hqs'.
  rewrite Hqs' in Hqs. injection Hqs as ->.
  assert (∃ ts, Forall2 type_of (map snd (b_params a)) ts ∧ Forall2 (λ t a, e_ty (local_env p fd) a = Some t) ts us) as (ts & H1 & H2).
  { clear -Hm Hpar Hsz Hapart. revert us Hm. induction Hpar as [|w q ws qs [_ (t & i & Ht & Hden)] _ IH]; intros us Hm.
    { inversion Hm. exists []. split; constructor. }
    inversion Hm as [|? u ? us' (t' & H1 & H2) Hm']; subst. destruct (IH _ Hm') as (ts & H3 & H4). exists (t :: ts).
    destruct (in_D _ _ _ Ht) as (e & He & Ety & Ek). rewrite (local_ty _ _ He) in H1. injection H1 as <-. subst t. simpl. split; constructor; try done.
    apply sized_denotes; [done|]. apply (Hsz _ _ He). by rewrite Ek. }
  exists ts. split; [|by eapply op_args]. exists a. split; [by eapply elem_of_list_lookup_2|done].
Qed.

Lemma stmt_well tr : (∃ ts, f_ty fd = TFun ts tr) → is_stmt G Fn L B D v st → passes_all (v_kind d) st →
  stmt_of V (fun_in (pre ++ [self])) (blk_in l) Ty tr st.
Proof.
  intros (tys & Htr) (t & k & Hk & H) Hlens.
  destruct (in_D _ _ _ Hk) as (d' & Hd' & Et & Ek). rewrite Hd in Hd'. injection Hd' as <-.
  pose proof (HTl _ _ Hd) as HT. pose proof op_sym as Osym. pose proof op_val as Oval. pose proof op_args as Oargs. pose proof op_target as Otgt. pose proof op_stored as Osto.
  rewrite Et, Ek in HT. rewrite Ek in Osym, Oval, Oargs, Otgt, Osto, Hlens.
  destruct st as [m e|x y|g args|c x ta y fa|x args|[a|]|]; try done.
  - destruct H as (Hm & Hne & He). cbn [stmt_of]. assert (ETy : Ty m = t) by (rewrite (type_named_ok _ _ _ _ _ Q2 Hm Hd); done).
    rewrite ETy. split; [done|]. destruct e as [a|x|x i|x i|op lh r0|g args]; cbn [is_expr expr_of] in *.
    + destruct He as (-> & b0 & -> & Hb0). exists b0. split; [done|]. apply sized_denotes; [done|].
      apply sized_ptr. rewrite <- Et. apply (Hsz _ _ Hd). by rewrite Ek.
    + destruct He as (u & -> & Hu). inversion HT; clear El Eb Es; subst. eapply Osym; [by left|exact Hu|done].
    + destruct He as (u & w & -> & Hu & Hw). inversion HT as [| | | | | | | |src ix t0 H1 H2 E1 E2| | | | | | |]. split; [by exists t0|]. clear El Eb Es; subst.
      split.
      * eapply Osym; [by left|exact Hu|done].
      * eapply Oval; [right; by left|exact Hw|done].
    + destruct He as (u & w & -> & Hu & Hw). inversion HT as [| | | | | | | | |src ix t0 n0 H1 H2 E1 E2| | | | | |]. clear El Eb Es; subst. exists t0, n0. split; [done|]. split.
      * eapply Osym; [by left|exact Hu|done].
      * eapply Oval; [right; by left|exact Hw|done].
    + destruct He as (u & w & -> & Hu & Hw). inversion HT; clear El Eb Es; subst. split; [done|]. split; (eapply Oval; [|eassumption|done]); [by left|right; by left].
    + destruct He as (c & vs & -> & Hc & Ha). inversion HT as [| | | | | | | | | | | | |c0 vs0 qs r0 H1 H2 E1 E2| |]. clear El Eb Es; subst.
      exists qs. split; [by eapply Hcall|]. eapply Oargs; [|by eapply exact_args|done]. done.
  - destruct H as (a & c & -> & Ha & Hc). inversion HT as [| | | | | | |? ? t0 H1 H2 E1 E2| | | | | | | |]. clear El Eb Es; subst. cbn [stmt_of]. exists t0. split.
    + eapply Osym; [right; by left|exact Hc|done].
    + eapply Osto; [by left|exact Ha|done].
  - destruct H as (c & vs & -> & Hc & Ha). inversion HT as [| | | | | | | | | | | | |c0 vs0 qs r0 H1 H2 E1 E2| |]. clear El Eb Es; subst.
    cbn [stmt_of]. exists qs, (v_ty d). split; [by eapply Hcall|]. eapply Oargs; [|by eapply exact_args|done]. done.
  - destruct H as (u & b1 & b2 & vs1 & vs2 & -> & Hu & Hb1 & Ha1 & Hb2 & Ha2). destruct Hlens as [Hl1 Hl2].
    inversion HT as [| | | | | | | | | | |? ? ? ? ? H1 H2 H3 H4 E1 E2| | | |]. clear El Eb Es; subst. cbn [stmt_of]. split; [|split; [|split]].
    + eapply Oval; [by left|exact Hu|done].
    + eapply (Otgt b1 x vs1); try done; [|by eapply exact_args]. intros w Hw. simpl. right. apply elem_of_app. by left.
    + eapply (Otgt b2 y vs2); try done; [|by eapply exact_args]. intros w Hw. simpl. right. apply elem_of_app. by right.
    + intros ->. destruct (H4 (Q3 _ _ _ Hb1 Hb2)) as [-> ->]. by destruct ta, fa.
  - destruct H as (b1 & vs & -> & Hb & Ha). inversion HT as [| | | | | | | | | | | |? ? H1 E1 E2| | |]. clear El Eb Es; subst. cbn [stmt_of].
    eapply (Otgt b1 x vs); try done. by eapply exact_args.
  - destruct H as (u & -> & Hu). cbn [stmt_of]. destruct Hrf as (ts & t1 & Ef & Hr). rewrite Htr in Ef. injection Ef as <- <-.
    specialize (Hr bb (before ++ v :: after') v d). rewrite Ek in Hr. destruct Hr as [Hne Hty]; [..|done|].
    { rewrite El. apply elem_of_app. right. by left. }
    { apply elem_of_app. right. by left. }
    split; [done|]. eapply Oval; [by left|exact Hu|done].
  - cbn [stmt_of]. destruct Hrf as (ts & t1 & Ef & Hr). rewrite Htr in Ef. injection Ef as <- <-.
    specialize (Hr bb (before ++ v :: after') v d). rewrite Ek, H in Hr. apply Hr; [..|done].
    { rewrite El. apply elem_of_app. right. by left. }
    { apply elem_of_app. right. by left. }
Qed.
End stmt.

Lemma param_type arg vs qs x a : (∀ i, declares (arg i) = true) → Forall2 (FaithSpec.is_param L D arg) vs qs → (x, a) ∈ qs → type_of a (Ty x).
Proof.
  intros Harg H Hin. apply elem_of_list_lookup in Hin as [i Hi]. destruct (Forall2_lookup_r _ _ _ _ _ H Hi) as (v & _ & Hn & t & j & Ht & Hden).
  simpl in *. destruct (in_D _ _ _ Ht) as (d & Hd & <- & Ek). rewrite (type_named_ok _ _ _ _ _ Q2 Hn Hd). apply sized_denotes; [done|].
  apply (Hsz _ _ Hd). by rewrite Ek.
Qed.
Lemma fun_well ts tr : f_ty fd = TFun ts tr → fun_of pre self ps tr bbs l Ty.
Proof.
  intros Htr. constructor; try done.
  - intros b x Hb (body & fin & E & Hg). apply elem_of_list_lookup in Hb as [i Hi].
    destruct (Forall2_lookup_r _ _ _ _ _ Q11 Hi) as ([bb is] & Hx & _). destruct (last_at _ _ _ fin Hx Hi) as (v & Hl & Hst); [by rewrite E, last_snoc|].
    destruct (goes_target _ _ _ _ _ _ _ _ Hst Hg) as (t & k & c & Hk & Hc & HB). destruct Q4 as (e0 & He0 & Hin0 & Hfst). split.
    { apply Q9 in HB. apply elem_of_list_fmap in HB as (a & -> & Ha). apply elem_of_list_fmap. exists a. split; [done|by apply Hin0]. }
    intros Hh. assert (Hh' : head (map b_name l) = Some x).
    { rewrite Hfst. simpl. rewrite head_lookup in He0. apply (map_at b_name) in He0. by rewrite <- head_lookup, Hh in He0. }
    apply (proj2 Hsc bb c); [|by eapply head_first]. destruct (in_D _ _ _ Hk) as (d & Hd & _ & <-). exists is, v, d.
    split; [by eapply elem_of_list_lookup_2|done].
  - intros x a [Hin|Hin]%elem_of_app; [by eapply (param_type KFuncArg)|].
    apply elem_of_list_In, in_concat in Hin as (l' & Hl & Hin). apply in_map_iff in Hl as (b & <- & Hb). apply elem_of_list_In in Hb, Hin.
    apply elem_of_list_lookup in Hb as [i Hi]. destruct (Forall2_lookup_r _ _ _ _ _ Q11 Hi) as (y & Hy & _ & (qs & _ & Hpar) & _).
    by eapply (param_type KBlockArg).
  - intros front b rest sts st after Eb Es.
    assert (Hi : l !! length front = Some b) by (rewrite Eb; by apply list_lookup_middle).
    destruct (Forall2_lookup_r _ _ _ _ _ Q11 Hi) as ([bb is] & Hx & _ & _ & Hst). simpl in Hst.
    assert (Hj : b_stmts b !! length sts = Some st) by (rewrite Es; by apply list_lookup_middle).
    destruct (Forall2_lookup_r _ _ _ _ _ Hst Hj) as (v & Hv & Hv').
    pose proof Hv' as (t & k & Hk & _). destruct (in_D _ _ _ Hk) as (d & Hd & _).
    apply take_drop_middle in Hx as Ex. apply take_drop_middle in Hv as Ev. symmetry in Ex. rewrite <- Ev in Ex.
    apply lookup_lt_Some in Hx as Hlx. apply lookup_lt_Some in Hv as Hlv.
    eapply (stmt_well front rest b sts after st _ _ bb _ _ v d Ex Eb Es); [rewrite take_length; lia|rewrite take_length; lia|exact Hd|by exists ts|exact Hv'|by eapply (Q13 _ _ _ _ _ _ _ Hx Hi)].
Qed.
End fn.

(** ** Programs *)
Section prog.
Context (p : program) (G Fn : gmap N string) (gs fs : list atop).
Context (HG : inj_names G) (HF : inj_names Fn) (Hgf : ∀ v n w, G !! v = Some n → Fn !! w = Some n → False)
  (HGl : ∀ v, is_Some (G !! v) → v ∈ p_inst_layout p)
  (Hgs : Forall2 (redescribes_global G (p_values p)) (p_inst_layout p) gs)
  (Hfs : Forall2 (λ f t, ∃ fd, p_funcs p !! f = Some fd ∧ redescribes G Fn f fd t) (p_func_layout p) fs)
  (Wg : Forall wf_global gs) (Wf : Forall wf_func fs)
  (HT : well_typed p) (Hcf : callees_first p) (Hsz : sized_program p)
  (Hsc : ∀ f fd, p_funcs p !! f = Some fd → scoped p fd) (Hrf : ∀ f fd, p_funcs p !! f = Some fd → returns_fit p fd)
  (Hapart : ∀ f fd v, p_funcs p !! f = Some fd → is_Some (p_values p !! v) → is_Some (vals fd !! v) → False)
  (Ndg : NoDup (p_inst_layout p)) (Ndf : NoDup (p_func_layout p)).

(** *** Global variables *)
Lemma global_const v d i : const_is (datas (p_values p)) v i → p_values p !! v = Some d → init_of i (v_ty d).
Proof.
  intros Hc Hd. eapply (const_init (p_values p) (global_env p)); [| |exact Hc|exact Hd].
  - intros u e He _. exact (proj1 HT _ _ He).
  - intros u e He. simpl. by rewrite He.
Qed.
Lemma global_well v t : redescribes_global G (p_values p) v t → ∃ n a i d t0, t = TGlobal n a i ∧ G !! v = Some n ∧
  p_values p !! v = Some d ∧ v_ty d = TPtr t0 ∧ type_of a t0 ∧ init_of i t0.
Proof.
  destruct t as [n a i| | | |]; try done. intros (Hn & d & init & e & Hd & Hk & He & Hc & Hden & _). exists n, a, i, d, (v_ty e).
  split; [done|]. split; [done|]. split; [done|]. pose proof (proj1 HT _ _ Hd) as Hh. rewrite Hk in Hh.
  inversion Hh as [| | | |? t0 H1 H2 E1 E2| | | | | | | | | | |]. subst. simpl in H1. rewrite He in H1. injection H1 as <-.
  split; [done|]. split; [|by eapply global_const]. apply sized_denotes; [done|]. exact (proj1 Hsz _ _ He).
Qed.
Lemma global_var v n : G !! v = Some n → ∃ d, p_values p !! v = Some d ∧ var_in gs n (v_ty d).
Proof.
  intros Hn. assert (Hin : v ∈ p_inst_layout p) by (apply HGl; eauto). apply elem_of_list_lookup in Hin as [i Hi].
  destruct (Forall2_lookup_l _ _ _ _ _ Hgs Hi) as (t & Ht & H). destruct (global_well _ _ H) as (n' & a & i' & d & t0 & -> & Hn' & Hd & Ety & Ha & _).
  exists d. split; [done|]. assert (n' = n) as -> by congruence. exists a, i', t0. split; [by eapply elem_of_list_lookup_2|done].
Qed.
Lemma var_global pre n t : (∀ x, x ∈ pre → x ∈ gs ∨ x ∈ fs) → var_in pre n t → ∃ v, G !! v = Some n.
Proof.
  intros Hsub (a & i & t0 & Hin & _). apply Hsub in Hin as [Hin|Hin].
  - apply elem_of_list_lookup in Hin as [j Hj]. destruct (Forall2_lookup_r _ _ _ _ _ Hgs Hj) as (v & _ & H). destruct H as [H _]. eauto.
  - eapply list.Forall_forall in Wf; [|exact Hin]. done.
Qed.

(** *** Functions *)
Lemma denote_types ps ts : Forall2 denotes ps ts → Forall sized ts → Forall2 type_of ps ts.
Proof.
  intros Hps Hs. induction Hps as [|a t l ts H _ IH]; constructor; apply list.Forall_cons in Hs as [H1 H2]; [by apply sized_denotes|by apply IH].
Qed.
Lemma denote_ret r t : denotes_ret r t → t = TUnit ∨ sized t → ret_of r t.
Proof.
  destruct r as [a|]; simpl; [|done]. intros Ha [-> |Hs]; [inversion Ha|by apply sized_denotes].
Qed.
Lemma fun_well_ty f fd t pre : p_funcs p !! f = Some fd → redescribes G Fn f fd t → t ∈ pre → ∀ n ts tr, Fn !! f = Some n → f_ty fd = TFun ts tr →
  fun_in pre n ts tr.
Proof.
  intros Hf H Hin n ts tr Hn Ety. destruct (proj2 Hsz _ _ Hf) as [(ts' & tr' & Ety' & Hs1 & Hs2) _]. rewrite Ety in Ety'. injection Ety' as <- <-.
  destruct t as [|n' ps r bbs|n' ps r| |]; try done.
  - destruct H as (Hn' & _ & (ts' & tr' & Ety' & H1 & H2) & _). rewrite Ety in Ety'. injection Ety' as <- <-. assert (n' = n) as -> by congruence.
    exists (map snd ps), r. split; [right; by exists ps, bbs|]. split; [by apply denote_types|by apply denote_ret].
  - destruct H as (Hn' & _ & _ & ts' & tr' & Ety' & H1 & H2). rewrite Ety in Ety'. injection Ety' as <- <-. assert (n' = n) as -> by congruence.
    exists ps, r. split; [by left|]. split; [by apply denote_types|by apply denote_ret].
Qed.
Lemma func_well front t rest : fs = front ++ t :: rest →
  match t with
  | TFunDecl n ps r => ∃ ts t0, Forall2 type_of ps ts ∧ ret_of r t0
  | TFunDef n ps r bbs => ∃ t0 l Ty, ret_of r t0 ∧ fun_of (gs ++ front) t ps t0 bbs l Ty
  | _ => False
  end.
Proof.
  intros Efs. assert (Ht : fs !! length front = Some t) by (rewrite Efs; by apply list_lookup_middle).
  destruct (Forall2_lookup_r _ _ _ _ _ Hfs Ht) as (f & Hf & fd & Hfd & H).
  assert (Wt : wf_func t) by (eapply list.Forall_forall in Wf; [exact Wf|by eapply elem_of_list_lookup_2]).
  destruct t as [|n ps r bbs|n ps r| |]; try done.
  - pose proof H as (Hn & _ & (ts & tr & Ety & Hden & Hret) & L & B & R1 & R2 & R3 & R4 & R5 & R6 & R7 & R8 & R9 & R10 & R11 & R12).
    destruct Wt as (_ & Wp & _ & _ & Wb).
    exists tr, bbs, (type_named L (vals fd)). split.
    { destruct (proj2 Hsz _ _ Hfd) as [(ts' & tr' & Ety' & _ & Hs2) _]. rewrite Ety in Ety'. injection Ety' as <- <-. by apply denote_ret. }
    assert (Hex : ∀ i x b, l_bbs (f_layout fd) !! i = Some x → bbs !! i = Some b → Forall2 (exact_at fd) x.2 (b_stmts b)).
    { intros i x b Hx Hb. destruct (Forall2_lookup_l _ _ _ _ _ R12 Hx) as (b' & Hb' & He). by rewrite Hb in Hb'; injection Hb' as <-. }
    eapply (fun_well p G Fn L B fd n ps r bbs bbs (gs ++ front)); try eassumption.
    + intros v d Hd. exact (proj2 HT _ _ _ _ Hfd Hd).
    + by eapply Hsc.
    + by eapply Hrf.
    + exact (proj2 (proj2 Hsz _ _ Hfd)).
    + intros v. by apply (Hapart f fd).
    + intros v Hv. apply elem_of_list_lookup in Hv as [i Hi]. destruct (Forall2_lookup_l _ _ _ _ _ Hgs Hi) as (t & _ & Ht').
      destruct (global_well _ _ Ht') as (? & ? & ? & d & ? & _ & _ & Hd & _). eauto.
    + intros v x Hx. destruct (global_var _ _ Hx) as (d & Hd & a & i & t0 & Hin & Hv). exists (v_ty d). split.
      * simpl. by rewrite (lookup_union_Some_l _ _ _ _ Hd).
      * exists a, i, t0. split; [|done]. apply elem_of_app. by left.
    + intros x t Hx Hv. destruct (R8 _ Hx) as [w Hw]. cut (∃ v, G !! v = Some x); [intros [v Hv']; by eapply R4|].
      eapply (var_global (gs ++ front)); [|exact Hv]. intros y [Hy|Hy]%elem_of_app; [by left|right].
      rewrite Efs. apply elem_of_app. by left.
    + intros v d c vs x ts' t' Hd Hk Hx Hc. simpl in Hc. apply fmap_Some in Hc as (cd & Hcd & Ec).
      apply take_drop_middle in Hf as El. symmetry in El. apply lookup_lt_Some in Hf as Hlt.
      destruct (Hcf _ _ _ _ _ _ _ _ El Hfd Hd Hk) as [Hin| ->].
      * apply elem_of_list_lookup in Hin as [j Hj]. apply lookup_lt_Some in Hj as Hlj. rewrite take_length in Hlj. rewrite lookup_take in Hj by lia.
        destruct (Forall2_lookup_l _ _ _ _ _ Hfs Hj) as (t2 & Ht2 & cd' & Hcd' & H2). rewrite Hcd in Hcd'. injection Hcd' as <-.
        eapply (fun_well_ty c cd t2); try done. apply elem_of_app. left. apply elem_of_app. right.
        rewrite Efs in Ht2. rewrite lookup_app_l in Ht2 by lia. by eapply elem_of_list_lookup_2.
      * rewrite Hfd in Hcd. injection Hcd as <-. eapply (fun_well_ty f fd); try done. apply elem_of_app. right. by left.
    + intros i x b u nm j Hx Hb Hu (d & Hd & Hne) HL. destruct (Forall2_lookup_l _ _ _ _ _ R11 Hx) as (b' & Hb' & _ & _ & Hst).
      rewrite Hb in Hb'. injection Hb' as <-. destruct (Forall2_lookup_l _ _ _ _ _ Hst Hu) as (st & Hst' & t & k & Hk & Hs).
      destruct (Forall2_lookup_l _ _ _ _ _ (Hex _ _ _ Hx Hb) Hu) as (st2 & Hst2 & He). rewrite Hst' in Hst2. injection Hst2 as <-.
      destruct (He _ Hd) as [_ He']. destruct st as [m e| | | | | |]; try (by rewrite He' in Hne). destruct Hs as (Hm & _). exists e. congruence.
    + intros i x b j v st d Hx Hb Hv Hst Hd. destruct (Forall2_lookup_l _ _ _ _ _ (Hex _ _ _ Hx Hb) Hv) as (st2 & Hst2 & He).
      rewrite Hst in Hst2. injection Hst2 as <-. exact (proj1 (He _ Hd)).
    + by apply wf_fun_names.
    + intros b Hb. apply wf_ends. eapply list.Forall_forall in Wb; [exact Wb|done].
  - destruct H as (Hn & _ & _ & ts & tr & Ety & Hden & Hret). exists ts, tr.
    destruct (proj2 Hsz _ _ Hfd) as [(ts' & tr' & Ety' & Hs1 & Hs2) _]. rewrite Ety in Ety'. injection Ety' as <- <-.
    split; [by apply denote_types|by apply denote_ret].
Qed.

(** *** Names *)
Lemma nodup_named (M : gmap N string) l ns : inj_names M → Forall2 (λ (v : N) n, M !! v = Some n) l ns → NoDup l → NoDup ns.
Proof.
  intros HM H. induction H as [|v n l ns Hn H IH]; intros Hnd; [constructor|]. apply list.NoDup_cons in Hnd as [Hv Hnd]. constructor; [|by apply IH].
  intros Hin. apply Hv. apply elem_of_list_lookup in Hin as [i Hi]. destruct (Forall2_lookup_r _ _ _ _ _ H Hi) as (w & Hw & Hw').
  rewrite (HM _ _ _ Hn Hw'). by eapply elem_of_list_lookup_2.
Qed.
Lemma names_gs : Forall2 (λ (v : N) n, G !! v = Some n) (p_inst_layout p) (concat (map top_names gs)).
Proof.
  cut (∀ l ts, Forall2 (redescribes_global G (p_values p)) l ts → Forall2 (λ (v : N) n, G !! v = Some n) l (concat (map top_names ts))); [by auto|].
  induction 1 as [|v t l ts H _ IH]; [constructor|].
  destruct t as [n a i| | | |]; try done. simpl. constructor; [apply H|exact IH].
Qed.
Lemma names_fs : Forall2 (λ (v : N) n, Fn !! v = Some n) (p_func_layout p) (concat (map top_names fs)).
Proof.
  cut (∀ l ts, Forall2 (λ f t, ∃ fd, p_funcs p !! f = Some fd ∧ redescribes G Fn f fd t) l ts → Forall2 (λ (v : N) n, Fn !! v = Some n) l (concat (map top_names ts))); [by auto|].
  induction 1 as [|v t l ts (fd & _ & H) _ IH]; [constructor|].
  destruct t as [|n ps r bbs|n ps r| |]; try done; destruct H as (H & _); simpl; (constructor; [exact H|exact IH]).
Qed.
Lemma names_nodup : NoDup (concat (map top_names (gs ++ fs))).
Proof.
  rewrite map_app, concat_app. apply list.NoDup_app. split; [eapply nodup_named; [exact HG|exact names_gs|done]|]. split; [|eapply nodup_named; [exact HF|exact names_fs|done]].
  intros n H1 H2. apply elem_of_list_lookup in H1 as [i Hi], H2 as [j Hj].
  destruct (Forall2_lookup_r _ _ _ _ _ names_gs Hi) as (v & _ & Hv), (Forall2_lookup_r _ _ _ _ _ names_fs Hj) as (w & _ & Hw). by eapply Hgf.
Qed.
Lemma prog_well : well_formed (gs ++ fs).
Proof.
  intros pre t post E. split.
  - pose proof names_nodup as Hnd. rewrite E, map_app, concat_app in Hnd. apply list.NoDup_app in Hnd as (_ & Hdis & _). apply list.Forall_forall. intros n Hn. split.
    + assert (Hin : t ∈ gs ++ fs) by (rewrite E; apply elem_of_app; right; by left). apply wf_well_named. apply elem_of_app in Hin as [Hin|Hin].
      * eapply list.Forall_forall in Wg; [|exact Hin]. destruct t; try done. apply elem_of_list_singleton in Hn as ->. apply Wg.
      * eapply list.Forall_forall in Wf; [|exact Hin]. destruct t; try done; apply elem_of_list_singleton in Hn as ->; apply Wf.
    + intros Hc. apply (Hdis n Hc). simpl. apply elem_of_app. by left.
  - symmetry in E. apply app_eq_inv in E as [(k & -> & Ek)|(k & Eg & Ek)].
    + pose proof (func_well k t post Ek) as H. destruct t; done.
    + destruct k as [|t' k].
      * simpl in Ek. rewrite app_nil_r in Eg. subst pre. pose proof (func_well [] t post (eq_sym Ek)) as H. rewrite app_nil_r in H. destruct t; done.
      * injection Ek as -> ->. assert (Ht : gs !! length pre = Some t') by (rewrite Eg; by apply list_lookup_middle).
        destruct (Forall2_lookup_r _ _ _ _ _ Hgs Ht) as (v & _ & H). destruct (global_well _ _ H) as (n & a & i & d & t0 & -> & _ & _ & _ & Ha & Hi). by exists t0.
Qed.
End prog.
