(** Canonical texts are read and written again (C28), and a check that a text is canonical *)
From Coq Require Import Lia ZifyBool ZifyNat ZifyN.
From Verif Require Import Base IdModel TypeModel IrModel LayoutModel BuilderModel WorldModel TextModel NameModel LexerModel LexerSpec BackProofs ParserModel ParserSpec
  DfgSpec FlowSpec PrintSpec TypingSpec FaithSpec FrontModel DriverModel DriverSpec DriverProofs RoundProofs KoopaModel CanonSpec SkelProofs HistoryProofs FrontShapeProofs FaithTopProofs CanonProofs.

(** ** The text that is read *)
Lemma read_canonical gs fs p n b : canonical gs fs →
  (foldr (λ t n, globals_in t + n) 0 (gs ++ fs) < local_value_id_starts_from)%N →
  read_program (RByte <$> String.list_ascii_of_string (text_program gs fs)) = (Rok p, n, b) → print_program p = Rok (text_program gs fs).
Proof.
  intros HC Hb Hr. pose proof HC as (Wg & Wf & _).
  destruct (program_round_trip gs fs 0 Wg Wf) as (s & l & s' & Hs & Hp & _).
  destruct (driver_new (RByte <$> String.list_ascii_of_string (text_program gs fs))) as [d e] eqn:Hd.
  pose proof Hr as Hr'. unfold read_program in Hr'. rewrite Hd in Hr'.
  destruct (generate_ok _ _ _ _ _ _ _ _ _ Hd Hr') as (-> & _ & s1 & ts & s2 & -> & _).
  assert (s1 = s) as -> by (unfold driver_new in Hd; rewrite Hs in Hd; congruence).
  destruct (read_ex _ _ _ _ Hr) as (w & (_ & _ & Hex) & Hw).
  apply canonical_prints; [done|..].
  - by destruct (read_consistent _ _ _ _ _ _ _ Hr Hd Hp Hb) as (_ & _ & ?).
  - exact (read_faithful _ _ _ _ _ _ _ Hr Hd Hp Hb).
  - intros f fd v Hf Hv. rewrite <- Hw in Hf. apply Hex in Hf as [Hg _]. 
    assert (Hv' : is_Some (skm (vals fd) !! v)) by (rewrite lookup_fmap; by apply fmap_is_Some).
    apply Hg in Hv'. unfold is_global_id. lia.
Qed.

(** ** A check by computation *)
Definition name_check (s : string) : bool :=
  forallb (λ c, (N_of_ascii c <? 128)%N) (String.list_ascii_of_string s) &&
  match String.list_ascii_of_string s with
  | tag :: c :: cs =>
      if is_numeric c then
        Ascii.eqb tag "%" && (if Ascii.eqb c "0" then match cs with [] => true | _ => false end else forallb is_numeric cs)
      else (Ascii.eqb tag "@" || Ascii.eqb tag "%") && forallb is_symbol_char (c :: cs)
  | _ => false
  end.
Lemma name_check_ok s : name_check s = true → wf_name s.
Proof.
  unfold name_check. intros [H1 H2]%andb_prop. split.
  - unfold ascii_only. apply list.Forall_forall. intros c Hc. rewrite forallb_forall in H1.
    specialize (H1 c ltac:(by apply elem_of_list_In)). by apply N.ltb_lt.
  - destruct (String.list_ascii_of_string s) as [|tag [|c cs]]; try done. destruct (is_numeric c) eqn:Ec.
    + apply andb_prop in H2 as [->%Ascii.eqb_eq H2]. destruct (Ascii.eqb_spec c "0"%char) as [-> |Hc].
      * destruct cs; [constructor|done].
      * apply sym_temp; [done|done|]. apply list.Forall_forall. intros d Hd. rewrite forallb_forall in H2. apply H2. by apply elem_of_list_In.
    + apply andb_prop in H2 as [H2 H3]. apply sym_named; [|done|].
      * apply orb_prop in H2 as [H2|H2]; apply Ascii.eqb_eq in H2; auto.
      * apply list.Forall_forall. intros d Hd. rewrite forallb_forall in H3. apply H3. by apply elem_of_list_In.
Qed.
Fixpoint aty_check (t : aty) : bool :=
  match t with
  | AInt => true
  | AArr b n => aty_check b && (n <? 2 ^ 63)%N
  | APtr b => aty_check b
  | AFun ps r => forallb aty_check ps && match r with Some t => aty_check t | None => true end
  end.
Lemma forallb_ok {A} (f : A → bool) (P : A → Prop) l : (∀ x, f x = true → P x) → forallb f l = true → Forall P l.
Proof. intros H. induction l as [|x l IH]; simpl; [constructor|]. intros [? ?]%andb_prop. constructor; auto. Qed.
Lemma aty_check_ok t : aty_check t = true → wf_aty t.
Proof.
  induction t as [|b n IH|b IH|ps r IH1 IH2] using aty_ind'; simpl; intros H.
  - constructor.
  - apply andb_prop in H as [? ?%N.ltb_lt]. constructor; auto.
  - constructor; auto.
  - apply andb_prop in H as [H1 H2]. constructor.
    + clear -IH1 H1. induction IH1 as [|x l Hx _ IH]; [constructor|]. simpl in H1. apply andb_prop in H1 as [? ?]. constructor; auto.
    + intros t ->. by apply IH2.
Qed.
Definition int_check (z : Z) : bool := (- 2 ^ 31 <=? z)%Z && (z <? 2 ^ 31)%Z.
Lemma int_check_ok z : int_check z = true → wf_int z.
Proof. unfold int_check, wf_int. lia. Qed.
Fixpoint init_check (i : ainit) : bool :=
  match i with
  | IInt z => int_check z
  | IUndef | IZero => true
  | IAggr l => match l with [] => false | _ => true end && forallb init_check l
  end.
Lemma init_check_ok i : init_check i = true → wf_init i.
Proof.
  induction i as [z| | |l IH] using ainit_ind'; simpl; intros H.
  - constructor. by apply int_check_ok.
  - constructor.
  - constructor.
  - apply andb_prop in H as [H1 H2]. constructor; [by destruct l|].
    clear H1. induction IH as [|x l Hx _ IH]; [constructor|]. simpl in H2. apply andb_prop in H2 as [? ?]. constructor; auto.
Qed.
Definition val_check (v : aval) : bool := match v with VSym s => name_check s | VInt z => int_check z | VUndef => true end.
Lemma val_check_ok v : val_check v = true → wf_val v.
Proof. destruct v; simpl; [apply name_check_ok|apply int_check_ok|done]. Qed.
Definition vals_check (l : list aval) : bool := forallb val_check l.
Lemma vals_check_ok l : vals_check l = true → Forall wf_val l.
Proof. apply forallb_ok, val_check_ok. Qed.
Definition expr_check (e : aexpr) : bool :=
  match e with
  | EMemDecl t => aty_check t
  | ELoad s => name_check s
  | EGetPtr s v | EGetElemPtr s v => name_check s && val_check v
  | EBin _ l r => val_check l && val_check r
  | ECall f args => name_check f && vals_check args
  end.
Definition stmt_check (st : astmt) : bool :=
  match st with
  | SDef n e => name_check n && expr_check e
  | SStore (SvSym s) d => name_check s && name_check d
  | SStore (SvInit i) d => init_check i && name_check d
  | SCall f args => name_check f && vals_check args
  | SBr c t ta f fa => val_check c && name_check t && vals_check ta && name_check f && vals_check fa
  | SJump t a => name_check t && vals_check a
  | SRet (Some v) => val_check v
  | SRet None => true
  | SErr => false
  end.
Lemma stmt_check_ok st : stmt_check st = true → wf_stmt st.
Proof.
  destruct st as [n e|[s|i] d|f args|c t ta f fa|t a|[v|]|]; simpl; rewrite ?andb_true_iff; intros H; try done;
    try (destruct_and?; split_and!; eauto using name_check_ok, val_check_ok, vals_check_ok, init_check_ok; done).
  - destruct H as [H1 H2]. split; [by apply name_check_ok|].
    destruct e; simpl in *; [by apply aty_check_ok|by apply name_check_ok|..]; try (apply andb_prop in H2 as [? ?]; split); eauto using name_check_ok, val_check_ok, vals_check_ok, aty_check_ok.
  - intros x [= <-]. by apply val_check_ok.
Qed.
Definition param_check (p : string * aty) : bool := name_check p.1 && aty_check p.2.
Lemma param_check_ok p : param_check p = true → wf_param p.
Proof. unfold param_check. intros [? ?]%andb_prop. split; [by apply name_check_ok|by apply aty_check_ok]. Qed.
Definition ends_block (st : astmt) : bool := match st with SBr _ _ _ _ _ | SJump _ _ | SRet _ => true | _ => false end.
Fixpoint shape_check (l : list astmt) : bool :=
  match l with [] => false | [st] => ends_block st | st :: l' => negb (ends_block st) && shape_check l' end.
Lemma shape_check_ok l : shape_check l = true → ∃ body fin, l = body ++ [fin] ∧ Forall (λ st, ¬ terminator st) body ∧ terminator fin.
Proof.
  induction l as [|st l IH]; [done|]. intros H. destruct l as [|st' l].
  - exists [], st. split_and!; [done|constructor|]. by destruct st.
  - cbn [shape_check] in H. apply andb_prop in H as [H1 H2]. destruct (IH H2) as (body & fin & -> & H3 & H4).
    exists (st :: body), fin. split_and!; [done| |done]. constructor; [|done]. intros Ht. destruct st; done.
Qed.
Definition block_check (b : ablock) : bool :=
  name_check (b_name b) && forallb param_check (b_params b) && forallb stmt_check (b_stmts b) && shape_check (b_stmts b).
Lemma block_check_ok b : block_check b = true → wf_block b.
Proof.
  unfold block_check. rewrite !andb_true_iff. intros (((H1 & H2) & H3) & H4). split; [by apply name_check_ok|].
  split; [exact (forallb_ok _ _ _ param_check_ok H2)|]. split; [exact (forallb_ok _ _ _ stmt_check_ok H3)|].
  destruct (shape_check_ok _ H4) as (body & fin & ? & ? & ?). exists body, fin. split_and!; [done|done|by left].
Qed.
Definition ret_check (r : option aty) : bool := match r with Some t => aty_check t | None => true end.
Lemma ret_check_ok r : ret_check r = true → wf_ret r.
Proof. intros H t ->. by apply aty_check_ok. Qed.
Definition global_check (t : atop) : bool :=
  match t with TGlobal n t i => name_check n && aty_check t && init_check i | _ => false end.
Lemma global_check_ok t : global_check t = true → wf_global t.
Proof. destruct t; try done. simpl. rewrite !andb_true_iff. intros ((? & ?) & ?). split_and!; [by apply name_check_ok|by apply aty_check_ok|by apply init_check_ok]. Qed.
Definition func_check (t : atop) : bool :=
  match t with
  | TFunDef n ps r bbs => name_check n && forallb param_check ps && ret_check r && match bbs with [] => false | _ => true end && forallb block_check bbs
  | TFunDecl n ps r => name_check n && forallb aty_check ps && ret_check r
  | _ => false
  end.
Lemma func_check_ok t : func_check t = true → wf_func t.
Proof.
  destruct t as [|n ps r bbs|n ps r| |]; try done; simpl; rewrite !andb_true_iff.
  - intros ((((A1 & H1) & A2) & A3) & H2). split_and!; [by apply name_check_ok|exact (forallb_ok _ _ _ param_check_ok H1)|by apply ret_check_ok|by destruct bbs|exact (forallb_ok _ _ _ block_check_ok H2)].
  - intros ((? & H1) & ?). split_and!; [by apply name_check_ok|exact (forallb_ok _ _ _ aty_check_ok H1)|by apply ret_check_ok].
Qed.

Definition ordinary_check (n : string) : bool :=
  existsb (λ c, (N_of_ascii c <? 128)%N && negb (Ascii.eqb c "%" || is_numeric c)) (String.list_ascii_of_string n).
Lemma ordinary_check_ok n : ordinary_check n = true → ordinary n.
Proof.
  unfold ordinary_check. rewrite existsb_exists. intros (c & Hc & [H1 H2]%andb_prop). exists c.
  split; [by apply elem_of_list_In|]. split; [by apply N.ltb_lt|]. apply negb_true_iff, orb_false_iff in H2 as [H2 H3].
  intros [-> |Hd]; [by rewrite Ascii.eqb_refl in H2|]. apply N.ltb_lt in H1. clear -H1 H3 Hd. unfold is_numeric, is_ascii_digit in H3. lia.
Qed.

Definition write (st : written) (o : occ) : option written :=
  let 'Written k G F V B := st in
  match o with
  | OGlobal n =>
      if decide (n ∈ G) then None
      else if String.eqb n (numbered k) then Some (Written (k + 1) ({[n]} ∪ G) F V B)
      else if ordinary_check n && bool_decide (n ∉ F) && bool_decide (n ∉ V) then Some (Written k ({[n]} ∪ G) F V B) else None
  | OFun n =>
      if decide (n ∈ F) then Some st
      else if ordinary_check n && bool_decide (n ∉ G) && bool_decide (n ∉ V) then Some (Written k G ({[n]} ∪ F) V B) else None
  | OVal n =>
      if decide (n ∈ G) then Some st else if decide (n ∈ V) then Some st
      else if String.eqb n (numbered k) then Some (Written (k + 1) G F ({[n]} ∪ V) B)
      else if ordinary_check n && bool_decide (n ∉ F) then Some (Written k G F ({[n]} ∪ V) B) else None
  | OBlk n =>
      if decide (n ∈ B) then Some st
      else if String.eqb n (numbered k) then Some (Written (k + 1) G F V ({[n]} ∪ B))
      else if ordinary_check n then Some (Written k G F V ({[n]} ∪ B)) else None
  end.
Lemma write_ok st o st' : write st o = Some st' → writes st o st'.
Proof.
  destruct st as [k G F V B]. destruct o as [n|n|n|n]; cbn [write]; intros H.
  - destruct (decide (n ∈ G)) as [H1|H1]; [done|]. destruct (String.eqb_spec n (numbered k)) as [-> |H2]; [injection H as <-; by constructor|].
    destruct (ordinary_check n) eqn:E1; [|done]. cbn [andb] in H. case_bool_decide as E2; [|done]. case_bool_decide as E3; [|done].
    injection H as <-. constructor; [by apply ordinary_check_ok|done..].
  - destruct (decide (n ∈ F)) as [H1|H1]; [injection H as <-; by constructor|].
    destruct (ordinary_check n) eqn:E1; [|done]. cbn [andb] in H. case_bool_decide as E2; [|done]. case_bool_decide as E3; [|done].
    injection H as <-. constructor; [by apply ordinary_check_ok|done..].
  - destruct (decide (n ∈ G)) as [H1|H1]; [injection H as <-; constructor; by left|].
    destruct (decide (n ∈ V)) as [H2|H2]; [injection H as <-; constructor; by right|].
    destruct (String.eqb_spec n (numbered k)) as [-> |H3]; [injection H as <-; by constructor|].
    destruct (ordinary_check n) eqn:E1; [|done]. cbn [andb] in H. case_bool_decide as E2; [|done].
    injection H as <-. constructor; [by apply ordinary_check_ok|done..].
  - destruct (decide (n ∈ B)) as [H1|H1]; [injection H as <-; by constructor|].
    destruct (String.eqb_spec n (numbered k)) as [-> |H2]; [injection H as <-; by constructor|].
    destruct (ordinary_check n) eqn:E1; [|done]. injection H as <-. constructor; [by apply ordinary_check_ok|done].
Qed.
Fixpoint write_all (st : written) (l : list occ) : option written :=
  match l with [] => Some st | o :: l => match write st o with Some st' => write_all st' l | None => None end end.
Lemma write_all_ok l : ∀ st st', write_all st l = Some st' → writes_all st l st'.
Proof.
  induction l as [|o l IH]; simpl; intros st st' H; [injection H as ->; constructor|].
  destruct (write st o) as [st1|] eqn:E; [|done]. econstructor; [by apply write_ok|by apply IH].
Qed.
Fixpoint write_tops (st : written) (l : list atop) : bool :=
  match l with [] => true | t :: l => match write_all st (occ_top t) with Some st' => write_tops (end_top st') l | None => false end end.
Lemma write_tops_ok l : ∀ st, write_tops st l = true → ∃ st', writes_tops st l st'.
Proof.
  induction l as [|t l IH]; cbn [write_tops]; intros st H; [eexists; constructor|].
  destruct (write_all st (occ_top t)) as [st1|] eqn:E; [|done]. apply IH in H as [st' H]. exists st'. econstructor; [by apply write_all_ok|done].
Qed.

Lemma succ_ends b t : t ∈ ends_to b → succ b t.
Proof.
  unfold ends_to, succ. destruct (b_stmts b) as [|x l] eqn:E using rev_ind; [by intros ?%elem_of_nil|]. rewrite last_snoc. intros Ht.
  exists l, x. split; [done|]. destruct x; simpl in *; set_solver.
Qed.
(** Every block but the first is the target of an earlier one. *)
Fixpoint reach_check (seen : list string) (l : list ablock) : bool :=
  match l with [] => true | b :: l => bool_decide (b_name b ∈ seen) && reach_check (ends_to b ++ seen) l end.
Lemma bpath_snoc bbs n a b c : bpath bbs n a b → succ b (b_name c) → c ∈ bbs → bpath bbs (S n) a c.
Proof. induction 1 as [a|n a b c' Hs Hb _ IH]; intros H1 H2; [by eapply bpath_cons; [..|constructor]|]. eapply bpath_cons; eauto. Qed.
Lemma reach_check_ok bbs e : ∀ l seen, reach_check seen l = true → (∀ b, b ∈ l → b ∈ bbs) →
  (∀ b, b ∈ bbs → b_name b ∈ seen → reachable bbs e b) → ∀ b, b ∈ l → reachable bbs e b.
Proof.
  induction l as [|x l IH]; intros seen H Hl Hs b Hb; [by apply elem_of_nil in Hb|].
  cbn [reach_check] in H. apply andb_prop in H as [H1%bool_decide_eq_true H2].
  assert (Hx : reachable bbs e x) by (apply Hs; [apply Hl; left|done]).
  apply elem_of_cons in Hb as [-> |Hb]; [done|]. eapply (IH _ H2); [set_solver| |done].
  intros c Hc [Hn|Hn]%elem_of_app; [|by apply Hs]. destruct Hx as [n Hx]. exists (S n). eapply bpath_snoc; [done| |done]. by apply succ_ends.
Qed.
Definition order_check (bbs : list ablock) : bool :=
  match bbs with
  | [] => false
  | e :: _ => reach_check [b_name e] bbs && bool_decide (map b_name bbs = firsts [] (b_name e :: concat (map ends_to bbs))) && bool_decide (NoDup (map b_name bbs))
  end.
Lemma order_check_ok bbs : order_check bbs = true → in_order bbs bbs.
Proof.
  destruct bbs as [|e l]; [done|]. cbn [order_check]. remember (e :: l) as bbs eqn:Eb.
  intros [[H1 H2%bool_decide_eq_true]%andb_prop H3%bool_decide_eq_true]%andb_prop.
  exists e. split; [by rewrite Eb|]. split; [|done]. intros b. split; [|by intros []]. intros Hb. split; [done|].
  eapply reach_check_ok; [exact H1|done| |done]. intros c Hc He%elem_of_list_singleton.
  assert (c = e) as ->; [|exists 0; constructor].
  apply elem_of_list_lookup in Hc as [i Hc]. assert (He' : bbs !! 0 = Some e) by (by rewrite Eb).
  assert (i = 0) as ->; [|congruence].
  eapply NoDup_lookup; [exact H3|rewrite list_lookup_fmap, Hc; done|rewrite list_lookup_fmap, He'; simpl; by rewrite He].
Qed.

Fixpoint fits_check (t : aty) (i : ainit) {struct i} : bool :=
  match i with
  | IAggr l => match t with AArr b _ => forallb (fits_check b) l | _ => false end
  | _ => true
  end.
Lemma fits_check_ok i : ∀ t, fits_check t i = true → init_fits t i.
Proof.
  induction i as [z| | |l IH] using ainit_ind'; intros t H; try done.
  destruct t as [|b n| |]; try done. cbn [fits_check] in H. cbn [init_fits].
  induction IH as [|x l Hx _ IH]; [done|]. cbn [forallb] in H. apply andb_prop in H as [H1 H2]. split; [by apply Hx|by apply IH].
Qed.
(** Arguments [a] of a call of [f] *)
Definition sig_check (ts : list atop) (f : string) (a : nat) (unit : bool) : bool :=
  forallb (λ t, match t with
    | TFunDecl g l r => negb (String.eqb g f) || ((length l =? a)%nat && (negb unit || match r with None => true | _ => false end))
    | TFunDef g l r _ => negb (String.eqb g f) || ((length l =? a)%nat && (negb unit || match r with None => true | _ => false end))
    | _ => true end) ts.
Lemma sig_check_ok ts f a unit : sig_check ts f a unit = true → ∀ n r, has_sig ts f n r → a = n ∧ (unit = true → r = None).
Proof.
  unfold sig_check. rewrite forallb_forall. intros H n r [(l & Hin & Hl)|(l & bbs & Hin & Hl)]; apply elem_of_list_In, H in Hin; simpl in Hin;
    rewrite String.eqb_refl in Hin; cbn [negb orb] in Hin; apply andb_prop in Hin as [H1%Nat.eqb_eq H2]; (split; [congruence|]);
    intros ->; by destruct r.
Qed.
Definition goes_check (bbs : list ablock) (t : string) (a : list aval) : bool :=
  forallb (λ b, negb (String.eqb (b_name b) t) || (length a =? length (b_params b))%nat) bbs.
Lemma goes_check_ok bbs t a : goes_check bbs t a = true → ∀ b, b ∈ bbs → b_name b = t → length a = length (b_params b).
Proof.
  unfold goes_check. rewrite forallb_forall. intros H b Hb <-. apply elem_of_list_In, H in Hb. rewrite String.eqb_refl in Hb. by apply Nat.eqb_eq.
Qed.
Definition stmt_fits_check (ts : list atop) (bbs : list ablock) (st : astmt) : bool :=
  match st with
  | SDef _ (ECall f a) => sig_check ts f (length a) false
  | SCall f a => sig_check ts f (length a) true
  | SBr _ t ta f fa => goes_check bbs t ta && goes_check bbs f fa
  | SJump t a => goes_check bbs t a
  | _ => true
  end.
Lemma stmt_fits_ok ts bbs st : stmt_fits_check ts bbs st = true → stmt_fits ts bbs st.
Proof.
  destruct st as [n e|s d|f a|c t ta f fa|t a|v|]; simpl; try done.
  - destruct e; try done. intros H k r Hs. by destruct (sig_check_ok _ _ _ _ H _ _ Hs).
  - intros H k r Hs. destruct (sig_check_ok _ _ _ _ H _ _ Hs) as [? Hr]. split; [done|by apply Hr].
  - intros [H1 H2]%andb_prop. split; by apply goes_check_ok.
  - apply goes_check_ok.
Qed.
Definition top_fits_check (ts : list atop) (t : atop) : bool :=
  match t with
  | TGlobal _ t i => fits_check t i
  | TFunDef _ ps _ bbs => order_check bbs && bool_decide (NoDup (fun_names ps bbs)) &&
      forallb (λ n, bool_decide (n ∉ gvars_of ts)) (fun_names ps bbs) && forallb (λ b, forallb (stmt_fits_check ts bbs) (b_stmts b)) bbs
  | _ => true
  end.
Lemma top_fits_ok ts t : top_fits_check ts t = true → top_fits ts t.
Proof.
  destruct t as [n t i|n ps r bbs|n ps r| |]; try done; simpl; [apply fits_check_ok|].
  intros [[[H1 H2]%andb_prop H3]%andb_prop H4]%andb_prop. split; [by apply order_check_ok|]. split; [by apply bool_decide_eq_true in H2|]. split.
  - intros x Hx. rewrite forallb_forall in H3. apply elem_of_list_In, H3 in Hx. by apply bool_decide_eq_true in Hx.
  - intros b st Hb Hst. rewrite forallb_forall in H4. apply elem_of_list_In, H4 in Hb. rewrite forallb_forall in Hb.
    apply elem_of_list_In, Hb in Hst. by apply stmt_fits_ok.
Qed.
Definition canonical_check (gs fs : list atop) : bool :=
  forallb global_check gs && forallb func_check fs && write_tops written0 (gs ++ fs) && forallb (top_fits_check (gs ++ fs)) (gs ++ fs).
Lemma canonical_check_ok gs fs : canonical_check gs fs = true → canonical gs fs.
Proof.
  unfold canonical_check. intros [[[H1 H2]%andb_prop H3]%andb_prop H4]%andb_prop.
  split; [exact (forallb_ok _ _ _ global_check_ok H1)|]. split; [exact (forallb_ok _ _ _ func_check_ok H2)|].
  split; [by apply write_tops_ok|exact (forallb_ok _ _ _ (top_fits_ok _) H4)].
Qed.
