(** Functions and global variables have global names in LLVM text (C46). *)
From Coq Require Import Sorted Lia.
From Verif Require Import Base IdModel TypeModel IrModel LayoutModel WorldModel DfgSpec UsesSpec LayoutSpec
  NameModel NameSpec NameProofs LexerModel DriverModel KoopaModel LlvmModel LlvmSpec PrintProofs OrderProofs.

(** While the functions [S] and the variables [V] have names, [c] names no functions or
    variables. *)
Definition idle {A} (S V : N → Prop) (c : M nm A) : Prop := ∀ m,
  (∀ g, S g → is_Some (nm_funcs m !! g)) → (∀ v, V v → is_Some (nm_gvars m !! v)) →
  nm_funcs (c m).2 = nm_funcs m ∧ nm_gvars (c m).2 = nm_gvars m.
Section idle.
Context (S V : N → Prop).
Lemma idle_same {A} (c : M nm A) :
  (∀ m, nm_funcs (c m).2 = nm_funcs m ∧ nm_gvars (c m).2 = nm_gvars m) → idle S V c.
Proof. by intros H m _ _. Qed.
Lemma idle_then {A B} (c : M nm A) (k : A → M nm B) :
  idle S V c → (∀ a, idle S V (k a)) → idle S V (mthen c k).
Proof.
  intros Hc Hk m HS HV. unfold mthen. destruct (Hc m HS HV) as [E1 E2].
  destruct (c m) as [[a|e| |] m1]; simpl in *; try done.
  rewrite <- E1 in HS |- *. rewrite <- E2 in HV |- *. by apply Hk.
Qed.
Lemma idle_ok {A} (a : A) : idle S V (mok a).
Proof. by apply idle_same. Qed.
Lemma idle_some {A} (o : option A) : idle S V (p_some o).
Proof. apply idle_same. intros m. by destruct o. Qed.
Lemma idle_map {A} (f : A → PR) l : (∀ x, x ∈ l → idle S V (f x)) → idle S V (p_map f l).
Proof.
  induction l as [|x l IH]; intros H; cbn [p_map]; [apply idle_ok|].
  apply idle_then; [apply H; by left|]. intros y. apply idle_then; [|intros; apply idle_ok].
  apply IH. intros z Hz. apply H. by right.
Qed.
Lemma idle_prefix p : idle S V (p_prefix p).
Proof. by apply idle_same. Qed.
Lemma idle_temp : idle S V (p_name temp_value_name).
Proof.
  apply idle_same. intros m. unfold p_name. destruct (temp_value_name m) as [[s m']|] eqn:E; [|done].
  cbn [snd]. unfold temp_value_name in E. apply bind_Some in E as ([[n id] ns] & _ & E).
  injection E as _ <-. done.
Qed.
Lemma idle_bb fd b : idle S V (p_bb_name fd b).
Proof.
  unfold p_bb_name. apply idle_then; [apply idle_some|]. intros bd.
  apply idle_same. intros m. unfold p_name. destruct (bb_name_ b (bb_name bd) m) as [[s m']|] eqn:E; [|done].
  unfold bb_name_ in E. destruct (nm_bbs m !! b); [by injection E as _ <-|].
  apply bind_Some in E as ([[n id] ns] & _ & E). by injection E as _ <-.
Qed.
Lemma idle_value v d : (is_global_alloc (v_kind d) = true → V v) → idle S V (p_value_name v d).
Proof.
  intros Hd. unfold p_value_name. destruct (is_const (v_kind d)); [apply idle_some|].
  intros m _ HV. unfold p_name.
  destruct (value_name (is_global_alloc (v_kind d)) v (v_name d) m) as [[s m']|] eqn:E; [|done].
  unfold value_name in E. destruct (is_global_alloc (v_kind d)).
  - destruct (HV v (Hd eq_refl)) as [x Hx]. rewrite Hx in E. by injection E as _ <-.
  - destruct (nm_values m !! v); [by injection E as _ <-|].
    apply bind_Some in E as ([[n id] ns] & _ & E). by injection E as _ <-.
Qed.
Lemma idle_func p g : S g → idle S V (p_func_name p g).
Proof.
  intros Hg. unfold p_func_name. apply idle_then; [apply idle_some|]. intros gd m HS _.
  unfold p_name. destruct (HS g Hg) as [x Hx]. unfold func_name. rewrite Hx. done.
Qed.
Lemma idle_const m t d : idle S V (l_const m t d).
Proof. by apply idle_same. Qed.
End idle.

Ltac idle_go := repeat first [apply idle_some | apply idle_ok | apply idle_temp | apply idle_bb | apply idle_const
  | apply idle_prefix].

Section function.
Context (S V : N → Prop) (p : program) (fd : fdata).
Context (HV : ∀ v d, p_values p !! v = Some d → is_global_alloc (v_kind d) = true → V v).
Context (HL : ∀ v d, vals fd !! v = Some d → is_global_alloc (v_kind d) = false).
Context (HC : ∀ v d c args, vals fd !! v = Some d → v_kind d = KCall c args → S c).
Lemma idle_looked {A B} (o : option A) (k : A → M nm B) :
  (∀ a, o = Some a → idle S V (k a)) → idle S V (mthen (p_some o) k).
Proof.
  intros H. destruct o as [a|].
  - intros m. by apply H.
  - by apply idle_same.
Qed.
Lemma idle_l_value t v : idle S V (l_value p fd t v).
Proof.
  unfold l_value. destruct (is_global_id v).
  - apply idle_looked. intros d Hd. destruct (is_const (v_kind d)); [apply idle_some|].
    apply idle_then; [apply idle_value; by apply HV|]. intros; apply idle_ok.
  - apply idle_looked. intros d Hd. destruct (is_const (v_kind d)); [apply idle_const|].
    apply idle_then; [apply idle_value; by rewrite (HL _ _ Hd)|]. intros; apply idle_ok.
Qed.
Lemma idle_base_ty v : idle S V (l_base_ty p fd v).
Proof. unfold l_base_ty. apply idle_then; [apply idle_some|]. intros d. destruct (v_ty d); idle_go. Qed.
Ltac go := repeat first [apply idle_some | apply idle_ok | apply idle_temp | apply idle_bb | apply idle_const
  | apply idle_prefix | apply idle_l_value | apply idle_base_ty | apply idle_then; [|intros]].
Lemma idle_content v d : vals fd !! v = Some d → idle S V (l_content p fd v d).
Proof.
  intros Hd. assert (Hn : idle S V (p_value_name v d)) by (apply idle_value; by rewrite (HL _ _ Hd)).
  unfold l_content. destruct (v_kind d) as [| | | | | | | | | | | |op l r|c t f ta fa|t args|c args|[x|]] eqn:E.
  16: { apply idle_then; [apply idle_func; by eapply HC|]. intros n. apply idle_then; [|intros; go].
    apply idle_map. intros; go. }
  all: go.
  - destruct (v_ty d); go.
  - destruct (is_compare op); go; done.
Qed.
Lemma idle_inst v d : vals fd !! v = Some d → idle S V (l_inst p fd v d).
Proof.
  intros Hd. unfold l_inst. apply idle_then.
  - destruct (is_binary _ || _); go. apply idle_value. by rewrite (HL _ _ Hd).
  - intros. apply idle_then; [by apply idle_content|]. intros; go.
Qed.
Lemma idle_l_bb ord b is : idle S V (l_bb ord p fd b is).
Proof.
  unfold l_bb. apply idle_then; [go|]. intros bd. apply idle_then.
  { apply idle_same. intros m. unfold p_name. destruct (bb_name_ b (bb_name bd) m) as [[s m']|] eqn:E; [|done].
    unfold bb_name_ in E. destruct (nm_bbs m !! b); [by injection E as _ <-|].
    apply bind_Some in E as ([[n id] ns] & _ & E). by injection E as _ <-. }
  intros n. apply idle_then; [go|]. intros label. apply idle_then.
  { apply idle_map. intros x _. unfold l_phi. apply idle_looked. intros d Hd.
    apply idle_then; [apply idle_value; by rewrite (HL _ _ Hd)|]. intros n1.
    apply idle_then; [|intros; go]. apply idle_map. intros u _. unfold l_incoming. go. }
  intros phis. apply idle_then; [|intros; go]. apply idle_map. intros v _.
  apply idle_looked. intros d Hd. apply idle_then; [by apply idle_inst|]. intros; go.
Qed.
End function.

(** ** Global names *)
Lemma global_prefixed n s : prefix_name global_prefix n = Some s → global_name s.
Proof.
  unfold global_prefix. cbn [prefix_name]. intros H. apply bind_Some in H as (x & Hx & H).
  assert (∃ t, x = String "@" t) as [t ->].
  { destruct n as [|c n]; [done|]. destruct (Ascii.eqb c "@"); [injection Hx as <-; by eexists|].
    destruct (is_boundary (String c n) 1); [|done]. injection Hx as <-. by eexists. }
  unfold truncate in H. destruct (_ <=? _)%nat; [injection H as <-; by eexists|].
  destruct (is_boundary _ _); [|done]. injection H as <-. by eexists.
Qed.
Lemma global_free k n : global_name n → ∀ id names s, next_free k n id names = Some s → global_name s.
Proof.
  intros [t ->] id names s H. apply next_free_Some in H as [_ (j & ->)]. by eexists.
Qed.
Lemma global_next_str n names s names' :
  next_name_str global_prefix n names = Some (s, names') → global_name s.
Proof.
  intros H. unfold next_name_str in H. apply bind_Some in H as (x & Hx & H). apply global_prefixed in Hx.
  case_decide.
  - apply bind_Some in H as (y & Hy & H). injection H as <- _. by eapply global_free.
  - by injection H as <- _.
Qed.
Lemma global_next id n names s id' names' :
  next_name global_prefix id n names = Some (s, id', names') → global_name s.
Proof.
  intros H. unfold next_name in H. destruct n as [n|].
  - apply bind_Some in H as ([y ns] & Hy & H). injection H as <- _ _. by eapply global_next_str.
  - injection H as <- _ _. by eexists.
Qed.

(** The names so far: those of the functions [S] and of the variables [V] *)
Record named (S V : N → Prop) (m : nm) : Prop := {
  nd_funcs : ∀ g n, nm_funcs m !! g = Some n → global_name n;
  nd_gvars : ∀ v n, nm_gvars m !! v = Some n → global_name n;
  nd_fun : ∀ g, S g → is_Some (nm_funcs m !! g);
  nd_var : ∀ v, V v → is_Some (nm_gvars m !! v);
}.
Lemma named_same S V m m' : nm_funcs m' = nm_funcs m → nm_gvars m' = nm_gvars m → named S V m → named S V m'.
Proof. intros E1 E2 []. split; by rewrite ?E1, ?E2. Qed.
Lemma named_idle {A} S V (c : M nm A) m r m' : idle S V c → c m = (r, m') → named S V m → named S V m'.
Proof.
  intros Hc H N. destruct (Hc m (nd_fun _ _ _ N) (nd_var _ _ _ N)) as [E1 E2]. rewrite H in E1, E2.
  by apply (named_same _ _ m).
Qed.
Lemma named_func S V f n m s m' : nm_prefix m = global_prefix → func_name f n m = Some (s, m') →
  named S V m → named (λ g, S g ∨ g = f) V m'.
Proof.
  intros Hp H [N1 N2 N3 N4]. unfold func_name in H. destruct (nm_funcs m !! f) as [x|] eqn:E.
  - injection H as <- <-. split; try done. intros g [?| ->]; [auto|eauto].
  - rewrite Hp in H. apply bind_Some in H as ([y ns] & Hy & H). apply global_next_str in Hy. injection H as <- <-.
    split; simpl; try done.
    + intros g x Hx. apply lookup_insert_Some in Hx as [[<- <-]|[_ Hx]]; [done|by eapply N1].
    + intros g [Hg| ->]; [|rewrite lookup_insert; eauto]. apply N3 in Hg as [x Hx].
      rewrite lookup_insert_ne; [eauto|]. intros <-. congruence.
Qed.
Lemma named_gvar S V v n m s m' : nm_prefix m = global_prefix → value_name true v n m = Some (s, m') →
  named S V m → named S (λ x, V x ∨ x = v) m'.
Proof.
  intros Hp H [N1 N2 N3 N4]. unfold value_name in H. destruct (nm_gvars m !! v) as [x|] eqn:E.
  - injection H as <- <-. split; try done. intros g [?| ->]; [auto|eauto].
  - rewrite Hp in H. apply bind_Some in H as ([[y id] ns] & Hy & H). apply global_next in Hy. injection H as <- <-.
    split; simpl; try done.
    + intros g x Hx. apply lookup_insert_Some in Hx as [[<- <-]|[_ Hx]]; [done|by eapply N2].
    + intros g [Hg| ->]; [|rewrite lookup_insert; eauto]. apply N4 in Hg as [x Hx].
      rewrite lookup_insert_ne; [eauto|]. intros <-. congruence.
Qed.
Lemma named_weaken (S S' V V' : N → Prop) m : (∀ x, S' x → S x) → (∀ x, V' x → V x) → named S V m → named S' V' m.
Proof. intros H1 H2 []. split; eauto. Qed.

Section program.
Context (p : program) (ord : gset value → list value).
Context (HC : callees_first p) (HG : globals_listed p).

Lemma named_globals l : ∀ V m r m', nm_prefix m = global_prefix → named (λ _, False) V m →
  p_map (l_global p) l m = (Rok r, m') →
  nm_prefix m' = global_prefix ∧ named (λ _, False) (λ v, V v ∨ v ∈ l) m'.
Proof.
  induction l as [|v l IH]; intros V m r m' Hp N H; cbn [p_map] in H.
  - injection H as _ <-. split; [done|]. eapply named_weaken; [done| |done]. intros x [?|Hx]; [done|inversion Hx].
  - unfold mthen at 1 in H. destruct (l_global p v m) as [r1 m1] eqn:E1. destruct r1 as [s| | |]; try done.
    unfold mthen in H. destruct (p_map (l_global p) l m1) as [r2 m2] eqn:E2.
    destruct r2 as [ss| | |]; try done. injection H as _ <-.
    assert (nm_prefix m1 = global_prefix ∧ named (λ _, False) (λ x, V x ∨ x = v) m1) as [Hp1 N1].
    { unfold l_global, mthen, p_some in E1. destruct (p_values p !! v) as [d|]; [|done].
      destruct (v_kind d) eqn:Ek; try done. destruct (p_values p !! init) as [v0|]; [|done].
      unfold p_value_name in E1. rewrite Ek in E1. cbn [is_const is_global_alloc] in E1. unfold p_name in E1.
      destruct (value_name true v (v_name d) m) as [[s1 m3]|] eqn:E3; [|done].
      unfold l_const in E1. destruct (llvm_const (Datatypes.S (base.size (p_values p))) (p_values p) true v0); try done. injection E1 as _ <-.
      split; [|by eapply named_gvar].
      unfold value_name in E3. destruct (nm_gvars m !! v); [by injection E3 as _ <-|].
      apply bind_Some in E3 as ([[n id] ns] & _ & E3). by injection E3 as _ <-. }
    destruct (IH _ _ _ _ Hp1 N1 E2) as [Hp2 N2]. split; [done|].
    eapply named_weaken; [done| |exact N2]. intros x [?|[->|?]%elem_of_cons]; auto.
Qed.
Lemma func_prefix ord' f fd m r m' : l_func ord' p f fd m = (Rok r, m') → nm_prefix m' = global_prefix.
Proof.
  unfold l_func. destruct (f_ty fd); try done. intros H.
  unfold mthen at 1 in H. destruct (p_name (func_name f (f_name fd)) m) as [[n| | |] m1]; try done.
  unfold mthen at 1 in H. unfold p_prefix in H at 1.
  unfold mthen at 1 in H.
  match type of H with (match ?c with _ => _ end) = _ => destruct c as [[ss| | |] m2]; try done end.
  unfold mthen at 1 in H.
  match type of H with (match ?c with _ => _ end) = _ => destruct c as [[bs| | |] m3]; try done end.
  unfold mthen, p_prefix in H. by injection H as _ <-.
Qed.
Lemma named_function (S : N → Prop) f fd m r m' :
  (∀ v d c args, vals fd !! v = Some d → v_kind d = KCall c args → S c ∨ c = f) →
  p_funcs p !! f = Some fd → nm_prefix m = global_prefix → named S (λ v, v ∈ p_inst_layout p) m →
  l_func ord p f fd m = (Rok r, m') → named (λ g, S g ∨ g = f) (λ v, v ∈ p_inst_layout p) m'.
Proof.
  intros HS Hf Hp N H. unfold l_func in H. destruct (f_ty fd); try done.
  unfold mthen at 1 in H. unfold p_name in H.
  destruct (func_name f (f_name fd) m) as [[n m1]|] eqn:E1; [|done].
  pose proof (named_func _ _ _ _ _ _ _ Hp E1 N) as N1. eapply named_idle; [|exact H|exact N1].
  assert (HV : ∀ v d, p_values p !! v = Some d → is_global_alloc (v_kind d) = true → v ∈ p_inst_layout p) by apply HG.
  assert (HL : ∀ v d, vals fd !! v = Some d → is_global_alloc (v_kind d) = false).
  { intros v d. by apply (proj2 HG f fd). }
  apply idle_then; [apply idle_prefix|]. intros _. apply idle_then.
  { case_bool_decide; [apply idle_ok|]. apply idle_map. intros v _. unfold l_param.
    apply idle_looked. intros d Hd. apply idle_then; [|intros; apply idle_ok].
    apply idle_value. by rewrite (HL _ _ Hd). }
  intros ss. apply idle_then.
  { case_bool_decide; [apply idle_ok|]. apply idle_map. intros x _. by apply idle_l_bb. }
  intros bs. apply idle_then; [apply idle_prefix|]. intros; apply idle_ok.
Qed.
Lemma named_functions l2 : ∀ l1 m r m', p_func_layout p = l1 ++ l2 → nm_prefix m = global_prefix →
  named (λ g, g ∈ l1) (λ v, v ∈ p_inst_layout p) m →
  p_map (λ f, fd <- p_some (p_funcs p !! f);;
          p_name_ enter_func_scope;;
          s <- l_func ord p f fd;;
          p_name_ exit_func_scope;;
          mok s) l2 m = (Rok r, m') →
  named (λ g, g ∈ l1 ++ l2) (λ v, v ∈ p_inst_layout p) m'.
Proof.
  induction l2 as [|f l2 IH]; intros l1 m r m' El Hp N H; cbn [p_map] in H.
  { injection H as _ <-. by rewrite app_nil_r. }
  unfold mthen at 1 in H.
  match type of H with (match ?c with _ => _ end) = _ => destruct c as [r1 m1] eqn:E1 end.
  destruct r1 as [s| | |]; try done. unfold mthen at 1 in H.
  match type of H with (match ?c with _ => _ end) = _ => destruct c as [r2 m2] eqn:E2 end.
  destruct r2 as [ss| | |]; try done. injection H as _ <-.
  assert (nm_prefix m1 = global_prefix ∧ named (λ g, g ∈ l1 ++ [f]) (λ v, v ∈ p_inst_layout p) m1) as [Hp1 N1].
  { unfold mthen, p_some in E1. destruct (p_funcs p !! f) as [fd|] eqn:Hf; [|done].
    unfold p_name_ in E1. destruct (enter_func_scope m) as [m3|] eqn:E3; [|done].
    destruct (l_func ord p f fd m3) as [r4 m4] eqn:E4. destruct r4 as [s'| | |]; try done.
    destruct (exit_func_scope m4) as [m5|] eqn:E5; [|done]. injection E1 as _ <-.
    unfold enter_func_scope in E3. destruct (nm_in_func m); [done|]. injection E3 as <-.
    pose proof (func_prefix _ _ _ _ _ _ E4) as Hp4.
    apply (named_function (λ g, g ∈ l1)) in E4; [|by intros v d c args H1 H2; apply (HC l1 f l2 fd v d c args)|done|done|by eapply (named_same _ _ m)].
    unfold exit_func_scope in E5. destruct (nm_in_func m4); [|done]. injection E5 as <-.
    split; [done|]. eapply named_same; [..|eapply named_weaken; [| |exact E4]]; [done..| |done].
    intros x. by rewrite elem_of_app, elem_of_list_singleton. }
  rewrite cons_middle, app_assoc in El |- *. by eapply IH.
Qed.
Lemma program_names txt : llvm_program ord p = Rok txt →
  named (λ g, g ∈ p_func_layout p) (λ v, v ∈ p_inst_layout p) (l_program ord p nm0).2.
Proof.
  unfold llvm_program. destruct (l_program ord p nm0) as [r m'] eqn:H. simpl. intros ->.
  unfold l_program in H. unfold mthen at 1 in H. unfold p_prefix in H at 1.
  set (m0 := set_prefix global_prefix nm0) in *.
  unfold mthen in H at 1. destruct (p_map (l_global p) (p_inst_layout p) m0) as [r m1] eqn:E1.
  destruct r as [gs| | |]; try done.
  apply (named_globals _ (λ _, False)) in E1 as [Hp N]; [|done|].
  2: { split; try done; simpl; intros ? ?; by rewrite lookup_empty. }
  unfold mthen in H at 1.
  match type of H with context [match ?c m1 with _ => _ end] => destruct (c m1) as [r m2] eqn:E2 end.
  destruct r as [fs| | |]; try done. injection H as _ <-.
  eapply (named_functions _ []); [done|exact Hp| |exact E2].
  eapply named_weaken; [| |exact N]; [intros x Hx; inversion Hx|by right].
Qed.
End program.

(** Programs of the front end *)
Lemma olds_ordered w : olds w → callees_first (w_prog w) ∧ globals_listed (w_prog w).
Proof.
  intros HO. split.
  - intros l1 f l2 fd v d c args El Hf Hv Hc.
    destruct (od_calls _ HO _ _ _ _ _ _ Hf Hv Hc) as [Hle Hin]. rewrite El in Hin.
    pose proof (od_sorted _ HO) as HS. rewrite El in HS.
    apply elem_of_app in Hin as [?|[->|Hin]%elem_of_cons]; [by left|by right|]. exfalso.
    assert (f < c)%N; [|lia]. revert HS Hin. clear. induction l1 as [|x l1 IH]; simpl.
    + intros HS Hin. apply StronglySorted_inv in HS as [_ HS]. rewrite list.Forall_forall in HS. by apply HS.
    + intros HS Hin. apply StronglySorted_inv in HS as [HS _]. auto.
  - split; [apply HO|]. intros f fd v d. apply (od_locals _ HO).
Qed.
Lemma read_ordered r p n b : read_program r = (Rok p, n, b) → callees_first p ∧ globals_listed p.
Proof. intros H. apply read_olds in H as (w & HO & <-). by apply olds_ordered. Qed.
