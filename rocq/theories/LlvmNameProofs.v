(** The LLVM text of a whole program, and the names in it. *)
From Verif Require Import Base IdModel TypeModel IrModel LayoutModel DfgSpec UsesSpec LayoutSpec
  NameModel NameSpec NameProofs LexerModel KoopaModel LlvmModel LlvmSpec PrintProofs LlvmProofs.
From Coq Require Import Lia ZifyBool ZifyNat ZifyN.

(** ** Histories of requests *)
(** A request of the generator: names come from the program, prefixes are those of LLVM. *)
Definition outer (G : string → Prop) (r : nreq) : Prop :=
  (∀ p, r = QPrefix p → p = global_prefix ∨ p = local_prefix) ∧ (∀ n, given r = Some n → G n).
Lemma inner_outer G r : inner G r → outer G r.
Proof. intros (_ & _ & H1 & H2). by split. Qed.

(** [m] is reached from the initial state by requests of the generator with answers [h]. *)
Definition reached (G : string → Prop) (h : list (nreq * option string)) (m : nm) : Prop :=
  ∃ rs, serve_names rs nm0 = Some (h, m) ∧ well_scoped false rs = true ∧ Forall (outer G) rs.

Lemma reached_nm0 G : reached G [] nm0.
Proof. exists []. split; [done|]. split; [done|constructor]. Qed.

Fixpoint scope_after (b : bool) (rs : list nreq) : bool :=
  match rs with
  | [] => b
  | r :: rs' => scope_after (match r with QEnter => true | QExit => false | _ => b end) rs'
  end.
Lemma well_scoped_app rs1 rs2 : ∀ b,
  well_scoped b (rs1 ++ rs2) = well_scoped b rs1 && well_scoped (scope_after b rs1) rs2.
Proof.
  induction rs1 as [|r rs1 IH]; intros b; [done|].
  rewrite <- app_comm_cons, !well_scoped_cons, IH, andb_assoc. done.
Qed.
Lemma serve_names_scope rs : ∀ m h m', serve_names rs m = Some (h, m') →
  nm_in_func m' = scope_after (nm_in_func m) rs.
Proof.
  induction rs as [|r rs IH]; intros m h m' H.
  - by injection H as <- <-.
  - apply serve_names_cons in H as (a & m1 & h1 & Hs & Hr & ->).
    rewrite (IH _ _ _ Hr). cbn [scope_after]. f_equal. by eapply serve_name_scope.
Qed.

Lemma reached_more G h m rs h1 m1 :
  reached G h m → serve_names rs m = Some (h1, m1) → Forall (outer G) rs →
  well_scoped (nm_in_func m) rs = true → reached G (h ++ h1) m1.
Proof.
  intros (rs0 & H1 & H2 & H3) Hs HF Hw. exists (rs0 ++ rs).
  split; [by eapply serve_names_join|]. split; [|by apply list.Forall_app].
  rewrite well_scoped_app, H2. simpl.
  by rewrite <- (serve_names_scope _ _ _ _ H1 : _ = scope_after false rs0).
Qed.
Lemma inner_scoped G rs : Forall (inner G) rs → well_scoped true rs = true.
Proof.
  induction 1 as [|r rs (H1 & H2 & _) HF IH]; [done|]. rewrite well_scoped_cons, andb_true_iff.
  split; [by destruct r|]. by destruct r.
Qed.

(** ** The program *)
(** What is known about a function in the text *)
Definition fun_at (p : program) (x : naming * list string * string) : Prop :=
  ∃ h m t, reached (named_in p) h m ∧ nm_in_func m = true ∧ x.1.1 = naming_of m ∧
    temps_of h = t ++ x.1.2.

Section program.
Context (p : program) (ord : gset value → list value).
Context (Hord : ∀ s, ord s ≡ₚ elements s) (Huse : use_lists_exact p) (Hpar : parents_exact p)
  (Hap : branches_apart p).
Notation G := (named_in p).

Lemma exit_enter_nle m m' : enter_func_scope m = Some m' ∨ exit_func_scope m = Some m' →
  nm_funcs m ⊆ nm_funcs m' ∧ nm_gvars m ⊆ nm_gvars m'.
Proof.
  intros [H|H].
  - unfold enter_func_scope in H. destruct (nm_in_func m); [done|]. by injection H as <-.
  - unfold exit_func_scope in H. destruct (nm_in_func m); [|done]. by injection H as <-.
Qed.

Lemma one_function f m h s m' : reached G h m →
  (fd <- p_some (p_funcs p !! f);;
   p_name_ enter_func_scope;; s <- l_func ord p f fd;; p_name_ exit_func_scope;; mok s) m = (Rok s, m') →
  ∃ ν ts h', fun_text ν p f ts s ∧ fun_at p (ν, ts, s) ∧ reached G h' m' ∧
    nv_fun ν ⊆ nm_funcs m' ∧ nv_global ν ⊆ nm_gvars m' ∧
    nm_funcs m ⊆ nm_funcs m' ∧ nm_gvars m ⊆ nm_gvars m'.
Proof.
  intros Hr H. unfold mthen, p_some in H. destruct (p_funcs p !! f) as [fd|] eqn:Hf; [|done].
  unfold p_name_ in H. destruct (enter_func_scope m) as [m1|] eqn:He; [|done].
  destruct (l_func ord p f fd m1) as [r m2] eqn:Hl. destruct r as [s'| | |]; try done.
  destruct (exit_func_scope m2) as [m3|] eqn:Hx; [|done]. injection H as <- <-.
  destruct (says_fun p f fd Hf (λ u b, Hpar f fd u b Hf) ord Hord
    (λ u d c t a1 a2, Hap f fd u d c t a1 a2 Hf) (λ b d, proj2 (proj2 Huse) f fd b d Hf) _ _ _ Hl) as (rs & h1 & H1 & H2 & H3).
  specialize (H3 _ eq_refl).
  assert (Hin : nm_in_func m1 = true).
  { unfold enter_func_scope in He. destruct (nm_in_func m); [done|]. by injection He as <-. }
  assert (Hr1 : reached G (h ++ [(QEnter, None)]) m1).
  { eapply (reached_more _ _ _ [QEnter]); [done|simpl; by rewrite He|by repeat constructor|].
    unfold enter_func_scope in He. by destruct (nm_in_func m). }
  assert (Hr2 : reached G ((h ++ [(QEnter, None)]) ++ h1) m2).
  { eapply reached_more; [done|done| |].
    - eapply list.Forall_impl; [done|]. apply inner_outer.
    - rewrite Hin. by eapply inner_scoped. }
  assert (Hin2 : nm_in_func m2 = true).
  { unfold exit_func_scope in Hx. by destruct (nm_in_func m2). }
  pose proof (serve_names_nle _ _ _ _ _ H2 H1) as Hn.
  destruct (exit_enter_nle m m1 (or_introl He)) as [E1 E2].
  destruct (exit_enter_nle m2 m3 (or_intror Hx)) as [E3 E4].
  exists (naming_of m2), (temps_of h1), (((h ++ [(QEnter, None)]) ++ h1) ++ [(QExit, None)]).
  split_and!; try done.
  - exists ((h ++ [(QEnter, None)]) ++ h1), m2, (temps_of (h ++ [(QEnter, None)])).
    split_and!; try done. apply temps_of_app.
  - eapply (reached_more _ _ _ [QExit]); [done|simpl; by rewrite Hx|by repeat constructor|done].
  - etrans; [exact E1|]. etrans; [apply (nle_fun _ _ Hn)|exact E3].
  - etrans; [exact E2|]. etrans; [apply (nle_global _ _ Hn)|exact E4].
Qed.

Lemma all_functions l : ∀ m h ss m', reached G h m →
  p_map (λ f,
    fd <- p_some (p_funcs p !! f);;
    p_name_ enter_func_scope;; s <- l_func ord p f fd;; p_name_ exit_func_scope;; mok s) l m = (Rok ss, m') →
  ∃ xs h', map snd xs = ss ∧ Forall2 (λ f x, fun_text x.1.1 p f x.1.2 x.2) l xs ∧
    Forall (fun_at p) xs ∧ reached G h' m' ∧
    Forall (λ x, nv_fun x.1.1 ⊆ nm_funcs m' ∧ nv_global x.1.1 ⊆ nm_gvars m') xs ∧
    nm_funcs m ⊆ nm_funcs m' ∧ nm_gvars m ⊆ nm_gvars m'.
Proof.
  induction l as [|f l IH]; intros m h ss m' Hr H.
  - injection H as <- <-. exists [], h. split_and!; try done; constructor.
  - cbn [p_map] in H. unfold mthen at 1 in H.
    match type of H with context [match ?c m with _ => _ end] => destruct (c m) as [r m1] eqn:E end.
    destruct r as [s| | |]; try done.
    apply (one_function _ _ _ _ _ Hr) in E as (ν & ts & h1 & F1 & F2 & F3 & F4 & F5 & F6 & F7).
    unfold mthen in H at 1.
    match type of H with context [match ?c m1 with _ => _ end] => destruct (c m1) as [r m2] eqn:E2 end.
    destruct r as [ss'| | |]; try done. injection H as <- <-.
    apply (IH _ _ _ _ F3) in E2 as (xs & h2 & G1 & G2 & G3 & G4 & G5 & G6 & G7).
    exists ((ν, ts, s) :: xs), h2. split_and!; try done.
    + simpl. by f_equal.
    + by constructor.
    + by constructor.
    + constructor; [|done]. split; by etrans.
    + by etrans.
    + by etrans.
Qed.

Lemma one_global v m h s m' : reached G h m → nm_in_func m = false →
  l_global p v m = (Rok s, m') →
  ∃ h', reached G h' m' ∧ nm_in_func m' = false ∧
    global_text (naming_of m') p v s ∧ nle (naming_of m) (naming_of m').
Proof.
  intros Hr Hin H. unfold l_global in H. unfold mthen, p_some in H.
  destruct (p_values p !! v) as [d|] eqn:Hv; [|done].
  destruct (v_kind d) as [| | | | | | |i| | | | | | | | |] eqn:Ek; try done.
  destruct (p_values p !! i) as [e|] eqn:Hi; [|done].
  destruct (p_value_name v d m) as [r m1] eqn:Hn. destruct r as [n| | |]; try done.
  unfold l_const in H. destruct (llvm_const _ _ _ _) as [c| | |] eqn:Hc; try done.
  injection H as <- <-.
  unfold p_value_name in Hn. rewrite Ek in Hn. cbn [is_const is_global_alloc] in Hn.
  unfold p_name in Hn. destruct (value_name true v (v_name d) m) as [[n' m2]|] eqn:Hx; [|done].
  injection Hn as <- <-.
  assert (Hs : serve_names [QGlobal v (v_name d)] m = Some ([(QGlobal v (v_name d), Some n')], m2)).
  { simpl. by rewrite Hx. }
  assert (Ho : inner G (QGlobal v (v_name d))).
  { split_and!; try done. intros x Hx'. exact (G_global p v d x Hv Hx'). }
  exists (h ++ [(QGlobal v (v_name d), Some n')]). split_and!.
  - eapply reached_more; [done|exact Hs| |by rewrite Hin].
    constructor; [by apply inner_outer|constructor].
  - by rewrite (serve_names_scope _ _ _ _ Hs).
  - exists d, i, e, n', c. split_and!; try done.
    + simpl. unfold value_name in Hx. destruct (nm_gvars m !! v) eqn:Eg.
      * by injection Hx as <- <-.
      * apply bind_Some in Hx as ([[n1 id] ns] & _ & Hx). injection Hx as <- <-. simpl.
        by rewrite lookup_insert.
    + by eapply llvm_const_ok.
  - eapply serve_names_nle; [|exact Hs]. constructor; [exact Ho|constructor].
Qed.
Lemma global_text_mono ν ν' v s : nv_global ν ⊆ nv_global ν' → global_text ν p v s → global_text ν' p v s.
Proof.
  intros Hn (d & i & e & n & c & H1 & H2 & H3 & H4 & H5 & ->). exists d, i, e, n, c.
  split_and!; try done. by eapply lookup_weaken.
Qed.

Lemma all_globals l : ∀ m h ss m', reached G h m → nm_in_func m = false →
  p_map (l_global p) l m = (Rok ss, m') →
  ∃ h', reached G h' m' ∧ nm_in_func m' = false ∧
    Forall2 (global_text (naming_of m') p) l ss ∧ nle (naming_of m) (naming_of m').
Proof.
  induction l as [|v l IH]; intros m h ss m' Hr Hin H.
  - injection H as <- <-. exists h. by split_and!.
  - cbn [p_map] in H. unfold mthen in H. destruct (l_global p v m) as [r m1] eqn:E1.
    destruct r as [s| | |]; try done. destruct (p_map _ l m1) as [r m2] eqn:E2.
    destruct r as [ss'| | |]; try done. injection H as <- <-.
    apply (one_global _ _ _ _ _ Hr Hin) in E1 as (h1 & A1 & A2 & A3 & A4).
    apply (IH _ _ _ _ A1 A2) in E2 as (h2 & B1 & B2 & B3 & B4).
    exists h2. split_and!; try done.
    + constructor; [|done]. eapply global_text_mono; [|done]. apply (nle_global _ _ B4).
    + by eapply nle_trans.
Qed.

Theorem program_text txt : llvm_program ord p = Rok txt →
  ∃ l, llvm_text (naming_of (l_program ord p nm0).2) p l txt ∧ Forall (fun_at p) l.
Proof.
  unfold llvm_program. destruct (l_program ord p nm0) as [r m'] eqn:H. simpl. intros ->.
  unfold l_program in H. unfold mthen at 1 in H. unfold p_prefix in H at 1.
  set (m0 := set_prefix global_prefix nm0) in *.
  assert (Hr0 : reached G [(QPrefix global_prefix, None)] m0).
  { eapply (reached_more _ [] _ [QPrefix global_prefix]); [apply reached_nm0|done| |done].
    constructor; [|constructor]. split; [|done]. intros ? [= <-]. by left. }
  unfold mthen in H at 1. destruct (p_map (l_global p) (p_inst_layout p) m0) as [r m1] eqn:E1.
  destruct r as [gs| | |]; try done.
  apply (all_globals _ _ _ _ _ Hr0) in E1 as (h1 & A1 & A2 & A3 & A4); [|done].
  unfold mthen in H at 1.
  match type of H with context [match ?c m1 with _ => _ end] => destruct (c m1) as [r m2] eqn:E2 end.
  destruct r as [fs| | |]; try done. injection H as <- <-.
  apply (all_functions _ _ _ _ _ A1) in E2 as (xs & h2 & G1 & G2 & G3 & G4 & G5 & G6 & G7).
  exists xs. split; [|done]. exists gs. split_and!; try done.
  - clear -A3 G7. induction A3; constructor; [|done]. eapply (global_text_mono (naming_of m1)); [exact G7|done].
  - rewrite G1. done.
Qed.
End program.

(** ** Names *)
Definition llvm_prefixes : list prefix := [PDefault; global_prefix; local_prefix].

Definition tempish (c : ascii) : Prop := c = "$"%char ∨ is_digit_char c.
Lemma temp_tail ps s : ps = llvm_prefixes → temp_like ps s →
  ∃ c t, s = String c t ∧ Forall tempish (list_ascii_of_string t).
Proof.
  intros -> (p & k & Hp & ->).
  assert (Hk : Forall tempish (list_ascii_of_string (pretty k))).
  { eapply list.Forall_impl; [apply pretty_N_digits|]. intros c Hc. by right. }
  unfold llvm_prefixes in Hp. rewrite !elem_of_cons in Hp.
  destruct Hp as [->|[->|[->|Hp]]]; [| | |by apply elem_of_nil in Hp]; simpl.
  - exists "%"%char, (pretty k). done.
  - exists "@"%char, (String "$" (pretty k)). split; [done|]. simpl. constructor; [by left|done].
  - exists "%"%char, (String "$" (pretty k)). split; [done|]. simpl. constructor; [by left|done].
Qed.
Lemma get_elem s : ∀ i c, String.get i s = Some c → c ∈ list_ascii_of_string s.
Proof.
  induction s as [|x s IH]; intros [|i] c H; simpl in *; try done.
  - injection H as ->. by left.
  - right. by eapply IH.
Qed.
Lemma temp_get ps s i c : ps = llvm_prefixes → temp_like ps s → (1 ≤ i)%nat → String.get i s = Some c →
  tempish c.
Proof.
  intros E Ht Hi Hg. destruct (temp_tail _ _ E Ht) as (x & t & -> & HF).
  destruct i as [|i]; [lia|]. simpl in Hg. eapply list.Forall_forall; [exact HF|].
  by eapply get_elem.
Qed.
Lemma llvm_temps_distinct : temps_distinct llvm_prefixes.
Proof.
  assert (Hinj : ∀ a b : N, pretty a = pretty b → a = b) by (intros a b; apply (inj pretty)).
  assert (Hd : ∀ (a : N) t, pretty a ≠ String "$" t).
  { intros a t E. pose proof (pretty_N_digits a) as HF. rewrite E in HF. simpl in HF.
    apply list.Forall_cons in HF as [HF _]. vm_compute in HF. by destruct HF as [HF _]. }
  intros p p' k k' Hp Hp'. unfold llvm_prefixes in Hp, Hp'. rewrite !elem_of_cons in Hp, Hp'.
  destruct Hp as [->|[->|[->|Hp]]]; [| | |by apply elem_of_nil in Hp];
  (destruct Hp' as [->|[->|[->|Hp']]]; [| | |by apply elem_of_nil in Hp']); simpl; intros E;
  try discriminate E; injection E as E; try (by apply Hinj); exfalso.
  - by eapply Hd.
  - symmetry in E. by eapply Hd.
Qed.

Lemma get_truncate n s s' i c :
  truncate n s = Some s' → (i < n)%nat → String.get i s = Some c → String.get i s' = Some c.
Proof.
  unfold truncate. intros H Hi Hg. destruct (String.length s <=? n)%nat; [by injection H as <-|].
  destruct (is_boundary s n); [|done]. injection H as <-.
  rewrite substring_correct1 by done. by rewrite Nat.add_0_r.
Qed.
Lemma plain_prefixed p n s : p ∈ llvm_prefixes → plain n → prefix_name p n = Some s →
  ∃ i c, (1 ≤ i)%nat ∧ String.get i s = Some c ∧ ¬ tempish c.
Proof.
  intros Hp (c & i & Hi & Hg & Hc1 & Hc2) Hs.
  assert (Hc : ¬ tempish c) by (intros [?|?]; done).
  destruct n as [|c0 rest]; [by destruct i|]. destruct i as [|i]; [lia|]. simpl in Hg.
  assert (HC : ∀ sg, prefix_name (PCustom (String sg "") (String sg "$") (Some 513)) (String c0 rest) = Some s →
    ∃ i c, (1 ≤ i)%nat ∧ String.get i s = Some c ∧ ¬ tempish c).
  { intros sg H. cbn [prefix_name] in H. apply bind_Some in H as (n1 & Hn1 & Ht).
    destruct (Ascii.eqb c0 "@"); [|destruct (is_boundary _ _); [|done]]; injection Hn1 as <-.
    - exists (S i), c. split; [lia|]. split; [|done]. eapply get_truncate; [exact Ht|lia|done].
    - exists (S (S i)), c. split; [lia|]. split; [|done]. eapply get_truncate; [exact Ht|lia|done]. }
  unfold llvm_prefixes in Hp. rewrite !elem_of_cons in Hp.
  destruct Hp as [->|[->|[->|Hp]]]; [| | |by apply elem_of_nil in Hp].
  - injection Hs as <-. exists (S i), c. split; [lia|]. done.
  - by apply (HC "@"%char).
  - by apply (HC "%"%char).
Qed.
Lemma numbered_not_temp s (j : N) : s ≠ "" → ¬ temp_like llvm_prefixes (s +:+ "_" +:+ pretty j).
Proof.
  intros Hs Ht. destruct (temp_tail _ _ eq_refl Ht) as (c & t & E & HF).
  destruct s as [|c0 s]; [done|]. injection E as -> E.
  change (s +:+ "_" +:+ pretty j = t) in E. rewrite <- E, !list_ascii_app in HF.
  apply list.Forall_app in HF as [_ HF]. simpl in HF. apply list.Forall_cons in HF as [[HF|HF] _]; [done|].
  vm_compute in HF. destruct HF as [_ HF]. by apply HF.
Qed.

Lemma outer_req_ok (G : string → Prop) r : (∀ n, G n → plain n) → outer G r → req_ok llvm_prefixes r.
Proof.
  intros HG [H1 H2]. split.
  - intros p Hp. destruct (H1 p Hp) as [-> | ->]; unfold llvm_prefixes; set_solver.
  - intros n p s Hn Hp Hs. destruct (plain_prefixed p n s Hp (HG _ (H2 _ Hn)) Hs) as (i & c & Hi & Hg & Hc).
    split.
    + intros Ht. eapply Hc, temp_get; [done|done|done|done].
    + intros j. apply numbered_not_temp. intros ->. by destruct i.
Qed.

(** The temporary names among the live names *)
Lemma live_app i h1 h2 L : live i (h1 ++ h2) L = live (i + length h1) h2 (live i h1 L).
Proof.
  revert i L. induction h1 as [|[r a] h1 IH]; intros i L; cbn [length app live].
  - by rewrite Nat.add_0_r.
  - rewrite IH. by rewrite Nat.add_succ_r.
Qed.
Lemma live_old i h L e s : is_scoped e = false → (e, s) ∈ L → (e, s) ∈ live i h L.
Proof.
  revert i L. induction h as [|[r a] h IH]; intros i L He Hin; [done|].
  cbn [live]. apply IH; [done|]. destruct r; try (apply elem_of_list_filter; by split);
    destruct (asked _ _); try done; destruct a; try done; by right.
Qed.
Lemma temps_live h : ∀ i L k s, temps_of h !! k = Some s →
  ∃ j, (i ≤ j)%nat ∧ (ETemp j, s) ∈ live i h L ∧
    ∀ k' s', (k < k')%nat → temps_of h !! k' = Some s' → ∃ j', (j < j')%nat ∧ (ETemp j', s') ∈ live i h L.
Proof.
  induction h as [|[r a] h IH]; intros i L k s Hk; [done|].
  assert (Hc : temps_of ((r, a) :: h) = match r, a with QTemp, Some x => x :: temps_of h | _, _ => temps_of h end).
  { unfold temps_of. by destruct r, a. }
  rewrite Hc in Hk |- *. cbn [live].
  assert (Hother : ∀ L', temps_of h !! k = Some s →
    ∃ j, (i ≤ j)%nat ∧ (ETemp j, s) ∈ live (S i) h L' ∧
    ∀ k' s', (k < k')%nat → temps_of h !! k' = Some s' → ∃ j', (j < j')%nat ∧ (ETemp j', s') ∈ live (S i) h L').
  { intros L' H. destruct (IH (S i) L' k s H) as (j & H1 & H2 & H3). exists j. split; [lia|]. done. }
  destruct r; try (by apply Hother). destruct a as [x|]; [|by apply Hother].
  destruct k as [|k].
  - injection Hk as ->. exists i. split; [done|]. split.
    + apply live_old; [done|]. by left.
    + intros [|k'] s' Hk' Hs'; [lia|]. simpl in Hs'.
      destruct (IH (S i) ((ETemp i, s) :: L) k' s' Hs') as (j & H1 & H2 & H3).
      exists j. split; [lia|done].
  - simpl in Hk. destruct (IH (S i) ((ETemp i, x) :: L) k s Hk) as (j & H1 & H2 & H3).
    exists j. split; [lia|]. split; [done|]. intros [|k'] s' Hk' Hs'; [lia|].
    destruct (H3 k' s') as (j' & ? & ?); [lia|done|]. by exists j'.
Qed.

Theorem function_names_differ p x : (∀ n, named_in p n → plain n) → fun_at p x →
  names_differ x.1.1 x.1.2.
Proof.
  intros HG (h & m & t & (rs & Hs & Hw & HF) & Hin & -> & Ht).
  pose proof (inv1_run _ 0 [] nm0 _ _ inv1_nm0 Hw Hs) as I1.
  assert (I2 : inv2 llvm_prefixes (live_names h) m).
  { eapply inv2_run; [apply llvm_temps_distinct| |apply inv1_nm0|apply inv2_nm0|exact Hw|exact Hs].
    - eapply list.Forall_impl; [exact HF|]. intros r. by apply outer_req_ok.
    - unfold llvm_prefixes. set_solver. }
  simpl in I1. set (L := live_names h) in *.
  assert (Hnd : NoDup (temps_of h)).
  { apply NoDup_alt. intros i j s Hi Hj.
    assert (Hlt : ∀ a b, (a < b)%nat → temps_of h !! a = Some s → temps_of h !! b = Some s → False).
    { intros a b Hab Ha Hb. destruct (temps_live h 0 [] a s Ha) as (j1 & _ & K2 & K3).
      destruct (K3 b s Hab Hb) as (j2 & K4 & K5).
      pose proof (i2_inj _ _ _ I2 _ _ _ K2 K5 eq_refl) as E. injection E as ->. lia. }
    destruct (Nat.lt_trichotomy i j) as [?|[?|?]]; [|done|]; exfalso; by eapply Hlt. }
  assert (HT : ∀ s, s ∈ x.1.2 → ∃ j, (ETemp j, s) ∈ L).
  { intros s Hx. assert (Hx2 : s ∈ temps_of h) by (rewrite Ht; apply elem_of_app; by right).
    apply elem_of_list_lookup in Hx2 as [k Hk].
    destruct (temps_live h 0 [] k s Hk) as (j & _ & K & _). by exists j. }
  assert (Df : ∀ e e' s, (e, s) ∈ L → (e', s) ∈ L → is_block e = is_block e' → e = e')
    by apply (i2_inj _ _ _ I2).
  assert (If : ∀ v s, nm_funcs m !! v = Some s → (EFunc v, s) ∈ L) by (intros; by apply (i1_funcs _ _ _ I1)).
  assert (Ig : ∀ v s, nm_gvars m !! v = Some s → (EGlobal v, s) ∈ L) by (intros; by apply (i1_gvars _ _ _ I1)).
  assert (Ib : ∀ v s, nm_bbs m !! v = Some s → (EBlock v, s) ∈ L) by (intros; by apply (i1_bbs _ _ _ I1)).
  assert (Il : ∀ v s, nm_values m !! v = Some s → (ELocal v, s) ∈ L) by (intros; by apply (i1_values _ _ _ I1)).
  unfold names_differ, one_name, no_clash. cbn [naming_of nv_fun nv_global nv_local nv_block].
  split_and!.
  - intros a b n Ha Hb. apply If in Ha, Hb. by injection (Df _ _ _ Ha Hb eq_refl).
  - intros a b n Ha Hb. apply Ig in Ha, Hb. by injection (Df _ _ _ Ha Hb eq_refl).
  - intros a b n Ha Hb. apply Il in Ha, Hb. by injection (Df _ _ _ Ha Hb eq_refl).
  - intros a b n Ha Hb. apply Ib in Ha, Hb. by injection (Df _ _ _ Ha Hb eq_refl).
  - intros a b n Ha Hb. apply If in Ha. apply Ig in Hb. discriminate (Df _ _ _ Ha Hb eq_refl).
  - intros a b n Ha Hb. apply If in Ha. apply Il in Hb. discriminate (Df _ _ _ Ha Hb eq_refl).
  - intros a b n Ha Hb. apply Ig in Ha. apply Il in Hb. discriminate (Df _ _ _ Ha Hb eq_refl).
  - rewrite Ht in Hnd. by apply list.NoDup_app in Hnd as (_ & _ & ?).
  - intros s Hsx. destruct (HT s Hsx) as (j & Hj). intros a. split_and!; intros Ha.
    + apply If in Ha. discriminate (Df _ _ _ Hj Ha eq_refl).
    + apply Ig in Ha. discriminate (Df _ _ _ Hj Ha eq_refl).
    + apply Il in Ha. discriminate (Df _ _ _ Hj Ha eq_refl).
Qed.
