(** Proofs about the LLVM generator. *)
From Verif Require Import Base IdModel TypeModel IrModel LayoutModel DfgSpec UsesSpec LayoutSpec
  TypeProofs NameModel NameSpec NameProofs LexerModel TextModel KoopaModel LlvmModel LlvmSpec PrintProofs.
From Coq Require Import Lia.

(** ** Types and constants *)
Lemma llvm_ty_lty : ∀ t, lty t (llvm_ty t).
Proof.
  fix IH 1. intros [| |b n|b|ps r].
  - constructor.
  - constructor.
  - apply (lty_array b n). apply IH.
  - apply (lty_ptr b). apply IH.
  - apply (lty_fun ps r (map llvm_ty ps)); [|apply IH].
    revert ps. fix IHp 1. intros [|p ps]; constructor; [apply IH|apply IHp].
Qed.
Lemma map_lty ts : Forall2 lty ts (map llvm_ty ts).
Proof. induction ts; constructor; [apply llvm_ty_lty|done]. Qed.
Lemma typed_as_ok (typed : bool) d n :
  typed_as typed (v_ty d) n (if typed then (llvm_ty (v_ty d) ++ " " ++ n)%string else n).
Proof. destruct typed; [|done]. eexists. split; [apply llvm_ty_lty|done]. Qed.
Lemma sapp_assoc (a b c : string) : ((a +:+ b) +:+ c = a +:+ (b +:+ c))%string.
Proof. induction a as [|x a IH]; [done|]. exact (f_equal (String x) IH). Qed.
Lemma sapp_nil (a : string) : a +:+ "" = a.
Proof. induction a as [|x a IH]; [done|]. exact (f_equal (String x) IH). Qed.
Lemma typed_as_pre (typed : bool) d n :
  typed_as typed (v_ty d) n ((if typed then (llvm_ty (v_ty d) ++ " ")%string else EmptyString) ++ n)%string.
Proof.
  destruct typed; [|done]. eexists. split; [apply llvm_ty_lty|]. by rewrite sapp_assoc.
Qed.

Lemma res_map_ok {A} (f : A → res string) l ss :
  res_map f l = Rok ss → Forall2 (λ x s, f x = Rok s) l ss.
Proof.
  revert ss. induction l as [|x l IH]; intros ss H; simpl in H.
  - injection H as <-. constructor.
  - destruct (f x) eqn:E; try done. destruct (res_map f l) as [ss'| | |]; try done.
    injection H as <-. constructor; [done|]. by apply IH.
Qed.
Lemma llvm_const_ok fuel : ∀ m typed d s, llvm_const fuel m typed d = Rok s → lconst m typed d s.
Proof.
  induction fuel as [|fuel IH]; intros m typed d s H; cbn [llvm_const] in H;
    destruct (v_kind d) as [| | |elems|i|i| | | | | | | | | | | ] eqn:E; try discriminate H.
  all: try (injection H as <-; first
    [ eapply lc_int; [done|]; apply typed_as_pre
    | eapply lc_zero; [done|]; apply typed_as_pre
    | eapply lc_undef; [done|]; apply typed_as_pre ]).
  destruct (res_map _ _) as [ss| | |] eqn:Er; try discriminate H. injection H as <-.
  apply res_map_ok in Er. eapply lc_aggregate; [done| |apply typed_as_pre].
  eapply Forall2_impl; [done|]. simpl. intros v x Hx.
  destruct (m !! v) as [e|] eqn:Ev; [|done]. eauto.
Qed.

(** ** More names *)
Lemma value_called_mono ν ν' v d n : nle ν ν' → value_called ν v d n → value_called ν' v d n.
Proof.
  intros [_ H1 H2 _] [Hc H]. split; [done|].
  destruct (is_global_alloc (v_kind d)); by eapply lookup_weaken.
Qed.
Lemma operand_mono ν ν' p fd t v s : nle ν ν' → operand ν p fd t v s → operand ν' p fd t v s.
Proof.
  intros Hn [d n H1 H2 H3 H4|d n H1 H2 H3 H4|d H1 H2 H3 H4].
  - eapply o_global; [done|done|by eapply value_called_mono|done].
  - eapply o_local; [done|done|by eapply value_called_mono|done].
  - by eapply o_const.
Qed.
Lemma operands_mono ν ν' p fd t l ss :
  nle ν ν' → Forall2 (operand ν p fd t) l ss → Forall2 (operand ν' p fd t) l ss.
Proof. intros Hn. induction 1; constructor; [by eapply operand_mono|done]. Qed.
Lemma block_mono ν ν' b n : nle ν ν' → nv_block ν !! b = Some n → nv_block ν' !! b = Some n.
Proof. intros [] H. by eapply lookup_weaken. Qed.
Lemma fun_mono ν ν' f n : nle ν ν' → nv_fun ν !! f = Some n → nv_fun ν' !! f = Some n.
Proof. intros [] H. by eapply lookup_weaken. Qed.
Lemma defines_mono ν ν' v d s : nle ν ν' → defines ν v d s → defines ν' v d s.
Proof.
  intros Hn H. unfold defines in *. destruct (is_unit _); [done|].
  destruct H as (n & H & ->). exists n. split; [by eapply value_called_mono|done].
Qed.
Lemma inst_lines_mono ν ν' p fd v d ts ls :
  nle ν ν' → inst_lines ν p fd v d ts ls → inst_lines ν' p fd v d ts ls.
Proof.
  intros Hn H. destruct H.
  - eapply il_alloc; eauto using defines_mono.
  - eapply il_load; eauto using defines_mono, operand_mono.
  - eapply il_store; eauto using defines_mono, operand_mono.
  - eapply il_getptr; eauto using defines_mono, operand_mono.
  - eapply il_getelemptr; eauto using defines_mono, operand_mono.
  - eapply il_compute; eauto using value_called_mono, operand_mono.
  - eapply il_compare; eauto using value_called_mono, operand_mono.
  - eapply il_branch; eauto using defines_mono, operand_mono, block_mono.
  - eapply il_jump; eauto using defines_mono, block_mono.
  - eapply il_call; eauto using defines_mono, fun_mono.
    eapply Forall2_impl; [done|]. eauto using operand_mono.
  - eapply il_ret_void; eauto using defines_mono.
  - eapply il_ret; eauto using defines_mono, operand_mono.
Qed.

(** ** What the methods of the visitor say *)
(** The method asks for no temporary name and its result is described by [T]. *)
Definition writes {A} (T : naming → A → Prop) : naming → list string → A → Prop :=
  λ ν ts a, ts = [] ∧ T ν a.
Lemma mono_writes {A} (T : naming → A → Prop) :
  (∀ ν ν' a, nle ν ν' → T ν a → T ν' a) → mono (writes T).
Proof. intros H ν ν' ts a Hn [? ?]. split; [done|]. by eapply H. Qed.
Lemma says_one {A B} G (T : naming → A → Prop) (U : A → naming → list string → B → Prop) c k :
  (∀ ν ν' a, nle ν ν' → T ν a → T ν' a) → says G (writes T) c → (∀ a, says G (U a) (k a)) →
  says G (λ ν ts b, ∃ a, T ν a ∧ U a ν ts b) (mthen c k).
Proof.
  intros HT Hc Hk. eapply says_weaken; [apply says_then; [by apply mono_writes|done|done]|].
  intros ν ts b (a & t1 & t2 & -> & [-> H1] & H2). by eauto.
Qed.
(** A lookup that is known to succeed if the method does *)
Lemma says_look {A B} G (o : option A) (U : naming → list string → B → Prop) k :
  (∀ a, o = Some a → says G U (k a)) → says G U (mthen (p_some o) k).
Proof.
  intros Hk m r m' H. unfold mthen, p_some in H. destruct o as [a|].
  - by eapply Hk.
  - injection H as <- <-. exists [], []. split; [done|]. split; [constructor|done].
Qed.
Lemma says_look_ex {A B} G (o : option A) (U : A → naming → list string → B → Prop) k :
  (∀ a, says G (U a) (k a)) → says G (λ ν ts b, ∃ a, o = Some a ∧ U a ν ts b) (mthen (p_some o) k).
Proof.
  intros Hk. apply says_look. intros a ->. eapply says_weaken; [apply Hk|].
  intros ν ts b H. by exists a.
Qed.
Lemma says_none {A} G (U : naming → list string → A → Prop) : says G U (p_some None).
Proof.
  intros m r m' [= <- <-]. exists [], []. split; [done|]. split; [constructor|done].
Qed.

Lemma says_done {A} G (a : A) : says G (writes (λ _ s, s = a)) (mok a).
Proof. by apply says_ok. Qed.

Section program.
Context (p : program).
Notation G := (named_in p).

Lemma G_global v d x : p_values p !! v = Some d → v_name d = Some x → G x.
Proof. intros. left. eauto. Qed.
Lemma G_local f fd v d x :
  p_funcs p !! f = Some fd → vals fd !! v = Some d → v_name d = Some x → G x.
Proof. intros. right. eauto 10. Qed.
Lemma G_block f fd v d x :
  p_funcs p !! f = Some fd → blks fd !! v = Some d → bb_name d = Some x → G x.
Proof. intros. right. eauto 10. Qed.

Lemma says_func f : says G (writes (λ ν s, nv_fun ν !! f = Some s)) (p_func_name p f).
Proof.
  unfold p_func_name. apply says_look. intros fd Hf. apply says_func_name. right. eauto.
Qed.

Section function.
Context (f : func) (fd : fdata) (Hf : p_funcs p !! f = Some fd).

Lemma says_bb b : says G (writes (λ ν s, nv_block ν !! b = Some s)) (p_bb_name fd b).
Proof.
  unfold p_bb_name. apply says_look. intros bd Hb. apply says_bb_name_.
  intros x. by eapply G_block.
Qed.
Lemma says_const m typed d : says G (writes (λ _ s, lconst m typed d s)) (l_const m typed d).
Proof.
  intros s r s' H. unfold l_const in H.
  apply pair_equal_spec in H as [Hr <-]. exists [], [].
  split; [done|]. split; [constructor|]. intros a ->. split; [done|]. by eapply llvm_const_ok.
Qed.
Lemma says_local v d : vals fd !! v = Some d →
  says G (writes (λ ν s, value_called ν v d s)) (p_value_name v d).
Proof. intros Hd. apply says_value_name. intros x. by eapply G_local. Qed.

Lemma says_value typed v : says G (writes (λ ν s, operand ν p fd typed v s)) (l_value p fd typed v).
Proof.
  unfold l_value. destruct (is_global_id v) eqn:Eg; apply says_look; intros d Hd;
    destruct (is_const (v_kind d)) eqn:Ec.
  - apply says_none.
  - eapply says_weaken; [apply says_one; [|apply says_value_name; intros x; by eapply G_global|]|].
    + intros ν ν' n. apply value_called_mono.
    + intros n. apply says_done.
    + intros ν ts s (n & Hn & -> & ->). split; [done|].
      eapply o_global; [done|done|done|apply typed_as_ok].
  - eapply says_weaken; [apply says_const|]. intros ν ts s [-> H]. split; [done|].
    by eapply o_const.
  - eapply says_weaken; [apply says_one; [|by apply says_local|]|].
    + intros ν ν' n. apply value_called_mono.
    + intros n. apply says_done.
    + intros ν ts s (n & Hn & -> & ->). split; [done|].
      eapply o_local; [done|done|done|apply typed_as_ok].
Qed.

Lemma says_values typed l :
  says G (writes (λ ν ss, Forall2 (operand ν p fd typed) l ss)) (p_map (l_value p fd typed) l).
Proof.
  eapply says_weaken; [apply (says_map _ (λ v, writes (λ ν s, operand ν p fd typed v s)))|].
  - intros v. apply mono_writes. intros ν ν' s. apply operand_mono.
  - intros v _. apply says_value.
  - simpl. intros ν ts ss (tss & -> & Hl & HF).
    revert tss Hl HF. revert l. induction ss as [|s ss IH]; intros l [|t tss] Hl HF; simpl in *; try lia.
    + inversion HF. split; [done|constructor].
    + inversion HF as [|v [t' s'] l' z [Ht Ho] HF']; subst. simpl in *. subst.
      destruct (IH l' tss) as [E1 E2]; [lia|done|]. split; [done|]. by constructor.
Qed.

(** The text of an instruction after its definition *)
Definition body_of (v : value) (d : vdata) : naming → list string → string → Prop := λ ν ts s,
  ∀ ν' x, nle ν ν' → (if is_binary (v_kind d) then x = "" else defines ν' v d x) →
    ∃ ls, inst_lines ν' p fd v d ts ls ∧ ("  " +:+ x +:+ s +:+ newline)%string = lines ls.
Lemma body_of_mono v d : mono (body_of v d).
Proof. intros ν ν' ts s Hn H ν2 x Hn2. apply H. by eapply nle_trans. Qed.

Lemma line1 (x s : string) : ("  " +:+ x +:+ s +:+ newline)%string = lines [(x +:+ s)%string].
Proof. unfold lines. simpl. by rewrite !sapp_assoc, sapp_nil. Qed.

Lemma says_base_ty v : says G (writes (λ _ t, points_to p fd v t)) (l_base_ty p fd v).
Proof.
  unfold l_base_ty. apply says_look. intros d Hd.
  destruct (v_ty d) as [| | |b|] eqn:Et; try apply says_none.
  apply says_ok. intros ν. split; [done|]. by exists d.
Qed.
Lemma llvm_op_ok op :
  if is_compare op then compares op = Some (llvm_op op) else computes op = Some (llvm_op op).
Proof. by destruct op. Qed.

Lemma says_content v d : vals fd !! v = Some d → says G (body_of v d) (l_content p fd v d).
Proof.
  intros Hd. unfold l_content, body_of.
  destruct (v_kind d) as [| | |elems|i|i| |i|src|x dest|src idx|src idx|op l r|c t e ta ea|t args|callee args|[x|]]
    eqn:Ek; try apply says_none; cbn [is_binary].
  - destruct (v_ty d) as [| | |b|] eqn:Et; try apply says_none.
    apply says_ok. intros ν ν' x Hn Hx. eexists. split; [|apply line1].
    eapply il_alloc; [done|done|done|apply llvm_ty_lty].
  - eapply says_weaken; [apply says_one; [|apply says_value|intros a; apply says_done]|].
    { intros ν ν' a. apply operand_mono. }
    intros ν ts s (a & Ha & -> & ->) ν' x Hn Hx. eexists. split; [|apply line1].
    eapply il_load; [done|done|apply llvm_ty_lty|by eapply operand_mono].
  - eapply says_weaken; [apply says_one; [|apply says_value|intros a; apply says_one;
      [|apply says_value|intros b; apply says_done]]|].
    { intros ν ν' a. apply operand_mono. } { intros ν ν' b. apply operand_mono. }
    intros ν ts s (a & Ha & b & Hb & -> & ->) ν' y Hn Hx. eexists. split; [|apply line1].
    eapply il_store; [done|done|by eapply operand_mono|by eapply operand_mono].
  - eapply says_weaken; [apply says_one; [|apply says_base_ty|intros t; apply says_one;
      [|apply says_value|intros a; apply says_one; [|apply says_value|intros b; apply says_done]]]|].
    { done. } { intros ν ν' a. apply operand_mono. } { intros ν ν' b. apply operand_mono. }
    intros ν ts s (t & Ht & a & Ha & b & Hb & -> & ->) ν' y Hn Hx. eexists. split; [|apply line1].
    eapply il_getptr; [done|done|done|apply llvm_ty_lty|by eapply operand_mono|by eapply operand_mono].
  - eapply says_weaken; [apply says_one; [|apply says_base_ty|intros t; apply says_one;
      [|apply says_value|intros a; apply says_one; [|apply says_value|intros b; apply says_done]]]|].
    { done. } { intros ν ν' a. apply operand_mono. } { intros ν ν' b. apply operand_mono. }
    intros ν ts s (t & Ht & a & Ha & b & Hb & -> & ->) ν' y Hn Hx. eexists. split; [|apply line1].
    eapply il_getelemptr; [done|done|done|apply llvm_ty_lty|by eapply operand_mono|by eapply operand_mono].
  - pose proof (llvm_op_ok op) as Hop. destruct (is_compare op).
    + eapply says_weaken; [apply says_then; [|apply says_temp_name|intros t; apply says_one;
        [|apply says_value|intros a; apply says_one; [|apply says_value|intros b; apply says_one;
        [|by apply says_local|intros n; apply says_done]]]]|].
      { by intros ???? _. } { intros ν ν' a. apply operand_mono. } { intros ν ν' b. apply operand_mono. }
      { intros ν ν' n. apply value_called_mono. }
      intros ν ts s (t & t1 & t2 & -> & -> & a & Ha & b & Hb & n & Hv & -> & ->) ν' x Hn ->.
      eexists. split.
      * eapply il_compare; [done|done|by eapply value_called_mono|by eapply operand_mono|by eapply operand_mono].
      * unfold lines. cbn [map foldr]. rewrite !sapp_assoc, sapp_nil. reflexivity.
    + eapply says_weaken; [apply says_one; [|by apply says_local|intros n; apply says_one;
        [|apply says_value|intros a; apply says_one; [|apply says_value|intros b; apply says_done]]]|].
      { intros ν ν' n. apply value_called_mono. }
      { intros ν ν' a. apply operand_mono. } { intros ν ν' b. apply operand_mono. }
      intros ν ts s (n & Hv & a & Ha & b & Hb & -> & ->) ν' x Hn ->.
      eexists. split; [|apply line1].
      eapply il_compute; [done|done|by eapply value_called_mono|by eapply operand_mono|by eapply operand_mono].
  - eapply says_weaken; [apply says_then; [|apply says_temp_name|intros n; apply says_one;
      [|apply says_value|intros a; apply says_one; [|apply says_bb|intros b1; apply says_one;
      [|apply says_bb|intros b2; apply says_done]]]]|].
    { by intros ???? _. } { intros ν ν' a. apply operand_mono. } { intros ν ν' b. apply block_mono. }
    { intros ν ν' b. apply block_mono. }
    intros ν ts s (n & t1 & t2 & -> & -> & a & Ha & b1 & H1 & b2 & H2 & -> & ->) ν' x Hn Hx.
    eexists. split.
    + eapply il_branch; [done|done|by eapply operand_mono|by eapply block_mono|by eapply block_mono].
    + unfold lines. cbn [map foldr]. rewrite !sapp_assoc, sapp_nil. reflexivity.
  - eapply says_weaken; [apply says_one; [|apply says_bb|intros a; apply says_done]|].
    { intros ν ν' a. apply block_mono. }
    intros ν ts s (a & Ha & -> & ->) ν' x Hn Hx. eexists. split; [|apply line1].
    eapply il_jump; [done|done|by eapply block_mono].
  - eapply says_weaken; [apply says_one; [|apply says_func|intros n; apply says_one;
      [|apply says_values|intros ss; apply says_done]]|].
    { intros ν ν' n. apply fun_mono. }
    { intros ν ν' ss. apply operands_mono. }
    intros ν ts s (n & H1 & ss & H2 & -> & ->) ν' x Hn Hx. eexists. split; [|apply line1].
    eapply il_call; [done|done|by eapply fun_mono|apply llvm_ty_lty|].
    by eapply operands_mono.
  - eapply says_weaken; [apply says_one; [|apply says_value|intros a; apply says_done]|].
    { intros ν ν' a. apply operand_mono. }
    intros ν ts s (a & Ha & -> & ->) ν' y Hn Hx. eexists. split; [|apply line1].
    eapply il_ret; [done|done|by eapply operand_mono].
  - apply says_ok. intros ν ν' x Hn Hx. eexists. split; [|apply line1].
    by eapply il_ret_void.
Qed.

Lemma says_inst v d : vals fd !! v = Some d →
  says G (λ ν ts s, ∃ ls, inst_lines ν p fd v d ts ls ∧ ("  " +:+ s)%string = lines ls)
    (l_inst p fd v d).
Proof.
  intros Hd. unfold l_inst.
  eapply says_weaken; [apply says_one with (T := λ ν x,
    if is_binary (v_kind d) then x = "" else defines ν v d x); [| |intros x; apply says_then;
    [apply (body_of_mono v d)|by apply says_content|intros s; apply says_done]]|].
  - intros ν ν' x Hn. destruct (is_binary _); [done|]. by apply defines_mono.
  - unfold defines. destruct (is_binary (v_kind d)); simpl; [by apply says_ok|].
    destruct (is_unit (v_ty d)); [by apply says_ok|].
    eapply says_weaken; [apply says_one; [|by apply says_local|intros n; apply says_done]|].
    + intros ν ν' n. apply value_called_mono.
    + intros ν ts s (n & Hn & -> & ->). split; [done|]. by exists n.
  - intros ν ts s (x & Hx & s' & t1 & t2 & -> & Hb & -> & ->). rewrite app_nil_r.
    destruct (Hb ν x (nle_refl ν) Hx) as (ls & H1 & H2). by exists ls.
Qed.

(** ** Blocks *)
Lemma incoming_mono ν ν' b i u s :
  nle ν ν' → incoming ν p fd b i u s → incoming ν' p fd b i u s.
Proof.
  intros Hn (d & v & a & from & n & H1 & H2 & H2' & H3 & H4 & H5 & ->).
  exists d, v, a, from, n. split_and!; try done; [by eapply operand_mono|by eapply block_mono].
Qed.
Lemma phi_line_mono ν ν' b i q s :
  nle ν ν' → phi_line ν p fd b i q s → phi_line ν' p fd b i q s.
Proof.
  intros Hn (d & n & l & us & es & H1 & H2 & H3 & H4 & H5 & H6 & ->).
  exists d, n, l, us, es. split_and!; try done; [by eapply value_called_mono|].
  clear H4 H5. induction H6; constructor; [by eapply incoming_mono|done].
Qed.

Lemma arg_passes b i k v : b ∈ targets k → l_arg b i k = Some v → passes k b i v.
Proof.
  intros Hb H. destruct k as [| | |elems|j|j| |j|src|x dest|src idx|src idx|op l r|c t e ta ea|t args|callee args|[x|]];
    simpl in *; try done.
  - destruct (decide (t = b)) as [->|Ht]; [by constructor|].
    apply elem_of_cons in Hb as [->|Hb]; [done|]. apply elem_of_list_singleton in Hb as ->.
    by constructor.
  - apply elem_of_list_singleton in Hb as ->. by constructor.
Qed.

Lemma passes_one k b i v v' :
  (∀ c t a1 a2, k = KBranch c t t a1 a2 → a1 = [] ∧ a2 = []) →
  passes k b i v → passes k b i v' → v = v'.
Proof.
  intros Hk H1 H2. destruct H1 as [b a j v H|c b b2 a1 a2 j v H|c b1 b a1 a2 j v H];
    inversion H2; subst; try congruence.
  all: destruct (Hk _ _ _ _ eq_refl) as [-> ->]; done.
Qed.

Section block.
Context (Hpar : ∀ u b, parent_bb (f_layout fd) u = Some b ↔ in_block (f_layout fd) u b).
Context (ord : gset value → list value) (Hord : ∀ s, ord s ≡ₚ elements s).
Context (Hap : ∀ u d c t a1 a2, vals fd !! u = Some d → v_kind d = KBranch c t t a1 a2 → a1 = [] ∧ a2 = []).
Context (Huse : ∀ b d, blks fd !! b = Some d → ∀ u, u ∈ bb_used_by d ↔ jumps_to (vals fd) u b).

Lemma says_incoming b i u : jumps_to (vals fd) u b →
  says G (writes (λ ν s, incoming ν p fd b i u s)) (l_incoming p fd b i u).
Proof.
  intros (d' & Hd' & Hb). unfold l_incoming. apply says_look. intros d Hd.
  assert (d' = d) as -> by congruence. clear Hd'.
  apply says_look. intros v Hv.
  eapply says_weaken; [apply says_one; [|apply says_value|intros a; apply says_look_ex; intros from;
    apply says_one; [|apply says_bb|intros n; apply says_done]]|].
  { intros ν ν' a. apply operand_mono. } { intros ν ν' n. apply block_mono. }
  intros ν ts s (a & Ha & from & Hfrom & n & Hn & -> & ->). split; [done|].
  exists d, v, a, from, n. split_and!; try done; [by apply arg_passes| |by apply Hpar].
  intros v' Hv'. eapply passes_one; [|exact Hv'|by apply arg_passes].
  intros. by eapply Hap.
Qed.

Lemma unzip_nil {A B} (R : A → B → Prop) l (tss : list (list string)) ss :
  length tss = length ss →
  Forall2 (λ x (y : list string * B), y.1 = [] ∧ R x y.2) l (zip tss ss) →
  concat tss = [] ∧ Forall2 R l ss.
Proof.
  revert l tss. induction ss as [|s ss IH]; intros l [|t tss] Hl HF; simpl in *; try lia.
  - inversion HF. split; [done|constructor].
  - inversion HF as [|v y l' z [Ht Ho] HF']; subst. simpl in *. subst.
    destruct (IH l' tss) as [E1 E2]; [lia|done|]. split; [done|]. by constructor.
Qed.

Lemma says_phi b bd i q : blks fd !! b = Some bd →
  says G (writes (λ ν s, ∃ l, phi_line ν p fd b i q l ∧ s = ("  " +:+ l +:+ newline)%string))
    (l_phi ord p fd b bd i q).
Proof.
  intros Hb. unfold l_phi. apply says_look. intros d Hd.
  eapply says_weaken; [apply says_one; [|by apply says_local|intros n; apply says_then;
    [|apply (says_map _ (λ u, writes (λ ν s, incoming ν p fd b i u s)))|intros ss; apply says_done]]|].
  - intros ν ν' n. apply value_called_mono.
  - intros ν ν' ts ss Hn (tss & H1 & H2 & H3). exists tss. split; [done|]. split; [done|].
    clear H1 H2. induction H3 as [|? ? ? ? [? ?]]; constructor; [|done]. split; [done|]. by eapply incoming_mono.
  - intros u. apply mono_writes. intros ν ν' s. apply incoming_mono.
  - intros u Hu. apply says_incoming. eapply Huse; [done|].
    rewrite Hord in Hu. by apply elem_of_elements in Hu.
  - intros ν ts s (n & Hn & ss & t1 & t2 & -> & (tss & -> & Hl & HF) & -> & ->).
    apply unzip_nil in HF as [-> HF]; [|done]. split; [done|].
    exists (n +:+ " = phi " +:+ llvm_ty (v_ty d) +:+ " " +:+ sep_comma ss)%string.
    split; [|by rewrite !sapp_assoc].
    exists d, n, (llvm_ty (v_ty d)), (ord (bb_used_by bd)), ss. split_and!; try done.
    + apply llvm_ty_lty.
    + rewrite Hord. apply NoDup_elements.
    + intros u. rewrite Hord, elem_of_elements. by apply Huse.
Qed.

Lemma join_app a b : join (a ++ b) = (join a +:+ join b)%string.
Proof. induction a as [|x a IH]; [done|]. simpl. unfold join in *. simpl. by rewrite IH, sapp_assoc. Qed.
Lemma lines_join l : lines l = join (map (λ s, "  " +:+ s +:+ newline)%string l).
Proof. done. Qed.
Lemma lines_app a b : lines (a ++ b) = (lines a +:+ lines b)%string.
Proof. rewrite !lines_join, map_app. apply join_app. Qed.
Lemma lines_concat l : lines (concat l) = join (map lines l).
Proof. induction l as [|x l IH]; [done|]. simpl. rewrite lines_app, IH. done. Qed.

Lemma says_phis b bd l k : blks fd !! b = Some bd →
  says G (writes (λ ν ss, ∃ ls, ss = map (λ s, "  " +:+ s +:+ newline)%string ls ∧
      length ls = length l ∧
      ∀ (i : nat) q, l !! i = Some q → ∃ x, ls !! i = Some x ∧ phi_line ν p fd b (k + i) q x))
    (p_map (λ x : nat * value, l_phi ord p fd b bd x.1 x.2) (zip (seq k (length l)) l)).
Proof.
  intros Hb. revert k. induction l as [|q l IH]; intros k; cbn [length seq zip_with p_map].
  { apply says_ok. intros ν. split; [done|]. exists []. by split_and!. }
  eapply says_weaken; [apply says_one; [|apply says_phi; exact Hb|intros y; apply says_one;
    [|apply IH|intros ys; apply says_done]]|].
  - intros ν ν' s Hn (x & Hx & ->). exists x. split; [by eapply phi_line_mono|done].
  - intros ν ν' ss Hn (ls & -> & Hl & Hi). exists ls. split_and!; try done.
    intros i z Hz. destruct (Hi i z Hz) as (x & Hx & Hp). exists x. split; [done|by eapply phi_line_mono].
  - intros ν ts ss (y & (x & Hx & ->) & ys & (ls & -> & Hl & Hi) & -> & ->). split; [done|].
    exists (x :: ls). split_and!; [done|simpl; lia|].
    intros [|i] z Hz; simpl in *.
    + injection Hz as <-. exists x. rewrite Nat.add_0_r. done.
    + destruct (Hi i z Hz) as (x' & Hx' & Hp). exists x'. split; [done|].
      by rewrite Nat.add_succ_r.
Qed.

Lemma says_insts insts :
  says G (λ ν ts ss, ∃ tss body, ts = concat tss ∧ length tss = length body ∧
      ss = map lines body ∧
      Forall2 (λ v (y : list string * list string),
        ∃ d, vals fd !! v = Some d ∧ inst_lines ν p fd v d y.1 y.2) insts (zip tss body))
    (p_map (λ v, d <- p_some (vals fd !! v);; s <- l_inst p fd v d;; mok ("  " ++ s)%string) insts).
Proof.
  induction insts as [|v insts IH]; cbn [p_map].
  { apply says_ok. intros ν. exists [], []. split_and!; try done. constructor. }
  eapply says_weaken; [apply (says_then _ (λ ν ts s, ∃ d ls, vals fd !! v = Some d ∧
    inst_lines ν p fd v d ts ls ∧ s = lines ls)); [| |intros y; apply says_then;
    [|apply IH|intros ys; apply says_done]]|].
  - intros ν ν' ts s Hn (d & ls & H1 & H2 & ->). exists d, ls. split_and!; try done.
    by eapply inst_lines_mono.
  - apply says_look. intros d Hd.
    eapply says_weaken; [apply says_then; [|by apply says_inst|intros s; apply says_done]|].
    + intros ν ν' ts s Hn (ls & H1 & H2). exists ls. split; [by eapply inst_lines_mono|done].
    + intros ν ts s (s' & t1 & t2 & -> & (ls & H1 & H2) & -> & ->). rewrite app_nil_r.
      exists d, ls. by split_and!.
  - intros ν ν' ts ss Hn (tss & body & H1 & H2 & H3 & H4). exists tss, body. split_and!; try done.
    clear -Hn H4. induction H4 as [|? ? ? ? (d & ? & ?)]; constructor; [|done].
    exists d. split; [done|by eapply inst_lines_mono].
  - intros ν ts ss (y & t1 & t2 & -> & (d & ls & H1 & H2 & ->) & ys & t3 & t4 & -> &
      (tss & body & -> & Hl & -> & HF) & -> & ->). rewrite app_nil_r.
    exists (t1 :: tss), (ls :: body). split_and!; [done|simpl; lia|done|].
    simpl. constructor; [|done]. by exists d.
Qed.

Lemma block_text_mono x : mono (λ ν, block_text ν p fd x).
Proof.
  intros ν ν' ts s Hn (bd & label & phis & tss & body & H1 & (c & H2) & H3 & H4 & H5 & H6 & H7 & H8).
  exists bd, label, phis, tss, body. split_and!; try done.
  - exists c. by eapply block_mono.
  - intros i q Hq. destruct (H4 i q Hq) as (l & Hl & Hp). exists l. split; [done|by eapply phi_line_mono].
  - clear -Hn H5. induction H5 as [|? ? ? ? (d & ? & ?)]; constructor; [|done].
    exists d. split; [done|by eapply inst_lines_mono].
Qed.

Lemma says_block b insts : says G (λ ν, block_text ν p fd (b, insts)) (l_bb ord p fd b insts).
Proof.
  unfold l_bb. apply says_look. intros bd Hb.
  eapply says_weaken; [apply says_one; [|apply says_bb_name_|intros n; apply says_look_ex; intros label;
    apply says_one; [|by apply (says_phis b bd (bb_params bd) 0)|intros phis; apply says_then;
      [|apply says_insts|intros ss; apply says_done]]]|].
  - intros ν ν' n. apply block_mono.
  - intros x. by eapply G_block.
  - intros ν ν' ss Hn (ls & -> & Hl & Hi). exists ls. split_and!; try done.
    intros i z Hz. destruct (Hi i z Hz) as (x & Hx & Hp). exists x. split; [done|by eapply phi_line_mono].
  - intros ν ν' ts ss Hn (tss & body & H1 & H2 & H3 & H4). exists tss, body. split_and!; try done.
    clear -Hn H4. induction H4 as [|? ? ? ? (d & ? & ?)]; constructor; [|done].
    exists d. split; [done|by eapply inst_lines_mono].
  - intros ν ts s (n & Hn & label & Hl & phis & (ls & -> & Hls & Hi) & ss & t1 & t2 & -> &
      (tss & body & -> & Hb2 & -> & HF) & -> & ->). rewrite app_nil_r.
    exists bd, label, ls, tss, body. split_and!; try done.
    + destruct n as [|c n]; [done|]. cbn [tail1] in Hl. destruct (is_boundary _ _); [|done].
      injection Hl as <-. by exists c.
    + by rewrite lines_app, lines_concat, lines_join.
Qed.

Lemma fun_text_mono : mono (λ ν, fun_text ν p f).
Proof.
  intros ν ν' ts s Hn (fd' & ps & r & n & lr & args & H1 & H2 & H3 & H4 & H5).
  exists fd', ps, r, n, lr, args. split_and!; try done; [by eapply fun_mono|].
  destruct (decide (blks fd' = ∅)); [done|]. destruct H5 as (H5 & tss & bs & H6 & H7 & H8 & H9).
  assert (fd' = fd) as -> by congruence.
  split.
  - clear -Hn H5. induction H5 as [|? ? ? ? (d & m & l & ? & ? & ? & ?)]; constructor; [|done].
    exists d, m, l. split_and!; try done. by eapply value_called_mono.
  - exists tss, bs. split_and!; try done. clear -Hn H6.
    induction H6; constructor; [by eapply block_text_mono|done].
Qed.

Lemma map_llvm_ty ps : Forall2 lty ps (map llvm_ty ps).
Proof. induction ps; simpl; constructor; [apply llvm_ty_lty|done]. Qed.

Lemma says_params l :
  says G (writes (λ ν ss, Forall2 (λ v a, ∃ d m l, vals fd !! v = Some d ∧ value_called ν v d m ∧
      lty (v_ty d) l ∧ a = (l ++ " " ++ m)%string) l ss)) (p_map (l_param fd) l).
Proof.
  eapply says_weaken; [apply (says_map _ (λ v, writes (λ ν a, ∃ d m l, vals fd !! v = Some d ∧
      value_called ν v d m ∧ lty (v_ty d) l ∧ a = (l ++ " " ++ m)%string)))|].
  - intros v. apply mono_writes. intros ν ν' a Hn (d & m & l' & H1 & H2 & H3 & H4).
    exists d, m, l'. split_and!; try done. by eapply value_called_mono.
  - intros v _. unfold l_param. apply says_look. intros d Hd.
    eapply says_weaken; [apply says_one; [|by apply says_local|intros n; apply says_done]|].
    + intros ν ν' n. apply value_called_mono.
    + intros ν ts s (n & Hn & -> & ->). split; [done|]. exists d, n, (llvm_ty (v_ty d)).
      split_and!; try done. apply llvm_ty_lty.
  - intros ν ts ss (tss & -> & Hl & HF).
    apply (unzip_nil (λ v a, ∃ d m l, vals fd !! v = Some d ∧
      value_called ν v d m ∧ lty (v_ty d) l ∧ a = (l ++ " " ++ m)%string)) in HF as [-> HF]; [|done]. done.
Qed.

Lemma says_fun : says G (λ ν, fun_text ν p f) (l_func ord p f fd).
Proof.
  unfold l_func. destruct (f_ty fd) as [| | | |ps ret] eqn:Et; try apply says_none.
  assert (Hu : mono (λ (_ : naming) ts (_ : unit), ts = [])) by (by intros ???? _).
  destruct (decide (blks fd = ∅)) as [He|He].
  - rewrite bool_decide_eq_true_2 by done.
    eapply says_weaken; [apply says_one; [|apply says_func_name; right; by eauto|intros n; apply says_then;
      [exact Hu|apply says_prefix; by right|intros w1; apply says_one; [|apply says_done|
       intros ss; apply says_one; [|apply (says_done _ ([] : list string))|intros bs; apply says_then;
       [exact Hu|apply says_prefix; by left|intros w2; apply says_done]]]]]|].
    + intros ν ν' n. apply fun_mono.
    + done.
    + done.
    + intros ν ts s (n & Hn & [] & t1 & t2 & -> & -> & ss & -> & bs & -> & [] & t3 & t4 & -> & -> & -> & ->).
      exists fd, ps, ret, n, (llvm_ty ret), (map llvm_ty ps). split_and!; try done.
      * apply llvm_ty_lty.
      * rewrite decide_True by done. split_and!; try done; [apply map_llvm_ty|].
        by rewrite !sapp_assoc.
  - rewrite bool_decide_eq_false_2 by done.
    eapply says_weaken; [apply says_one; [|apply says_func_name; right; by eauto|intros n; apply says_then;
      [exact Hu|apply says_prefix; by right|intros w1; apply says_one; [|apply says_params|
       intros ss; apply says_then; [|apply (says_map _ (λ x ν, block_text ν p fd x))|intros bs; apply says_then;
       [exact Hu|apply says_prefix; by left|intros w2; apply says_done]]]]]|].
    + intros ν ν' n. apply fun_mono.
    + intros ν ν' ss Hn H5. induction H5 as [|? ? ? ? (d & m & l & ? & ? & ? & ?)]; constructor; [|done].
      exists d, m, l. split_and!; try done. by eapply value_called_mono.
    + intros ν ν' ts bs Hn (tss & H1 & H2 & H3). exists tss. split_and!; try done.
      clear -Hn H3. induction H3; constructor; [by eapply block_text_mono|done].
    + intros x. apply block_text_mono.
    + intros [b insts] _. apply says_block.
    + intros ν ts s (n & Hn & [] & t1 & t2 & -> & -> & ss & Hss & bs & t3 & t4 & -> &
        (tss & -> & Hl & HF) & [] & t5 & t6 & -> & -> & -> & ->). rewrite !app_nil_r.
      exists fd, ps, ret, n, (llvm_ty ret), ss. split_and!; try done.
      * apply llvm_ty_lty.
      * rewrite decide_False by done. split; [done|]. exists tss, bs. split_and!; try done.
        by rewrite !sapp_assoc.
Qed.
End block.
End function.
End program.
