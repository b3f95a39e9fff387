(** The tree that is printed for a program. *)
From Coq Require Import Lia ZifyBool ZifyNat ZifyN.
From Verif Require Import Base IdModel TypeModel IrModel LayoutModel BuilderModel WorldModel TextModel NameModel LexerModel LexerSpec ParserModel ParserSpec
  DfgSpec FlowSpec FaithFunProofs LayoutSpec LayoutProofs CanonReadProofs PrintSpec TypingSpec FaithSpec FaithProofs RoundProofs LexerRunProofs KoopaModel CanonSpec TreeTextProofs CanonNameProofs CanonProofs TreeWfProofs
  RetreeNameProofs RetreeProofs RetreeFunProofs.

(** ** Between two functions *)
Definition between (m : nm) (st : written) : Prop :=
  ∃ m', enter_func_scope m = Some m' ∧ ninv m' st ∧ nm_in_func m' = true ∧ nm_values m' = ∅ ∧ nm_bbs m' = ∅ ∧ nm_gvars m' = nm_gvars m ∧ nm_funcs m' = nm_funcs m.
Lemma inj_empty : inj_names ∅.
Proof. intros v w x H. by rewrite lookup_empty in H. Qed.
Lemma leaves m st : ninv m st → nm_in_func m = true →
  ∃ m', exit_func_scope m = Some m' ∧ between m' (end_top st) ∧ nm_gvars m' = nm_gvars m ∧ nm_funcs m' = nm_funcs m.
Proof.
  intros [R Ig If Iv Ib Igf Inum Iwf] Hi. pose proof R as []. unfold exit_func_scope. rewrite Hi. eexists. split; [done|]. split; [|done].
  unfold between, enter_func_scope. cbn [nm_in_func]. eexists. split; [done|]. split; [|done].
  unfold end_top. constructor; simpl; try done.
  - constructor; simpl; try done.
    + intros n. split; [by intros ?%elem_of_empty|]. intros [v Hv]. by rewrite lookup_empty in Hv.
    + intros n. split; [by intros ?%elem_of_empty|]. intros [v Hv]. by rewrite lookup_empty in Hv.
    + intros n. rewrite elem_of_difference, nr_names, elem_of_list_to_set.
      assert (Hx : n ∈ map snd (map_to_list (nm_values m)) ↔ n ∈ wr_vals st).
      { rewrite nr_wv. change (map snd) with (fmap (M := list) (@snd N string)). rewrite elem_of_list_fmap. split.
        - intros ([v x] & -> & Hv). exists v. by apply elem_of_map_to_list.
        - intros [v Hv]. exists (v, n). split; [done|]. by apply elem_of_map_to_list. }
      rewrite Hx. split; [|intros [?|[?|?%elem_of_empty]]; [|naive_solver|done]].
      * intros [[?|[?|?]] ?]; [by left|right; by left|done].
      * split; [by left|]. intros Hv. by apply nr_apart in Hv as [? _].
  - intros k [?|[?%elem_of_empty|?%elem_of_empty]]; [|done..]. apply Inum. auto.
  - intros n [?|[?|[?%elem_of_empty|?%elem_of_empty]]]; [| |done..]; apply Iwf; auto.
Qed.

(** The tree describes the function with the names that the printer gives. *)
Definition redescribes (G Fn : gmap N string) (f : func) (fd : fdata) (t : atop) : Prop :=
  match t with
  | TFunDecl n ps r => Fn !! f = Some n ∧ blks fd = ∅ ∧ vals fd = ∅ ∧ ∃ ts t, f_ty fd = TFun ts t ∧ Forall2 denotes ps ts ∧ denotes_ret r t
  | TFunDef n ps r bbs => Fn !! f = Some n ∧ blks fd ≠ ∅ ∧ (∃ ts t, f_ty fd = TFun ts t ∧ Forall2 denotes (map snd ps) ts ∧ denotes_ret r t) ∧
      ∃ L B, nameable fd L B ∧ inj_names L ∧ inj_names B ∧ (∀ v w n, G !! v = Some n → L !! w = Some n → False) ∧
        in_order bbs bbs ∧ NoDup (map b_name bbs) ∧ NoDup (fun_names ps bbs) ∧ (∀ n, n ∈ fun_names ps bbs → ∃ v, L !! v = Some n) ∧
        (∀ b n, B !! b = Some n → n ∈ map b_name bbs) ∧
        Forall2 (FaithSpec.is_param L (datas (vals fd)) KFuncArg) (f_params fd) ps ∧
        Forall2 (is_block G Fn L B (datas (vals fd)) (bb_params <$> blks fd)) (l_bbs (f_layout fd)) bbs ∧
        Forall2 (λ (x : bblock * list value) b, Forall2 (exact_at fd) x.2 (b_stmts b)) (l_bbs (f_layout fd)) bbs
  | _ => False
  end.
Lemma redescribes_mono G Fn Fn' f fd t : Fn ⊆ Fn' → redescribes G Fn f fd t → redescribes G Fn' f fd t.
Proof.
  intros HS. destruct t as [|n ps r bbs|n ps r| |]; try done.
  - intros (Hn & Hne & Hty & L & B & R1 & R2 & R3 & R4 & R5 & R6 & R7 & R8 & R9 & R10 & R11 & R12).
    split; [by eapply lookup_weaken|]. split; [done|]. split; [done|]. exists L, B. do 10 (split; [done|]). split; [|done].
    eapply list.Forall2_impl; [exact R11|]. intros x b H. eapply up_block; [..|exact H]; try done.
  - intros (Hn & H). split; [by eapply lookup_weaken|done].
Qed.

(** ** The handles of a function can be named *)
Section known.
Context (p : program) (fd : fdata) (G Fn L B : gmap N string).
Notation D := (datas (vals fd)).
Context (HT : well_typed p) (Hnames : names_of fd L B) (Hloc : ∀ v, is_Some (vals fd !! v) → is_global_id v = false).
Definition known (h : handle) : Prop :=
  match h with
  | HGlobal _ => False
  | HFun c => is_Some (Fn !! c)
  | HVal v => if is_global_id v then is_Some (G !! v)
              else ∃ d, vals fd !! v = Some d ∧ is_const (v_kind d) = false ∧ is_global_alloc (v_kind d) = false
  | HBlk b => is_Some (B !! b)
  end.
Lemma k_local v n : L !! v = Some n → known (HVal v).
Proof. intros H. destruct (no_val _ _ _ Hnames _ _ H) as (E & d & Hd & _ & Hk). simpl. rewrite E. eauto. Qed.
Lemma k_called v n : is_called G L v n → known (HVal v).
Proof. unfold is_called. destruct (is_global_id v) eqn:E; intros H; [simpl; rewrite E; eauto|by eapply k_local]. Qed.
Lemma k_val v a : is_val G L D v a → Forall known (h_val D v).
Proof.
  destruct a as [n|z|]; cbn [is_val]; intros H.
  - rewrite (called_handle fd G L B Hnames _ _ H). constructor; [by eapply k_called|constructor].
  - rewrite (const_local fd Hloc _ _ H). constructor.
  - rewrite (const_local fd Hloc _ _ H). constructor.
Qed.
Lemma k_args vs args : is_args G L D vs args → Forall known (h_vals D vs).
Proof.
  intros (l & rest & -> & H). unfold h_vals. induction H as [|v a vs l H _ IH]; [constructor|]. simpl. apply list.Forall_app. split; [by eapply k_val|done].
Qed.
Lemma k_stmt v st : is_stmt G Fn L B D v st → Forall known (h_inst D v).
Proof.
  intros (t & k & Ht & Hst). unfold h_inst. rewrite Ht.
  pose proof Ht as Hd. unfold datas in Hd. rewrite lookup_fmap in Hd. apply fmap_Some in Hd as (d & Hd & E). injection E as -> ->.
  assert (Hv : is_const (v_kind d) = false → is_global_alloc (v_kind d) = false → Forall known (if is_unit (v_ty d) then [] else [HVal v])).
  { intros K1 K2. destruct (is_unit (v_ty d)); [constructor|]. constructor; [|constructor]. simpl. rewrite Hloc by eauto. eauto. }
  apply list.Forall_app.
  destruct st as [n e|x dst|g args|c t1 ta t2 fa|t1 a|[a|]|].
  - destruct Hst as (Hn & Hnu & He). destruct e as [a|x|x i|x i|op l r|g args]; cbn [is_expr] in He.
    + destruct He as (Hk & _). rewrite Hk in Hv |- *. split; [by apply Hv|constructor].
    + destruct He as (w & Hk & Hc). rewrite Hk in Hv |- *. split; [by apply Hv|]. constructor; [by eapply k_called|constructor].
    + destruct He as (w & u & Hk & Hc & Hu). rewrite Hk in Hv |- *. split; [by apply Hv|]. constructor; [by eapply k_called|by eapply k_val].
    + destruct He as (w & u & Hk & Hc & Hu). rewrite Hk in Hv |- *. split; [by apply Hv|]. constructor; [by eapply k_called|by eapply k_val].
    + destruct He as (w & u & Hk & Hl & Hr). rewrite Hk in Hv |- *. split; [by apply Hv|]. apply list.Forall_app. split; by eapply k_val.
    + destruct He as (c & vs & Hk & Hc & Ha). rewrite Hk in Hv |- *. split; [by apply Hv|]. constructor; [simpl; eauto|by eapply k_args].
  - destruct Hst as (a & b & Hk & Ha & Hb). rewrite Hk in Hv |- *. split; [by apply Hv|]. apply list.Forall_app. split.
    + destruct x as [n|i]; simpl in Ha.
      * rewrite (called_handle fd G L B Hnames _ _ Ha). constructor; [by eapply k_called|constructor].
      * rewrite (const_local fd Hloc _ _ Ha). constructor.
    + constructor; [by eapply k_called|constructor].
  - destruct Hst as (c & vs & Hk & Hc & Ha). rewrite Hk in Hv |- *. split; [by apply Hv|]. constructor; [simpl; eauto|by eapply k_args].
  - destruct Hst as (w & b1 & b2 & vs1 & vs2 & Hk & Hc & Hb1 & Ha1 & Hb2 & Ha2). rewrite Hk in Hv |- *. split; [by apply Hv|].
    apply list.Forall_app. split; [by eapply k_val|]. apply list.Forall_app. split; (constructor; [simpl; eauto|by eapply k_args]).
  - destruct Hst as (b & vs & Hk & Hb & Ha). rewrite Hk in Hv |- *. split; [by apply Hv|]. constructor; [simpl; eauto|by eapply k_args].
  - destruct Hst as (w & Hk & Hw). rewrite Hk in Hv |- *. split; [by apply Hv|]. by eapply k_val.
  - rewrite Hst in Hv |- *. split; [by apply Hv|constructor].
  - done.
Qed.
Lemma k_params c vs ps : Forall2 (FaithSpec.is_param L D c) vs ps → Forall known (map HVal vs).
Proof. induction 1 as [|v q vs l [H _] _ IH]; [constructor|]. constructor; [by eapply k_local|done]. Qed.
Lemma k_blocks xs bs : Forall2 (is_block G Fn L B D (bb_params <$> blks fd)) xs bs → Forall known (concat (map (h_block D (bb_params <$> blks fd)) xs)).
Proof.
  induction 1 as [|x b xs bs (Hb & (ps & Hps & Hp) & Hs) _ IH]; [constructor|]. cbn [map concat]. apply list.Forall_app. split; [|done].
  unfold h_block. constructor; [simpl; eauto|]. rewrite Hps. cbn [default from_option]. apply list.Forall_app. split; [by eapply k_params|].
  clear -Hs Hnames Hloc. induction Hs as [|v st vs sts H _ IH]; [constructor|]. cbn [map concat]. apply list.Forall_app. split; [by eapply k_stmt|done].
Qed.
End known.

(** What is served is named. *)
Lemma serves_vals p fd m hs m' : serves p fd m hs m' → ∀ v n, nm_values m' !! v = Some n → nm_values m !! v = Some n ∨ HVal v ∈ hs ∧ is_global_id v = false.
Proof.
  induction 1 as [m|m h r n m1 l m2 Hr Hs Hn Hg H IH]; intros v x Hv; [by left|].
  destruct (IH _ _ Hv) as [Hv1|[? ?]]; [|right; split; [by right|done]].
  destruct h as [w|f|w|b]; simpl in Hr.
  - destruct Hr as (d & _ & ->). simpl in Hs. unfold value_name in Hs. left.
    destruct (nm_gvars m !! w); simpl in Hs; [by simplify_eq|]. destruct (next_name _ _ _ _) as [[[? ?] ?]|]; simpl in Hs; by simplify_eq.
  - destruct Hr as (d & _ & ->). simpl in Hs. unfold func_name in Hs. left.
    destruct (nm_funcs m !! f); simpl in Hs; [by simplify_eq|]. destruct (next_name_str _ _ _) as [[? ?]|]; simpl in Hs; by simplify_eq.
  - destruct (is_global_id w) eqn:Eg; destruct Hr as (d & _ & ->); simpl in Hs; unfold value_name in Hs.
    + left. destruct (nm_gvars m !! w); simpl in Hs; [by simplify_eq|]. destruct (next_name _ _ _ _) as [[[? ?] ?]|]; simpl in Hs; by simplify_eq.
    + destruct (nm_values m !! w); simpl in Hs; [left; by simplify_eq|]. destruct (next_name _ _ _ _) as [[[y ?] ?]|]; simpl in Hs; [|done]. simplify_eq. simpl in Hv1.
      apply lookup_insert_Some in Hv1 as [[-> _]|[_ ?]]; [right; split; [by left|done]|by left].
  - destruct Hr as (d & _ & ->). simpl in Hs. unfold bb_name_ in Hs. left.
    destruct (nm_bbs m !! b); simpl in Hs; [by simplify_eq|]. destruct (next_name _ _ _ _) as [[[? ?] ?]|]; simpl in Hs; by simplify_eq.
Qed.
Lemma serves_blks p fd m hs m' : serves p fd m hs m' → ∀ b n, nm_bbs m' !! b = Some n → nm_bbs m !! b = Some n ∨ HBlk b ∈ hs.
Proof.
  induction 1 as [m|m h r n m1 l m2 Hr Hs Hn Hg H IH]; intros v x Hv; [by left|].
  destruct (IH _ _ Hv) as [Hv1|?]; [|right; by right].
  destruct h as [w|f|w|b]; simpl in Hr.
  - destruct Hr as (d & _ & ->). simpl in Hs. unfold value_name in Hs. left.
    destruct (nm_gvars m !! w); simpl in Hs; [by simplify_eq|]. destruct (next_name _ _ _ _) as [[[? ?] ?]|]; simpl in Hs; by simplify_eq.
  - destruct Hr as (d & _ & ->). simpl in Hs. unfold func_name in Hs. left.
    destruct (nm_funcs m !! f); simpl in Hs; [by simplify_eq|]. destruct (next_name_str _ _ _) as [[? ?]|]; simpl in Hs; by simplify_eq.
  - left. destruct (is_global_id w) eqn:Eg; destruct Hr as (d & _ & ->); simpl in Hs; unfold value_name in Hs.
    + destruct (nm_gvars m !! w); simpl in Hs; [by simplify_eq|]. destruct (next_name _ _ _ _) as [[[? ?] ?]|]; simpl in Hs; by simplify_eq.
    + destruct (nm_values m !! w); simpl in Hs; [by simplify_eq|]. destruct (next_name _ _ _ _) as [[[? ?] ?]|]; simpl in Hs; by simplify_eq.
  - destruct Hr as (d & _ & ->). simpl in Hs. unfold bb_name_ in Hs.
    destruct (nm_bbs m !! b); simpl in Hs; [left; by simplify_eq|]. destruct (next_name _ _ _ _) as [[[? ?] ?]|]; simpl in Hs; [|done]. simplify_eq. simpl in Hv1.
    apply lookup_insert_Some in Hv1 as [[-> _]|[_ ?]]; [right; by left|by left].
Qed.
Lemma serves_funs p fd m hs m' : serves p fd m hs m' → ∀ c n, nm_funcs m' !! c = Some n → nm_funcs m !! c = Some n ∨ HFun c ∈ hs.
Proof.
  induction 1 as [m|m h r n m1 l m2 Hr Hs Hn Hg H IH]; intros v x Hv; [by left|].
  destruct (IH _ _ Hv) as [Hv1|?]; [|right; by right].
  destruct h as [w|f|w|b]; simpl in Hr.
  - destruct Hr as (d & _ & ->). simpl in Hs. unfold value_name in Hs. left.
    destruct (nm_gvars m !! w); simpl in Hs; [by simplify_eq|]. destruct (next_name _ _ _ _) as [[[? ?] ?]|]; simpl in Hs; by simplify_eq.
  - destruct Hr as (d & _ & ->). simpl in Hs. unfold func_name in Hs.
    destruct (nm_funcs m !! f); simpl in Hs; [left; by simplify_eq|]. destruct (next_name_str _ _ _) as [[? ?]|]; simpl in Hs; [|done]. simplify_eq. simpl in Hv1.
    apply lookup_insert_Some in Hv1 as [[-> _]|[_ ?]]; [right; by left|by left].
  - left. destruct (is_global_id w) eqn:Eg; destruct Hr as (d & _ & ->); simpl in Hs; unfold value_name in Hs.
    + destruct (nm_gvars m !! w); simpl in Hs; [by simplify_eq|]. destruct (next_name _ _ _ _) as [[[? ?] ?]|]; simpl in Hs; by simplify_eq.
    + destruct (nm_values m !! w); simpl in Hs; [by simplify_eq|]. destruct (next_name _ _ _ _) as [[[? ?] ?]|]; simpl in Hs; by simplify_eq.
  - destruct Hr as (d & _ & ->). simpl in Hs. unfold bb_name_ in Hs. left.
    destruct (nm_bbs m !! b); simpl in Hs; [by simplify_eq|]. destruct (next_name _ _ _ _) as [[[? ?] ?]|]; simpl in Hs; by simplify_eq.
Qed.
(** No function gets a name but those that are asked for. *)
Lemma serves_old p fd m hs m' : serves p fd m hs m' → (∀ c, HFun c ∈ hs → is_Some (nm_funcs m !! c)) → nm_funcs m' = nm_funcs m.
Proof.
  induction 1 as [m|m h r n m1 l m2 Hr Hs Hn Hg H IH]; intros Hhs; [done|].
  assert (E : nm_funcs m1 = nm_funcs m); [|rewrite IH; [done|]; rewrite E; intros c Hc; apply Hhs; by right].
  destruct h as [w|f|w|b]; simpl in Hr.
  - destruct Hr as (d & _ & ->). simpl in Hs. unfold value_name in Hs.
    destruct (nm_gvars m !! w); simpl in Hs; [by simplify_eq|]. destruct (next_name _ _ _ _) as [[[? ?] ?]|]; simpl in Hs; by simplify_eq.
  - destruct Hr as (d & _ & ->). simpl in Hs. unfold func_name in Hs. destruct (Hhs f ltac:(by left)) as [x Hx]. rewrite Hx in Hs. simpl in Hs. by simplify_eq.
  - destruct (is_global_id w); destruct Hr as (d & _ & ->); simpl in Hs; unfold value_name in Hs.
    + destruct (nm_gvars m !! w); simpl in Hs; [by simplify_eq|]. destruct (next_name _ _ _ _) as [[[? ?] ?]|]; simpl in Hs; by simplify_eq.
    + destruct (nm_values m !! w); simpl in Hs; [by simplify_eq|]. destruct (next_name _ _ _ _) as [[[? ?] ?]|]; simpl in Hs; by simplify_eq.
  - destruct Hr as (d & _ & ->). simpl in Hs. unfold bb_name_ in Hs.
    destruct (nm_bbs m !! b); simpl in Hs; [by simplify_eq|]. destruct (next_name _ _ _ _) as [[[? ?] ?]|]; simpl in Hs; by simplify_eq.
Qed.
Lemma h_val_funs D v c : HFun c ∉ h_val D v.
Proof. unfold h_val. repeat case_match; set_solver. Qed.
Lemma h_vals_funs D vs c : HFun c ∉ h_vals D vs.
Proof. unfold h_vals. intros Hc. apply elem_of_list_In, in_concat in Hc as (l & Hl & Hc). apply in_map_iff in Hl as (v & <- & _). apply elem_of_list_In in Hc. by eapply h_val_funs. Qed.
Lemma h_kind_funs D k c : HFun c ∈ h_kind D k → ∃ vs, k = KCall c vs.
Proof.
  pose proof (λ v, h_val_funs D v c) as A. pose proof (λ v, h_vals_funs D v c) as A'.
  destruct k; simpl; repeat case_match; intros HH;
    repeat match goal with
    | K : _ ∈ [] |- _ => by apply elem_of_nil in K
    | K : HFun _ ∈ h_val _ _ |- _ => by apply A in K
    | K : HFun _ ∈ h_vals _ _ |- _ => by apply A' in K
    | K : _ ∈ _ :: _ |- _ => apply elem_of_cons in K as [K|K]; [try discriminate K|]
    | K : _ ∈ _ ++ _ |- _ => apply elem_of_app in K as [K|K]
    end.
  injection HH as ->. eauto.
Qed.
Lemma h_blocks_funs D P bs c : HFun c ∈ concat (map (h_block D P) bs) → ∃ v t vs, D !! v = Some (t, KCall c vs).
Proof.
  intros Hc. apply elem_of_list_In, in_concat in Hc as (l & Hl & Hc). apply in_map_iff in Hl as (x & <- & _). apply elem_of_list_In in Hc.
  unfold h_block in Hc. apply elem_of_cons in Hc as [?|Hc]; [done|]. apply elem_of_app in Hc as [Hc|Hc].
  - apply elem_of_list_In, in_map_iff in Hc as (? & ? & _). done.
  - apply elem_of_list_In, in_concat in Hc as (l & Hl & Hc). apply in_map_iff in Hl as (v & <- & _). apply elem_of_list_In in Hc. unfold h_inst in Hc.
    destruct (D !! v) as [[t k]|] eqn:E; [|by apply elem_of_nil in Hc]. apply elem_of_app in Hc as [Hc|Hc].
    + destruct (is_unit t); [by apply elem_of_nil in Hc|]. by apply elem_of_list_singleton in Hc.
    + apply h_kind_funs in Hc as [vs ->]. eauto.
Qed.
Lemma func_named p fd f m st r n m' x : ninv m st → nm_values m = ∅ → p_funcs p !! f = Some x → (∀ v, nm_gvars m !! v ≠ Some (f_name x)) →
  (∀ c, nm_funcs m !! c = Some (f_name x) → c = f) → (∀ c y, nm_funcs m !! c = Some y → ∃ z, p_funcs p !! c = Some z ∧ f_name z = y) →
  request p fd (HFun f) r → serve_name r m = Some (Some n, m') → is_Some (nm_funcs m' !! f) ∧ (∀ c, is_Some (nm_funcs m !! c) → is_Some (nm_funcs m' !! c)) ∧
  ∀ c y, nm_funcs m' !! c = Some y → ∃ z, p_funcs p !! c = Some z ∧ f_name z = y.
Proof.
  intros [R _ _ _ _ _ _ _] Hv Hx HG HF HK (x' & Hx' & ->) Hs. assert (x' = x) as -> by congruence. simpl in Hs. unfold func_name in Hs. destruct R.
  destruct (nm_funcs m !! f) as [y|] eqn:Ef; simpl in Hs.
  { simplify_eq. split; [eauto|]. split; [done|exact HK]. }
  unfold next_name_str in Hs. rewrite nr_prefix in Hs. simpl in Hs. rewrite decide_False in Hs.
  - simpl in Hs. simplify_eq. simpl. split; [rewrite lookup_insert; eauto|]. split.
    + intros c Hc. destruct (decide (c = f)) as [-> |Hne]; [rewrite lookup_insert; eauto|by rewrite lookup_insert_ne].
    + intros c y. rewrite lookup_insert_Some. intros [[<- <-]|[_ Hc]]; [eauto|by apply HK].
  - intros [H|[H|H]]%nr_names.
    + apply nr_wg in H as [v H]. by apply (HG v).
    + apply nr_wf in H as [c H]. apply HF in H as E. subst. congruence.
    + apply nr_wv in H as [v H]. by rewrite Hv, lookup_empty in H.
Qed.

(** ** A function *)
Section fun_step.
Context (p : program) (G Fn : gmap N string).
Context (HT : well_typed p)
  (HG : ∀ v n, G !! v = Some n → is_global_id v = true ∧ ∃ d i, p_values p !! v = Some d ∧ v_kind d = KGlobalAlloc i)
  (HFn : ∀ c n, Fn !! c = Some n → ∃ x, p_funcs p !! c = Some x ∧ nice (Some (f_name x)))
  (Hloc : ∀ f fd v, p_funcs p !! f = Some fd → is_Some (vals fd !! v) → is_global_id v = false)
  (Hshort : ∀ f fd v d, p_funcs p !! f = Some fd → vals fd !! v = Some d → short (v_ty d))
  (HshortF : ∀ f fd, p_funcs p !! f = Some fd → short (f_ty fd)).

Definition top_ok (t : atop) : Prop :=
  ok_top t ∧ match t with TFunDef _ _ _ bbs => bbs ≠ [] ∧ Forall block_shape bbs ∧ Forall (λ b, Forall (λ st, st ≠ SErr) (b_stmts b)) bbs | _ => True end.

Lemma wf_name_in m st h n : ninv m st → named_in m h = Some n → wf_name n.
Proof.
  intros [R _ _ _ _ _ _ Iwf] Hn. destruct R. apply Iwf. unfold named_in, name_in in Hn.
  destruct h as [v|c|v|b]; [left; apply nr_wg; eauto|right; left; apply nr_wf; eauto| |right; right; right; apply nr_wb; eauto].
  destruct (is_global_id v); [left; apply nr_wg; eauto|right; right; left; apply nr_wv; eauto].
Qed.
Lemma ret_short r t : denotes_ret r t → short t → wf_ret r.
Proof.
  destruct r as [a|]; [|intros _ _ ? [=]]. intros H S x [= <-]. by eapply short_aty.
Qed.
Lemma types_short l ts : Forall2 denotes l ts → Forall short ts → Forall wf_aty l.
Proof. induction 1 as [|a t l ts H _ IH]; intros S; [constructor|]. apply list.Forall_cons in S as [? ?]. constructor; [by eapply short_aty|by apply IH]. Qed.

Lemma print_fun f fd t m st : p_funcs p !! f = Some fd → Fn !! f = Some (f_name fd) → fun_is G Fn fd t → top_ok t → (blks fd ≠ ∅ → tidy fd) →
  between m st → (∀ v, is_Some (G !! v) → is_Some (nm_gvars m !! v)) → (∀ v n, nm_gvars m !! v = Some n → is_Some (G !! v)) →
  (∀ c n, nm_funcs m !! c = Some n → ∃ x, p_funcs p !! c = Some x ∧ f_name x = n) →
  (∀ v, nm_gvars m !! v ≠ Some (f_name fd)) → (∀ c, nm_funcs m !! c = Some (f_name fd) → c = f) →
  (∀ v d c vs, vals fd !! v = Some d → v_kind d = KCall c vs → c = f ∨ is_Some (nm_funcs m !! c)) →
  ∃ t' m' st', (p_name_ enter_func_scope;; s <- visit_func p f fd;; p_name_ exit_func_scope;; mok s) m = (Rok (text_top t'), m') ∧
    writes_all st (occ_top t') st' ∧ between m' (end_top st') ∧ nm_gvars m' = nm_gvars m ∧ nm_funcs m ⊆ nm_funcs m' ∧
    (∀ c n, nm_funcs m' !! c = Some n → ∃ x, p_funcs p !! c = Some x ∧ f_name x = n) ∧
    wf_func t' ∧ redescribes (nm_gvars m') (nm_funcs m') f fd t'.
Proof.
  intros Hf Hfn Ht [Hok Hsh] Htd (m1 & He & I & Hi & Hv0 & Hb0 & Hg0 & Hf0) HGm HmG Hmf Hgn Hfn1 Hpast.
  assert (Hgo : ∃ t' m2 st', visit_func p f fd m1 = (Rok (text_top t'), m2) ∧ writes_all st (occ_top t') st' ∧ ninv m2 st' ∧
    grows m1 m2 ∧ nm_gvars m2 = nm_gvars m1 ∧ (∀ c n, nm_funcs m2 !! c = Some n → ∃ x, p_funcs p !! c = Some x ∧ f_name x = n) ∧ wf_func t' ∧ redescribes (nm_gvars m2) (nm_funcs m2) f fd t').
  2: { destruct Hgo as (t' & m2 & st' & Hvis & Hw & I2 & Hgr & Hg2 & Hc2 & Hwf & Hre).
    destruct Hgr as (_ & Hgf & _ & _ & Hin). destruct (leaves m2 st' I2 ltac:(congruence)) as (m3 & H3 & B3 & G3 & F3).
    exists t', m3, st'. split.
    { rewrite (mthen_ok _ _ _ tt m1) by (unfold p_name_; by rewrite He). rewrite (mthen_ok _ _ _ _ _ Hvis).
      rewrite (mthen_ok _ _ _ tt m3) by (unfold p_name_; by rewrite H3). done. }
    split; [done|]. split; [done|]. split; [congruence|]. rewrite F3, G3. split; [by rewrite <- Hf0|]. done. }
  assert (HfunSub : ∀ m2 hs, serves p fd m1 (HFun f :: hs) m2 → (∀ c, HFun c ∈ hs → c = f ∨ is_Some (nm_funcs m !! c)) →
    ∀ c n, nm_funcs m2 !! c = Some n → ∃ x, p_funcs p !! c = Some x ∧ f_name x = n).
  { intros m2 hs Hsv Hhs. inversion Hsv as [|? ? r n ma ? ? Hr Hs _ _ Hrest]; subst.
    destruct (func_named p fd f m1 st r n ma fd I Hv0 Hf) as (K1 & K2 & K3); [by rewrite Hg0|by rewrite Hf0|by rewrite Hf0|done|done|].
    rewrite (serves_old _ _ _ _ _ Hrest); [exact K3|]. intros c Hc. destruct (Hhs _ Hc) as [-> |Hc']; [done|]. apply K2. by rewrite Hf0. }
  assert (HG1 : ∀ v n, nm_gvars m1 !! v = Some n → is_global_id v = true ∧ ∃ d i, p_values p !! v = Some d ∧ v_kind d = KGlobalAlloc i).
  { intros v n Hv. rewrite Hg0 in Hv. apply HmG in Hv as [x Hv]. by apply (HG v x). }
  destruct t as [|n ps r bbs|n ps r| |]; try done.
  - destruct Ht as (En & Hne & (us & t & Hty & Hus & Hr) & L & B & l & Hnames & Hord & Hnd & HL & HB & Hps & Hbs).
    specialize (Htd Hne). destruct Hok as (Hwn & Hwps & Hwb). destruct Hsh as (Hbne & Hsh & Hser).
    assert (Hlb : ∀ b, b ∈ l → b ∈ bbs) by (destruct Hord as (e & _ & Hin & _); intros b Hb; by apply Hin).
    assert (Hwl : Forall ok_block l) by (apply list.Forall_forall; intros b Hb; eapply list.Forall_forall in Hwb; [exact Hwb|auto]).
    assert (Hwnames : ∀ x, x ∈ fun_names ps l → wf_name x).
    { intros x. unfold fun_names. rewrite !elem_of_app. intros [Hx|[Hx|Hx]].
      - apply elem_of_list_In, in_map_iff in Hx as (q & <- & Hq). eapply list.Forall_forall in Hwps; [exact Hwps|by apply elem_of_list_In].
      - apply elem_of_list_In, in_concat in Hx as (k & Hk & Hx). apply in_map_iff in Hk as (b & <- & Hb). apply elem_of_list_In in Hb, Hx.
        eapply list.Forall_forall in Hwl; [|exact Hb]. destruct Hwl as (_ & Hw & _). unfold param_names in Hx.
        apply elem_of_list_In, in_map_iff in Hx as (q & <- & Hq). eapply list.Forall_forall in Hw; [exact Hw|by apply elem_of_list_In].
      - apply elem_of_list_In, in_concat in Hx as (k & Hk & Hx). apply in_map_iff in Hk as (b & <- & Hb). apply elem_of_list_In in Hb, Hx.
        eapply list.Forall_forall in Hwl; [|exact Hb]. destruct Hwl as (_ & _ & Hw). unfold body_names in Hx.
        apply elem_of_list_In, in_concat in Hx as (k & Hk & Hx). apply in_map_iff in Hk as (s & <- & Hs). apply elem_of_list_In in Hs, Hx.
        eapply list.Forall_forall in Hw; [|exact Hs]. destruct s; simpl in Hx; try by apply elem_of_nil in Hx. apply elem_of_list_singleton in Hx as ->. by destruct Hw. }
    assert (Hwbn : ∀ x, x ∈ map b_name l → wf_name x).
    { intros x Hx. apply elem_of_list_In, in_map_iff in Hx as (b & <- & Hb). eapply list.Forall_forall in Hwl; [|by apply elem_of_list_In]. by destruct Hwl. }
    assert (Hcan : ∀ h, known fd G Fn B h → can p fd (nm_gvars m1) h ∧ ∀ v, h ≠ HGlobal v).
    { intros h Hk. destruct h as [v|c|v|b]; simpl in Hk; [done|..]; (split; [|done]); simpl.
      - destruct Hk as [x Hx]. by apply (HFn c x).
      - destruct (is_global_id v) eqn:Eg.
        + rewrite Hg0. split; [by apply HGm|]. destruct Hk as [x Hx]. destruct (HG _ _ Hx) as (_ & d & i & ? & _). eauto.
        + destruct Hk as (d & Hd & _). exists d. split; [done|]. destruct (L !! v) as [x|] eqn:El.
          * destruct (no_val _ _ _ Hnames _ _ El) as (_ & d' & Hd' & Hkept & _). assert (d' = d) as -> by congruence.
            eapply kept_nice; [|exact Hkept]. apply Hwnames. by apply HL in El.
          * intros x Hx. rewrite (no_unnamed _ _ _ Hnames _ _ Hd El) in Hx. done.
      - destruct Hk as [x Hx]. destruct (no_blk _ _ _ Hnames _ _ Hx) as (d & Hd & Hkept). exists d. split; [done|].
        eapply kept_nice; [|exact Hkept]. apply Hwbn. by apply HB in Hx. }
    assert (Hloc' : ∀ v, is_Some (vals fd !! v) → is_global_id v = false) by (intros v Hv; by eapply Hloc).
    assert (HK : Forall (known fd G Fn B) (h_fun f fd)).
    { unfold h_fun. constructor; [simpl; eauto|]. apply list.Forall_app. split; [by eapply k_params|by eapply k_blocks]. }
    destruct (serve_all p fd (h_fun f fd) m1 st I) as (m2 & st' & os & Hsv & Hos & Hw & I2 & Hg2).
    { eapply list.Forall_impl; [exact HK|exact Hcan]. }
    set (L' := nm_values m2) in *. set (B' := nm_bbs m2) in *. set (Fn' := nm_funcs m2) in *. set (G' := nm_gvars m2) in *.
    assert (HW : ∀ h x, name_in G' Fn' L' B' h = Some x → wf_name x) by (intros h x; by apply (wf_name_in m2 st')).
    pose proof I2 as [R2 Ig If Iv Ib Igf _ _]. pose proof R2 as [].
    assert (HGL : ∀ v w x, G' !! v = Some x → L' !! w = Some x → False).
    { intros v w x H1 H2. assert (A : x ∈ wr_globals st') by (apply nr_wg; eauto). assert (C : x ∈ wr_vals st') by (apply nr_wv; eauto).
      by apply nr_apart in C as [? _]. }
    assert (HLd : ∀ v x, L' !! v = Some x → known fd G Fn B (HVal v) ∧ is_global_id v = false).
    { intros v x Hv. destruct (serves_vals _ _ _ _ _ Hsv _ _ Hv) as [Hc|[Hh Hg]]; [by rewrite Hv0, lookup_empty in Hc|].
      split; [|done]. eapply list.Forall_forall in HK; [exact HK|exact Hh]. }
    assert (HBd : ∀ b x, B' !! b = Some x → is_Some (B !! b)).
    { intros b x Hb. destruct (serves_blks _ _ _ _ _ Hsv _ _ Hb) as [Hc|Hh]; [by rewrite Hb0, lookup_empty in Hc|]. eapply list.Forall_forall in HK; [|exact Hh]. exact HK. }
    assert (HN : nameable fd L' B').
    { constructor.
      - intros v x Hv. destruct (HLd _ _ Hv) as [Hk Eg]. simpl in Hk. rewrite Eg in Hk. done.
      - intros b x Hb. apply HBd in Hb as [y Hy]. destruct (no_blk _ _ _ Hnames _ _ Hy) as (d & Hd & _). eauto. }
    unfold h_fun in Hos. apply (wa_cons G' Fn' L' B' HW) in Hos as (n' & os1 & -> & Hn' & Hwn' & Hos).
    apply wa_app in Hos as (o1 & o2 & -> & H1 & H2).
    assert (Hsh' : ∀ v d, vals fd !! v = Some d → short (v_ty d)) by (intros v d; by apply (Hshort f)).
    destruct (rt_params fd L G' Fn' L' B' Hloc' Hsh' HW _ _ _ Hps _ H1) as (ps' & P1 & P2 & P3 & P4).
    assert (Hshl : Forall block_shape l) by (apply list.Forall_forall; intros b Hb; eapply list.Forall_forall in Hsh; [exact Hsh|auto]).
    assert (Hserl : Forall (λ b, Forall (λ st, st ≠ SErr) (b_stmts b)) l) by (apply list.Forall_forall; intros b Hb; eapply list.Forall_forall in Hser; [exact Hser|auto]).
    destruct (rt_blocks p f fd G Fn L B G' Fn' L' B' Hf HT Hnames Hloc' Hsh' HW _ _ Hbs _ Hwl Hshl Hserl H2) as (bbs' & B1 & B2 & B3 & B4).
    assert (Hocc : occ_of (HFun f) n' :: o1 ++ o2 = occ_top (TFunDef n' ps' r bbs')) by (cbn [occ_top]; by rewrite <- P3, <- B4).
    rewrite Hocc in Hw.
    assert (Hkept : ∀ c x, nm_funcs m2 !! c = Some x → ∃ y, p_funcs p !! c = Some y ∧ f_name y = x).
    { eapply HfunSub; [exact Hsv|]. intros c [Hc|Hc]%elem_of_app.
      - apply elem_of_list_In, in_map_iff in Hc as (? & ? & _). done.
      - apply h_blocks_funs in Hc as (v & t0 & vs & Hv). unfold datas in Hv. rewrite lookup_fmap in Hv. apply fmap_Some in Hv as (d & Hv & E). injection E as _ E.
        by eapply Hpast. }
    assert (Hserved : served_all p fd G' Fn' L' B' m1 (occ_top (TFunDef n' ps' r bbs')) m2).
    { eapply (serves_all p fd G' Fn' L' B' (h_fun f fd)); try done. rewrite <- Hocc. unfold h_fun. constructor; [by exists n'|].
      by apply Forall2_app. }
    assert (HGv : ∀ v x, G' !! v = Some x → is_global_id v = true ∧ ∃ d i, p_values p !! v = Some d ∧ v_kind d = KGlobalAlloc i).
    { intros v x. rewrite Hg2. apply HG1. }
    assert (N0 : named p fd G' Fn' L' B').
    { constructor; [done|done|done|]. intros c x Hc. destruct (Hkept _ _ Hc) as (y & ? & _). eauto. }
    assert (HBi : inj_names B) by (intros v w x; by apply HB).
    assert (Hord' : in_order bbs' bbs').
    { apply (order_like (λ a c, ∃ h, B !! h = Some a ∧ B' !! h = Some c)) with (bbs := bbs) (l := l); [|done|done|].
      - intros a c a' c' (h & Ha & Hc) (h' & Ha' & Hc'). split; intros E; subst.
        + assert (h = h') as -> by (by eapply HBi). congruence.
        + assert (h = h') as -> by (by eapply Ib). congruence.
      - clear -Hbs B1. revert bbs' B1. induction Hbs as [|x b xs bs Hb Hbs IH]; intros bbs' B1; inversion B1 as [|? b' ? bs' Hb' B1']; subst; constructor; [|by apply IH].
        split; [exists x.1; split; [apply Hb|apply Hb']|]. apply ends_named in Hb, Hb'. clear -Hb Hb'.
        revert Hb'. generalize (ends_to b'). induction Hb as [|h a hs as' H _ IH]; intros l H'; inversion H'; subst; constructor; eauto. }
    assert (Hnd' : NoDup (map b_name bbs')).
    { destruct Htd as [_ _ _ [[Hndb _] _]]. apply (nodup_named B' (map fst (l_bbs (f_layout fd)))); [done| |exact Hndb].
      clear -B1. induction B1 as [|x b xs bs (Hb & _) _ IH]; simpl; by constructor. }
    exists (TFunDef n' ps' r bbs'), m2, st'. split; [eapply t_fun_def; try done; eauto|]. split; [done|]. split; [done|].
    split; [by eapply serves_grows|]. split; [done|]. split; [exact Hkept|]. split.
    { split; [done|]. split; [done|]. split; [|split; [|done]].
      - eapply ret_short; [exact Hr|]. specialize (HshortF _ _ Hf). rewrite Hty in HshortF. by inversion HshortF.
      - intros ->. destruct Hord' as (e & ? & _). done. }
    split; [done|]. split; [done|]. split; [exists us, t; rewrite P4; done|]. exists L', B'. split; [done|]. split; [done|]. split; [done|]. split; [done|].
    split; [done|]. split; [done|]. split; [by eapply (names_once fd G' Fn' L' B' ps' bbs')|]. split.
    { pose proof (fun_named fd G' Fn' L' B' ps' bbs' P1 B1 B2) as F. intros x Hx. apply elem_of_list_lookup in Hx as [i Hi'].
      destruct (Forall2_lookup_r _ _ _ _ _ F Hi') as (h & _ & ?). eauto. }
    split; [|done].
    intros b x Hb. destruct (HBd _ _ Hb) as [y Hy]. apply HB in Hy as Hin. apply elem_of_list_In, in_map_iff in Hin as (blk & <- & Hin).
    apply elem_of_list_In, elem_of_list_lookup in Hin as [i Hi']. destruct (Forall2_lookup_r _ _ _ _ _ Hbs Hi') as (z & Hz & (Hz1 & _)).
    assert (z.1 = b) as <- by (by eapply HBi). destruct (Forall2_lookup_l _ _ _ _ _ B1 Hz) as (blk' & Hz' & (Hz2 & _)).
    assert (x = b_name blk') as -> by congruence. apply elem_of_list_In, in_map, elem_of_list_In. by eapply elem_of_list_lookup_2.
  - destruct Ht as (En & Hne & Hvs & us & t & Hty & Hps & Hr).
    destruct (HFn _ _ Hfn) as (x & Hx & Hnice). assert (x = fd) as -> by congruence.
    destruct (serve_all p fd [HFun f] m1 st I) as (m2 & st' & os & Hsv & Hos & Hw & I2 & Hg2).
    { constructor; [|constructor]. split; [|done]. simpl. eauto. }
    assert (HW : ∀ h x, named_in m2 h = Some x → wf_name x) by (intros h x; by apply (wf_name_in m2 st')).
    pose proof I2 as [R2 Ig If Iv Ib Igf _ _]. pose proof R2 as [].
    apply (wa_one (nm_gvars m2) (nm_funcs m2) (nm_values m2) (nm_bbs m2) HW) in Hos as (n' & -> & Hn' & Hwn').
    assert (HGL : ∀ v w x, nm_gvars m2 !! v = Some x → nm_values m2 !! w = Some x → False).
    { intros v w x H1 H2. assert (A : x ∈ wr_globals st') by (apply nr_wg; eauto). assert (C : x ∈ wr_vals st') by (apply nr_wv; eauto).
      by apply nr_apart in C as [? _]. }
    assert (Hserved : served_all p fd (nm_gvars m2) (nm_funcs m2) (nm_values m2) (nm_bbs m2) m1 (occ_top (TFunDecl n' ps r)) m2).
    { eapply (serves_all p fd _ _ _ _ [HFun f]); try done. constructor; [by exists n'|constructor]. }
    assert (Hkept : ∀ c x, nm_funcs m2 !! c = Some x → ∃ y, p_funcs p !! c = Some y ∧ f_name y = x).
    { eapply HfunSub; [exact Hsv|]. by intros c ?%elem_of_nil. }
    assert (N0 : named p fd (nm_gvars m2) (nm_funcs m2) (nm_values m2) (nm_bbs m2)).
    { constructor; [intros v Hv; by eapply Hloc| |intros v y; rewrite Hg2; apply HG1|intros c y Hc; destruct (Hkept _ _ Hc) as (z & ? & _); eauto].
      constructor; intros v y Hv.
      - destruct (serves_vals _ _ _ _ _ Hsv _ _ Hv) as [Hc|[Hh _]]; [by rewrite Hv0, lookup_empty in Hc|]. by apply elem_of_list_singleton in Hh.
      - destruct (serves_blks _ _ _ _ _ Hsv _ _ Hv) as [Hc|Hh]; [by rewrite Hb0, lookup_empty in Hc|]. by apply elem_of_list_singleton in Hh. }
    exists (TFunDecl n' ps r), m2, st'. split; [eapply t_fun_decl; try done; eauto|]. split; [done|]. split; [done|].
    split; [by eapply serves_grows|]. split; [done|]. split; [exact Hkept|]. specialize (HshortF _ _ Hf). rewrite Hty in HshortF. inversion HshortF; subst.
    split; [|split; [done|]; eauto 10]. split; [done|]. split; [by eapply types_short|by eapply ret_short].
Qed.
End fun_step.
