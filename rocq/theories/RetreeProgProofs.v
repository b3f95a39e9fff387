(** The text that is printed for a program that the front end builds is canonical. *)
From Coq Require Import Lia ZifyBool ZifyNat ZifyN.
From Verif Require Import SkelProofs DriverModel DriverSpec DriverProofs FrontProofs FrontModel FrontShapeProofs FunCleanProofs FaithTopProofs HistoryProofs.
From Verif Require Import Base IdModel TypeModel IrModel LayoutModel BuilderModel WorldModel TextModel NameModel LexerModel LexerSpec ParserModel ParserSpec
  DfgSpec FlowSpec FaithFunProofs LayoutSpec LayoutProofs CanonReadProofs PrintSpec TypingSpec FaithSpec FaithProofs RoundProofs LexerRunProofs KoopaModel CanonSpec TreeTextProofs CanonNameProofs CanonProofs TreeWfProofs
  RetreeNameProofs RetreeProofs RetreeFunProofs RetreeTopProofs.
From Coq Require Import Sorted.
From Verif Require RegularProofs.

(** ** Global variables *)
Definition redescribes_global (G : gmap N string) (m : gmap N vdata) (v : value) (t : atop) : Prop :=
  match t with
  | TGlobal n t i => G !! v = Some n ∧ ∃ d init e, m !! v = Some d ∧ v_kind d = KGlobalAlloc init ∧ m !! init = Some e ∧
      const_is (datas m) init i ∧ denotes t (v_ty e) ∧ init_fits t i
  | _ => False
  end.
Lemma empty_vals m st : ninv m st → nm_values m = ∅ → nm_bbs m = ∅ → end_top st = st.
Proof.
  intros [R _ _ _ _ _ _ _] Hv Hb. destruct R. destruct st as [k Gs Fs Vs Bs]. unfold end_top. simpl in *.
  assert (Vs = ∅) as ->; [|assert (Bs = ∅) as ->; [|done]]; apply leibniz_equiv; intros x.
  - rewrite nr_wv, Hv. split; [|by intros ?%elem_of_empty]. intros [v H]. by rewrite lookup_empty in H.
  - rewrite nr_wb, Hb. split; [|by intros ?%elem_of_empty]. intros [v H]. by rewrite lookup_empty in H.
Qed.
Lemma print_global p G v t m st : global_is G (p_values p) v t → ok_top t → (∀ w d, p_values p !! w = Some d → short (v_ty d)) →
  ninv m st → nm_gvars m !! v = None →
  ∃ t' n' m' st', visit_global_inst p v m = (Rok (text_top t'), m') ∧ writes_all st (occ_top t') st' ∧ ninv m' st' ∧ nm_gvars m' = <[v := n']> (nm_gvars m) ∧
    nm_values m' = nm_values m ∧ nm_bbs m' = nm_bbs m ∧ nm_in_func m' = nm_in_func m ∧ nm_funcs m' = nm_funcs m ∧
    wf_global t' ∧ redescribes_global (nm_gvars m') (p_values p) v t' ∧
    ∃ d, p_values p !! v = Some d ∧ nice (v_name d) ∧ value_name true v (v_name d) m = Some (n', m').
Proof.
  intros Ht Hok Hsh I Hnew. destruct t as [n t i| | | |]; try done.
  destruct Ht as (Hv & d & init & e & Hd & Hk & Hkept & He & Hc & _ & a & Hden & Hfit). destruct Hok as [Hwn Hwi].
  destruct (serve_one p (FData TUnit "" [] dfg0 layout0) m st (HGlobal v) I) as (r & n' & m' & st' & Hr & Hs & Hn & Hw & I' & Hg & _ & Hins).
  { split; [done|]. exists d. split; [done|]. by eapply kept_nice. }
  specialize (Hins _ eq_refl).
  destruct Hr as (d' & Hd' & ->). assert (d' = d) as -> by congruence.
  pose proof Hs as Hs'. simpl in Hs'. apply bind_Some in Hs' as ([x y] & Hval & E). injection E as -> ->.
  assert (Hsame : nm_values m' = nm_values m ∧ nm_bbs m' = nm_bbs m ∧ nm_funcs m' = nm_funcs m).
  { unfold value_name in Hval. rewrite Hnew in Hval. apply bind_Some in Hval as ([[? ?] ?] & _ & E). by injection E as <- <-. }
  destruct Hsame as (S1 & S2 & S3).
  assert (H1 : p_value_name v d m = (Rok n', m')).
  { unfold p_value_name, p_name. rewrite Hk. cbn [is_const is_global_alloc]. by rewrite Hval. }
  exists (TGlobal n' a i), n', m', st'. split.
  { unfold visit_global_inst. rewrite Hd. rewrite (mthen_ok _ _ _ d m) by done. rewrite Hk.
    rewrite He. rewrite (mthen_ok _ _ _ e m) by done. rewrite (mthen_ok _ _ _ _ _ H1).
    rewrite (mthen_ok _ _ _ (text_init i) m') by (by eapply p_const_text). unfold mok. cbn [text_top].
    by destruct (denotes_show _ _ Hden) as [-> _]. }
  split; [simpl; econstructor; [exact Hw|constructor]|]. split; [done|]. split; [done|]. split; [done|]. split; [done|]. split; [apply Hg|]. split; [done|].
  split; [|split].
  - split; [|split; [|done]].
    + eapply (wf_name_in m' st' (HGlobal v)); [done|]. exact Hn.
    + eapply short_aty; [exact Hden|]. by eapply Hsh.
  - split; [exact Hn|]. exists d, init, e. done.
  - exists d. split; [done|]. split; [|done]. by eapply kept_nice.
Qed.
(** A global variable is printed with its own name or with a number. *)
Definition gkept (p : program) (m : nm) : Prop :=
  ∀ v n, nm_gvars m !! v = Some n → temporary n ∨ ∃ d, p_values p !! v = Some d ∧ v_name d = Some n ∧ ordinary n.
Lemma global_kept p v d m st n m' : ninv m st → nm_values m = ∅ → nm_funcs m = ∅ → gkept p m → nm_gvars m !! v = None → p_values p !! v = Some d → nice (v_name d) →
  (∀ w e x, is_Some (nm_gvars m !! w) → p_values p !! w = Some e → v_name d = Some x → v_name e = Some x → v = w) →
  value_name true v (v_name d) m = Some (n, m') → gkept p m'.
Proof.
  intros [R _ _ _ _ _ _ _] Hv Hf HK Hnew Hd Hnice Hu Hval. destruct R. unfold value_name in Hval. rewrite Hnew in Hval. rewrite nr_prefix in Hval.
  assert (temporary n ∨ (v_name d = Some n ∧ ordinary n)) as Hn.
  { destruct (v_name d) as [o|] eqn:Eo; cbn [next_name] in Hval.
    - right. destruct (Hnice _ eq_refl) as [Ho _]. unfold next_name_str in Hval. simpl in Hval. rewrite decide_False in Hval; [simpl in Hval; by simplify_eq|].
      intros [H|[H|H]]%nr_names.
      + apply nr_wg in H as [w H]. destruct (HK _ _ H) as [Ht|(e & He & Hx & _)]; [by eapply temporary_not_ordinary|].
        assert (v = w) as -> by (eapply Hu; eauto). congruence.
      + apply nr_wf in H as [c H]. by rewrite Hf, lookup_empty in H.
      + apply nr_wv in H as [c H]. by rewrite Hv, lookup_empty in H.
    - left. cbn [mbind option_bind] in Hval. injection Hval as <- _. change (temporary (temp_name PDefault (nm_next m))). rewrite <- numbered_temp. apply numbered_temporary. }
  assert (nm_gvars m' = <[v := n]> (nm_gvars m)) as E.
  { apply bind_Some in Hval as ([[? ?] ?] & _ & E). by simplify_eq. }
  intros w x. rewrite E, lookup_insert_Some. intros [[<- <-]|[_ Hw]]; [|by apply HK]. destruct Hn as [?|[? ?]]; [by left|right; eauto].
Qed.
Lemma reglobal_mono G G' m v t : G ⊆ G' → redescribes_global G m v t → redescribes_global G' m v t.
Proof. intros HS. destruct t; try done. intros [H1 H2]. split; [by eapply lookup_weaken|done]. Qed.
Lemma print_globals p G vs ts : Forall2 (global_is G (p_values p)) vs ts → (∀ w d, p_values p !! w = Some d → short (v_ty d)) →
  ∀ m st, Forall ok_top ts → NoDup vs → (∀ v, v ∈ vs → nm_gvars m !! v = None) → ninv m st → nm_values m = ∅ → nm_bbs m = ∅ →
  nm_funcs m = ∅ → gkept p m → (∀ v n, nm_gvars m !! v = Some n → is_Some (G !! v)) →
  (∀ v w d e x, is_Some (G !! v) → is_Some (G !! w) → p_values p !! v = Some d → p_values p !! w = Some e → v_name d = Some x → v_name e = Some x → v = w) →
  ∃ ts' m' st', p_map (visit_global_inst p) vs m = (Rok (map text_top ts'), m') ∧ writes_tops st ts' st' ∧ ninv m' st' ∧ nm_values m' = ∅ ∧ nm_bbs m' = ∅ ∧
    nm_in_func m' = nm_in_func m ∧ nm_funcs m' = nm_funcs m ∧ nm_gvars m ⊆ nm_gvars m' ∧ (∀ v n, nm_gvars m' !! v = Some n → v ∈ vs ∨ nm_gvars m !! v = Some n) ∧
    Forall wf_global ts' ∧ Forall2 (redescribes_global (nm_gvars m') (p_values p)) vs ts' ∧ gkept p m'.
Proof.
  intros F Hsh. induction F as [|v t vs ts Hv _ IH]; intros m st Hok Hnd Hnew I V0 B0 Fn0 HK HmG Hu.
  { exists [], m, st. split; [done|]. split; [constructor|]. split; [done|]. split; [done|]. split; [done|]. split; [done|]. split; [done|]. split; [done|].
    split; [by right|]. split; [constructor|]. split; [constructor|done]. }
  apply list.Forall_cons in Hok as [Hok1 Hok]. apply list.NoDup_cons in Hnd as [Hnin Hnd].
  destruct (print_global p G v t m st Hv Hok1 Hsh I) as (t' & n' & m1 & st1 & E1 & W1 & I1 & G1 & V1 & B1 & F1 & N1 & T1 & R1 & d & Hd & Hnice & Hval); [apply Hnew; by left|].
  assert (HGv : is_Some (G !! v)) by (destruct t; try done; destruct Hv; eauto).
  destruct (IH m1 st1 Hok Hnd) as (ts' & m2 & st2 & E2 & W2 & I2 & V2 & B2 & F2 & N2 & G2 & D2 & T2 & R2 & K2); [|done|congruence|congruence|congruence| | |exact Hu|].
  { intros w Hw. rewrite G1, lookup_insert_ne; [apply Hnew; by right|]. intros ->. done. }
  { eapply (global_kept p v d m st); try done; [apply Hnew; by left|]. intros w e x [y Hw] He Hx Hy. by eapply (Hu v w d e x); eauto. }
  { intros w x. rewrite G1, lookup_insert_Some. intros [[<- _]|[_ Hw]]; [done|by eapply HmG]. }
  exists (t' :: ts'), m2, st2. split; [|split; [|split; [done|split; [done|split; [done|split; [|split; [|split; [|split; [|split; [|split]]]]]]]]]].
  - cbn [p_map map]. by rewrite (mthen_ok _ _ _ _ _ E1), (mthen_ok _ _ _ _ _ E2).
  - econstructor; [exact W1|]. rewrite (empty_vals m1 st1); [done|done|congruence|congruence].
  - congruence.
  - congruence.
  - etrans; [|exact G2]. rewrite G1. apply insert_subseteq. apply Hnew. by left.
  - intros w x Hw. destruct (D2 _ _ Hw) as [?|Hx]; [left; by right|]. rewrite G1 in Hx. apply lookup_insert_Some in Hx as [[-> _]|[_ ?]]; [left; by left|by right].
  - by constructor.
  - constructor; [|done]. by eapply reglobal_mono.
  - done.
Qed.

(** ** Calls and jumps of the printed tree *)
Lemma fits_stmt p G Fn L B fd f ts bbs v st : well_typed p → p_funcs p !! f = Some fd → inj_names Fn → inj_names B →
  (∀ g n r, has_sig ts g n r → ∃ c x us t, Fn !! c = Some g ∧ p_funcs p !! c = Some x ∧ f_ty x = TFun us t ∧ length us = n ∧ denotes_ret r t) →
  (∀ blk, blk ∈ bbs → ∃ b bd, B !! b = Some (b_name blk) ∧ blks fd !! b = Some bd ∧ length (bb_params bd) = length (b_params blk)) →
  is_stmt G Fn L B (datas (vals fd)) v st → exact_at fd v st → stmt_fits ts bbs st.
Proof.
  intros [_ HT] Hf HFi HBi Hsig Hblk (t & k & Ht & Hst) Hex.
  unfold datas in Ht. rewrite lookup_fmap in Ht. apply fmap_Some in Ht as (d & Hd & E). injection E as -> ->.
  specialize (HT _ _ _ _ Hf Hd). specialize (Hex _ Hd).
  assert (Hcall : ∀ c vs g n r, v_kind d = KCall c vs → Fn !! c = Some g → has_sig ts g n r → length vs = n ∧ denotes_ret r (v_ty d)).
  { intros c vs g n r Hk Hc Hs. rewrite Hk in HT. simpl in HT. inversion HT as [| | | | | | | | | | | | |? ? us ret Hfun Hargs| |]; subst.
    destruct (Hsig _ _ _ Hs) as (c' & x & us' & t' & Hc' & Hx & Hty & Hlen & Hr). assert (c' = c) as -> by (by eapply HFi).
    simpl in Hfun. rewrite Hx in Hfun. simpl in Hfun. rewrite Hty in Hfun. injection Hfun as -> ->. split; [|done].
    apply Forall2_length in Hargs. congruence. }
  assert (Hgo : ∀ b n vs (a : list aval), B !! b = Some n → args_match (local_env p fd) b vs → length vs = length a →
    ∀ blk, blk ∈ bbs → b_name blk = n → length a = length (b_params blk)).
  { intros b n vs a Hb (ps & Hps & Hm) Hl blk Hin Hn. destruct (Hblk _ Hin) as (b' & bd & Hb' & Hbd & Hlen). rewrite Hn in Hb'.
    assert (b' = b) as -> by (by eapply HBi). simpl in Hps. rewrite Hbd in Hps. injection Hps as <-. rewrite <- Hl, <- Hlen. by apply Forall2_length in Hm. }
  destruct st as [n e|x dst|g args|c t1 ta t2 fa|t1 a|[a|]|]; simpl in Hst; cbn [stmt_fits]; try exact Logic.I.
  - destruct e as [| | | | |g args]; try exact Logic.I. destruct Hst as (_ & _ & c & vs & Hk & Hc & _). destruct Hex as [Hex _]. rewrite Hk in Hex.
    intros n' r Hs. destruct (Hcall _ _ _ _ _ Hk Hc Hs) as [? _]. congruence.
  - destruct Hst as (c & vs & Hk & Hc & _). destruct Hex as [Hex Hu]. rewrite Hk in Hex. intros n' r Hs. destruct (Hcall _ _ _ _ _ Hk Hc Hs) as [? Hr]. split; [congruence|].
    rewrite Hu in Hr. destruct r as [a|]; [|done]. simpl in Hr. by apply denotes_no_unit in Hr.
  - destruct Hst as (v0 & b1 & b2 & vs1 & vs2 & Hk & _ & Hb1 & _ & Hb2 & _). rewrite Hk in HT, Hex. destruct Hex as [[X1 X2] _].
    simpl in HT. inversion HT; subst. split; [by eapply (Hgo b1)|by eapply (Hgo b2)].
  - destruct Hst as (b & vs & Hk & Hb & _). rewrite Hk in HT, Hex. destruct Hex as [X1 _]. simpl in HT. inversion HT; subst. by eapply Hgo.
Qed.

(** ** Functions *)
Section funs.
Context (p : program) (G Fn : gmap N string).
Context (HT : well_typed p)
  (HG : ∀ v n, G !! v = Some n → is_global_id v = true ∧ ∃ d i, p_values p !! v = Some d ∧ v_kind d = KGlobalAlloc i)
  (HFn : ∀ c n, Fn !! c = Some n → ∃ x, p_funcs p !! c = Some x ∧ nice (Some (f_name x)))
  (Hloc : ∀ f fd v, p_funcs p !! f = Some fd → is_Some (vals fd !! v) → is_global_id v = false)
  (Hshort : ∀ f fd v d, p_funcs p !! f = Some fd → vals fd !! v = Some d → short (v_ty d))
  (HshortF : ∀ f fd, p_funcs p !! f = Some fd → short (f_ty fd))
  (Htidy : ∀ f fd, f ∈ p_func_layout p → p_funcs p !! f = Some fd → blks fd ≠ ∅ → tidy fd)
  (HFi : inj_names Fn) (HFl : ∀ c x, p_funcs p !! c = Some x → Fn !! c = Some (f_name x))
  (Hcalls : ∀ l1 f l2 fd v d c vs, p_func_layout p = l1 ++ f :: l2 → p_funcs p !! f = Some fd → vals fd !! v = Some d → v_kind d = KCall c vs → c = f ∨ c ∈ l1).
Lemma print_funs fs xs : Forall2 (λ f t, ∃ fd, p_funcs p !! f = Some fd ∧ Fn !! f = Some (f_name fd) ∧ fun_is G Fn fd t) fs xs →
  ∀ l1, p_func_layout p = l1 ++ fs →
  ∀ m st, Forall top_ok xs → between m st → (∀ v, is_Some (G !! v) ↔ is_Some (nm_gvars m !! v)) →
  (∀ c n, nm_funcs m !! c = Some n → ∃ x, p_funcs p !! c = Some x ∧ f_name x = n) →
  (∀ v n c x, nm_gvars m !! v = Some n → p_funcs p !! c = Some x → n ≠ f_name x) → (∀ c, c ∈ l1 → is_Some (nm_funcs m !! c)) →
  ∃ ts' m' st', p_map (λ f, fd <- p_some (p_funcs p !! f);; p_name_ enter_func_scope;; s <- visit_func p f fd;; p_name_ exit_func_scope;; mok s) fs m =
    (Rok (map text_top ts'), m') ∧ writes_tops st ts' st' ∧ between m' st' ∧ nm_gvars m' = nm_gvars m ∧ nm_funcs m ⊆ nm_funcs m' ∧ Forall wf_func ts' ∧
    (∀ c n, nm_funcs m' !! c = Some n → ∃ x, p_funcs p !! c = Some x ∧ f_name x = n) ∧
    Forall2 (λ f t, ∃ fd, p_funcs p !! f = Some fd ∧ redescribes (nm_gvars m') (nm_funcs m') f fd t) fs ts'.
Proof.
  induction 1 as [|f t fs xs (fd & Hf & Hn & Ht) _ IH]; intros l1 Hfs m st Hok Hb Hgv Hfv Hgn Hold.
  { exists [], m, st. split; [done|]. split; [constructor|]. split; [done|]. split; [done|]. split; [done|]. split; [constructor|]. split; [done|constructor]. }
  apply list.Forall_cons in Hok as [Hok1 Hok].
  destruct (print_fun p G Fn HT HG HFn Hloc Hshort HshortF f fd t m st Hf Hn Ht Hok1) as (t' & m1 & st1 & E1 & W1 & B1 & G1 & F1 & C1 & T1 & R1); try done.
  { apply (Htidy f); [|done]. rewrite Hfs. apply elem_of_app. right. by left. }
  { intros v. apply Hgv. }
  { intros v n Hv. apply Hgv. eauto. }
  { intros v Hv. by eapply Hgn. }
  { intros c Hc. destruct (Hfv _ _ Hc) as (x & Hx & E). eapply HFi; [by apply HFl|]. by rewrite E. }
  { intros v d c vs Hv Hk. destruct (Hcalls _ _ _ _ _ _ _ _ Hfs Hf Hv Hk) as [?|?]; [by left|right; by apply Hold]. }
  destruct (IH (l1 ++ [f]) ltac:(by rewrite Hfs, <- app_assoc) m1 (end_top st1) Hok B1) as (ts' & m2 & st2 & E2 & W2 & B2 & G2 & F2 & T2 & K2 & R2); [by rewrite G1|done|by rewrite G1| |].
  { intros c [Hc| ->%elem_of_list_singleton]%elem_of_app.
    - destruct (Hold _ Hc) as [x Hx]. exists x. by eapply lookup_weaken.
    - destruct t'; try done; destruct R1; eauto. }
  exists (t' :: ts'), m2, st2. split; [|split; [|split; [done|split; [congruence|split; [by etrans|split; [|split; [done|]]]]]]].
  - cbn [p_map map]. rewrite (mthen_ok _ _ _ (text_top t') m1).
    2: { rewrite Hf. by rewrite (mthen_ok _ _ _ fd m). }
    by rewrite (mthen_ok _ _ _ _ _ E2).
  - by econstructor.
  - by constructor.
  - constructor; [|done]. exists fd. split; [done|]. rewrite G2. by eapply redescribes_mono.
Qed.
End funs.

(** ** Programs *)
Definition redescribed (p : program) (gs fs : list atop) : Prop :=
  ∃ G Fn : gmap N string, inj_names G ∧ inj_names Fn ∧ (∀ v n w, G !! v = Some n → Fn !! w = Some n → False) ∧
    ((∀ v, is_Some (G !! v) → v ∈ p_inst_layout p) ∧ ∀ c n, Fn !! c = Some n → ∃ x, p_funcs p !! c = Some x ∧ f_name x = n) ∧
    Forall2 (redescribes_global G (p_values p)) (p_inst_layout p) gs ∧
    Forall2 (λ f t, ∃ fd, p_funcs p !! f = Some fd ∧ redescribes G Fn f fd t) (p_func_layout p) fs.
Lemma print_canonical p ts : faithful p ts → well_typed p → Forall top_ok ts →
  (∀ f fd v, p_funcs p !! f = Some fd → is_Some (vals fd !! v) → is_global_id v = false) →
  (∀ f fd v d, p_funcs p !! f = Some fd → vals fd !! v = Some d → short (v_ty d)) →
  (∀ f fd, p_funcs p !! f = Some fd → short (f_ty fd)) → (∀ w d, p_values p !! w = Some d → short (v_ty d)) →
  (∀ f fd, f ∈ p_func_layout p → p_funcs p !! f = Some fd → (blks fd ≠ ∅ → tidy fd) ∧ ordinary (f_name fd)) →
  NoDup (p_inst_layout p) →
  (∀ f, is_Some (p_funcs p !! f) → f ∈ p_func_layout p) →
  (∀ l1 f l2 fd v d c vs, p_func_layout p = l1 ++ f :: l2 → p_funcs p !! f = Some fd → vals fd !! v = Some d → v_kind d = KCall c vs → c = f ∨ c ∈ l1) →
  NoDup (concat (map (λ t, gvar_names t ++ gfun_names t) ts)) →
  ∃ gs fs, print_program p = Rok (text_program gs fs) ∧ canonical gs fs ∧ redescribed p gs fs.
Proof.
  intros (G & Fn & Hg & Hf & HG & HF & HGi & HFi) HT Hok Hloc Hs1 Hs2 Hs3 Htd Hnd Hall Hcalls Hnames.
  assert (HGv : ∀ v n, G !! v = Some n → is_global_id v = true ∧ ∃ d i, p_values p !! v = Some d ∧ v_kind d = KGlobalAlloc i).
  { intros v n Hv. destruct (HG _ _ Hv) as [Hid Hin]. split; [done|]. apply elem_of_list_lookup in Hin as [i Hi].
    destruct (Forall2_lookup_l _ _ _ _ _ Hg Hi) as (t & _ & Ht). destruct t; try done. destruct Ht as (_ & d & init & e & Hd & Hk & _). eauto. }
  assert (Hokg : Forall ok_top (filter is_global_def ts)).
  { apply list.Forall_forall. intros t [_ Hin]%elem_of_list_filter. eapply list.Forall_forall in Hok; [|exact Hin]. apply Hok. }
  assert (Hokf : Forall top_ok (filter is_fun_top ts)).
  { apply list.Forall_forall. intros t [_ Hin]%elem_of_list_filter. eapply list.Forall_forall in Hok; [|exact Hin]. exact Hok. }
  assert (Hgname : ∀ v d x, is_Some (G !! v) → p_values p !! v = Some d → v_name d = Some x → G !! v = Some x).
  { intros v d x [y Hv] Hd Hx. destruct (HG _ _ Hv) as [_ Hin]. apply elem_of_list_lookup in Hin as [i Hi].
    destruct (Forall2_lookup_l _ _ _ _ _ Hg Hi) as (t & Ht & Hgi). destruct t as [n a j| | | |]; try done. destruct Hgi as (Hn & d' & init & e & Hd' & _ & Hk & _).
    assert (d' = d) as -> by congruence. apply elem_of_list_lookup_2 in Ht. eapply list.Forall_forall in Hokg; [|exact Ht]. destruct Hokg as [Hwn _].
    destruct (kept_nice _ _ Hwn Hk _ Hx) as [Ho _]. rewrite Hn. f_equal. destruct Hk as [Hk1 Hk2].
    assert (Hdec : Decision (temporary n)) by (unfold temporary, percent_or_digit; apply _).
    destruct Hdec as [H|H]; [apply Hk1 in H; congruence|]. apply ordinary_not_temporary in H; [|apply Hwn]. apply Hk2 in H. congruence. }
  destruct (print_globals p G _ _ Hg Hs3 nm0 written0 Hokg Hnd) as (gs & m1 & st1 & E1 & W1 & I1 & V1 & B1 & N1 & F1 & _ & D1 & T1 & R1 & K1); try done.
  { apply ninv0. }
  { intros v w d e x Hv Hw Hd He Hx Hy. eapply HGi; [by eapply Hgname|by eapply Hgname]. }
  assert (Hfl : ∀ c x, p_funcs p !! c = Some x → Fn !! c = Some (f_name x) ∧ ∃ t, t ∈ ts ∧ gfun_names t = [f_name x]).
  { intros c x Hc. assert (Hin : c ∈ p_func_layout p) by (apply Hall; eauto). apply elem_of_list_lookup in Hin as [i Hi].
    destruct (Forall2_lookup_l _ _ _ _ _ Hf Hi) as (t & Ht & fd & Hfd & Hfn & Hfi). assert (fd = x) as -> by congruence. split; [done|].
    exists t. apply elem_of_list_lookup_2, elem_of_list_filter in Ht as [_ Ht]. split; [done|]. destruct t; try done; destruct Hfi as (-> & _); done. }
  assert (Hapart : ∀ v n c x, nm_gvars m1 !! v = Some n → p_funcs p !! c = Some x → n ≠ f_name x).
  { intros v n c x Hv Hc ->. destruct (Hfl _ _ Hc) as (_ & t & Ht & Et). destruct (K1 _ _ Hv) as [Htmp|(d & Hd & Hx & _)].
    - eapply temporary_not_ordinary; [exact Htmp|]. eapply (Htd c); [apply Hall; eauto|done].
    - assert (HGs : is_Some (G !! v)).
      { destruct (D1 _ _ Hv) as [Hin|?]; [|done]. apply elem_of_list_lookup in Hin as [i Hi].
        destruct (Forall2_lookup_l _ _ _ _ _ Hg Hi) as (u & _ & Hu). destruct u; try done. destruct Hu as [? _]. eauto. }
      pose proof (Hgname _ _ _ HGs Hd Hx) as HGx. destruct (HG _ _ HGx) as [_ Hin]. apply elem_of_list_lookup in Hin as [i Hi].
      destruct (Forall2_lookup_l _ _ _ _ _ Hg Hi) as (u & Hu & Hgu). apply elem_of_list_lookup_2, elem_of_list_filter in Hu as [_ Hu].
      destruct u as [n0 a j| | | |]; try done. destruct Hgu as [Hgn _]. assert (n0 = f_name x) as -> by congruence.
      clear -Hnames Ht Et Hu. induction ts as [|y ts IH]; [by apply elem_of_nil in Ht|]. simpl in Hnames. apply list.NoDup_app in Hnames as (_ & H2 & H3).
      assert (Hcat : ∀ z n, z ∈ ts → n ∈ gvar_names z ++ gfun_names z → n ∈ concat (map (λ t, gvar_names t ++ gfun_names t) ts)).
      { intros z n Hz Hn. apply elem_of_list_In, in_concat. exists (gvar_names z ++ gfun_names z). split; [|by apply elem_of_list_In].
        apply (in_map (λ t, gvar_names t ++ gfun_names t)). by apply elem_of_list_In. }
      apply elem_of_cons in Ht as [-> |Ht], Hu as [E|Hu]; [by subst y| | |by apply IH].
      + apply (H2 (f_name x)); [rewrite Et; apply elem_of_app; right; by left|]. eapply Hcat; [exact Hu|]. apply elem_of_app. left. by left.
      + subst y. apply (H2 (f_name x)); [apply elem_of_app; left; by left|]. eapply Hcat; [exact Ht|]. rewrite Et. apply elem_of_app. right. by left. }
  assert (HFv : ∀ c n, Fn !! c = Some n → ∃ x, p_funcs p !! c = Some x ∧ nice (Some (f_name x))).
  { intros c n Hn. apply HF in Hn as Hin. pose proof Hin as Hin'. apply elem_of_list_lookup in Hin as [i Hi].
    destruct (Forall2_lookup_l _ _ _ _ _ Hf Hi) as (t & Hi' & fd & Hfd & Hfn & Ht). exists fd. split; [done|].
    intros x [= <-]. split; [by apply (Htd c)|]. apply elem_of_list_lookup_2 in Hi'. eapply list.Forall_forall in Hokf; [|exact Hi']. destruct Hokf as [Hokt _].
    destruct t as [|n' ps r bbs|n' ps r| |]; try done; destruct Ht as (-> & _); by destruct Hokt. }
  assert (Hbet : between m1 st1).
  { simpl in N1. unfold between, enter_func_scope. rewrite N1. eexists. split; [done|]. split; [|done].
    destruct I1 as [R Ig If Iv Ib Igf Inum Iwf]. destruct R. constructor; simpl; try done.
    constructor; simpl; try done. intros n. by rewrite nr_wv, V1. }
  assert (Hiff : ∀ v, is_Some (G !! v) ↔ is_Some (nm_gvars m1 !! v)).
  { intros v. split.
    - intros [n Hv]. apply HG in Hv as [_ Hin]. apply elem_of_list_lookup in Hin as [i Hi].
      destruct (Forall2_lookup_l _ _ _ _ _ R1 Hi) as (t & _ & Ht). destruct t; try done. destruct Ht as [? _]. eauto.
    - intros [n Hv]. destruct (D1 _ _ Hv) as [Hin|?]; [|done]. apply elem_of_list_lookup in Hin as [i Hi].
      destruct (Forall2_lookup_l _ _ _ _ _ Hg Hi) as (t & _ & Ht). destruct t; try done. destruct Ht as [? _]. eauto. }
  destruct (print_funs p G Fn HT HGv HFv Hloc Hs1 Hs2 (λ f fd H1 H2, proj1 (Htd f fd H1 H2)) HFi (λ c x H, proj1 (Hfl c x H)) Hcalls _ _ Hf [] eq_refl m1 st1 Hokf Hbet Hiff)
    as (fs & m2 & st2 & E2 & W2 & B2 & G2 & _ & T2 & K2 & R2); [intros c n; by rewrite F1|done|by intros c ?%elem_of_nil|].
  exists gs, fs. split; [|split].
  - unfold print_program, visit_program. rewrite (mthen_ok _ _ _ _ _ E1), (mthen_ok _ _ _ _ _ E2). unfold mok. simpl.
    unfold text_program. rewrite join_cat, join_blank_cat. f_equal. f_equal. f_equal.
    case_decide as Hdec.
    + rewrite Hdec in R1. by inversion R1.
    + destruct gs; [by inversion R1; congruence|done].
  - destruct B2 as (m3 & _ & I3 & _ & _ & _ & G3 & F3). destruct I3 as [R Ig If Iv Ib Igf _ _]. rewrite G3 in Ig. rewrite F3 in If.
    set (G' := nm_gvars m2) in *. set (Fn' := nm_funcs m2) in *.
    assert (Hsig : ∀ g n r, has_sig (gs ++ fs) g n r → ∃ c x us t, Fn' !! c = Some g ∧ p_funcs p !! c = Some x ∧ f_ty x = TFun us t ∧ length us = n ∧ denotes_ret r t).
    { assert (Hin : ∀ t, t ∈ gs ++ fs → is_fun_top t = true → t ∈ fs).
      { intros t [Ht|Ht]%elem_of_app H; [|done]. eapply list.Forall_forall in T1; [|exact Ht]. by destruct t. }
      intros g n r [(l & Hl & Hn)|(l & bbs & Hl & Hn)]; apply Hin in Hl; try done; apply elem_of_list_lookup in Hl as [i Hi];
        destruct (Forall2_lookup_r _ _ _ _ _ R2 Hi) as (c & _ & fd & Hfd & Hre).
      - destruct Hre as (H1 & _ & _ & us & t & Hty & Hus & Hr). exists c, fd, us, t. apply Forall2_length in Hus. split_and!; [done|done|done|congruence|done].
      - destruct Hre as (H1 & _ & (us & t & Hty & Hus & Hr) & _). exists c, fd, us, t. apply Forall2_length in Hus. rewrite map_length in Hus. split_and!; [done|done|done|congruence|done]. }
    assert (Hgv : ∀ n, n ∈ gvars_of (gs ++ fs) → ∃ v, G' !! v = Some n).
    { intros n Hn. unfold gvars_of in Hn. apply elem_of_list_In, in_concat in Hn as (l & Hl & Hn). apply in_map_iff in Hl as (t & <- & Ht).
      destruct t as [n0 a i| | | |]; try done. destruct Hn as [<-|[]]. apply elem_of_list_In, elem_of_app in Ht as [Ht|Ht].
      - apply elem_of_list_lookup in Ht as [j Hj]. destruct (Forall2_lookup_r _ _ _ _ _ R1 Hj) as (v & _ & Hv & _). exists v. rewrite G2. exact Hv.
      - eapply list.Forall_forall in T2; [|exact Ht]. done. }
    split; [done|]. split; [done|]. split.
    { exists st2. clear -W1 W2. induction W1 as [s|s t s1 l s2 H _ IH]; [done|]. simpl. econstructor; [exact H|by apply IH]. }
    apply list.Forall_app. split.
    + apply list.Forall_forall. intros t Ht. apply elem_of_list_lookup in Ht as [j Hj]. destruct (Forall2_lookup_r _ _ _ _ _ R1 Hj) as (v & _ & Hv).
      destruct t; try done. by destruct Hv as (_ & ? & ? & ? & _ & _ & _ & _ & _ & ?).
    + apply list.Forall_forall. intros t Ht. apply elem_of_list_lookup in Ht as [j Hj]. destruct (Forall2_lookup_r _ _ _ _ _ R2 Hj) as (f & _ & fd & Hfd & Hv).
      destruct t as [|n ps r bbs|n ps r| |]; try done.
      destruct Hv as (_ & _ & _ & L & B & Q1 & Q2 & Q3 & Q4 & Q5 & Q6 & Q7 & Q8 & Q9 & Q10 & Q11 & Q12).
      split; [done|]. split; [done|]. split.
      { intros x Hx Hg'. destruct (Q8 _ Hx) as [w Hw]. destruct (Hgv _ Hg') as [v Hv]. by eapply Q4. }
      intros b st Hb Hst. apply elem_of_list_lookup in Hb as [i Hi]. destruct (Forall2_lookup_r _ _ _ _ _ Q11 Hi) as (x & Hx & (_ & _ & Hsts)).
      pose proof (Forall2_lookup_lr _ _ _ _ _ _ Q12 Hx Hi) as Hexs.
      apply elem_of_list_lookup in Hst as [k Hk]. destruct (Forall2_lookup_r _ _ _ _ _ Hsts Hk) as (v & Hv & Hvs).
      pose proof (Forall2_lookup_lr _ _ _ _ _ _ Hexs Hv Hk) as Hex.
      eapply (fits_stmt p G' Fn' L B fd f (gs ++ fs) bbs v st); try done.
      intros blk Hblk. apply elem_of_list_lookup in Hblk as [i' Hi']. destruct (Forall2_lookup_r _ _ _ _ _ Q11 Hi') as (y & Hy & (Hy1 & (qs & Hq & Hpar) & _)).
      rewrite lookup_fmap in Hq. apply fmap_Some in Hq as (bd & Hbd & ->). exists y.1, bd. split_and!; [done|done|by eapply Forall2_length].
  - destruct B2 as (m3 & _ & I3 & _ & _ & _ & G3 & F3). destruct I3 as [R Ig If Iv Ib Igf _ _]. rewrite G3 in Ig. rewrite F3 in If. destruct R.
    exists (nm_gvars m2), (nm_funcs m2). split; [done|]. split; [done|]. split.
    { intros v n w Hv Hw. assert (A : n ∈ wr_globals st2) by (apply nr_wg; rewrite G3; eauto). assert (C : n ∈ wr_funs st2) by (apply nr_wf; rewrite F3; eauto).
      by apply (Igf n). }
    split; [|split; [rewrite G2; done|done]].
    split; [|done]. intros v [n Hv]. rewrite G2 in Hv. by destruct (D1 _ _ Hv).
Qed.

(** ** Texts that are read *)
Lemma nodup_part {A} (g h : A → list string) (P : A → bool) (ts : list A) : NoDup (concat (map (λ t, g t ++ h t) ts)) → NoDup (concat (map g (filter P ts))).
Proof.
  induction ts as [|t ts IH]; [done|]. simpl. intros ((H1 & _)%list.NoDup_app & H2 & H3)%list.NoDup_app.
  destruct (P t) eqn:E; [rewrite filter_cons_True by (by rewrite E)|rewrite filter_cons_False by (rewrite E; intros []); by apply IH].
  simpl. apply list.NoDup_app. split; [done|]. split; [|by apply IH]. intros x Hx Hc. apply (H2 x); [apply elem_of_app; by left|].
  apply elem_of_list_In, in_concat in Hc as (l & Hl & Hc). apply in_map_iff in Hl as (y & <- & Hy). apply elem_of_list_In in Hy, Hc.
  apply elem_of_list_filter in Hy as [_ Hy]. apply elem_of_list_In, in_concat. exists (g y ++ h y). split; [apply (in_map (λ t, g t ++ h t)); by apply elem_of_list_In|].
  apply elem_of_list_In, elem_of_app. by left.
Qed.
Lemma read_prints r p n b s ts s' : (∀ c, RByte c ∈ r → is_ascii c) →
  read_program r = (Rok p, n, b) → driver_new r = (Rok s, 0%N) → parses s ts s' →
  (foldr (λ t n, globals_in t + n) 0 ts < local_value_id_starts_from)%N →
  ordinary_functions p → short_program p →
  ∃ gs fs, print_program p = Rok (text_program gs fs) ∧ canonical gs fs ∧ redescribed p gs fs.
Proof.
  intros Ha Hr Hd Hp Hbnd Hord [Hsg Hsf].
  pose proof (read_faithful _ _ _ _ _ _ _ Hr Hd Hp Hbnd) as HF. pose proof (RegularProofs.read_front _ _ _ _ _ _ _ Hr Hd Hp Hbnd) as FP.
  destruct (read_consistent _ _ _ _ _ _ _ Hr Hd Hp Hbnd) as (_ & _ & HT).
  destruct (read_ex _ _ _ _ Hr) as (w & (_ & _ & Hex) & Hw). subst p.
  pose proof Hr as Hr'. unfold read_program in Hr'. rewrite Hd in Hr'.
  destruct (generate_ok _ _ _ _ _ _ _ _ _ Hd Hr') as (_ & _ & s1 & ts' & s2 & E & Hp' & _ & Hshape & Hne & Hb & _ & _).
  injection E as <-. assert (ts' = ts) as -> by (by eapply parses_det).
  assert (Hgood : TreeWfProofs.good s).
  { unfold driver_new in Hd. destruct (parser_new (lex_new r 0)) as [x l] eqn:Ex. injection Hd as -> _. by eapply new_good. }
  destruct (parses_good _ _ _ Hp Hgood) as [Hok _].
  destruct (builds_once _ _ _ _ _ Hb) as [Hnd Honce].
  apply print_canonical with (ts := ts); try done.
  - apply list.Forall_forall. intros t Hin. split; [by eapply list.Forall_forall in Hok|].
    eapply list.Forall_forall in Hshape, Hne; [|exact Hin..]. destruct t; try done. destruct Hshape as [S1 S2]. done.
  - intros f fd v Hf [d Hv]. destruct (Hex _ _ Hf) as [G1 _ _ _ _ _ _ _ _].
    destruct (is_global_id v) eqn:Eg; [|done]. exfalso. unfold is_global_id in Eg. assert (is_Some ((sk <$> vals fd) !! v)) as Hs by (rewrite lookup_fmap, Hv; eauto).
    apply G1 in Hs. lia.
  - intros f fd v d Hf Hv. by eapply (Hsf f fd).
  - intros f fd Hf. by eapply (Hsf f fd).
  - intros f fd Hin Hf. split; [|by eapply Hord]. intros Hb0. destruct (Hex _ _ Hf) as [G1 G2 G3 G4 G5 G6 G7 G8 G9]. constructor.
    + destruct HF as (G & Fn & _ & HF & _). apply elem_of_list_lookup in Hin as [i Hi]. destruct (Forall2_lookup_l _ _ _ _ _ HF Hi) as (t & Ht & fd' & Hfd' & _ & Hfun).
      assert (fd' = fd) as -> by congruence. destruct t as [|n' ps r0 bbs|n' ps r0| |]; try done; [|by destruct Hfun as (_ & ? & _)].
      destruct Hfun as (_ & _ & _ & L & B & l & _ & _ & _ & _ & _ & Hps & _).
      apply elem_of_list_lookup_2, elem_of_list_filter in Ht as [_ Ht]. apply elem_of_list_split in Ht as (ts1 & ts2 & ->).
      destruct (Honce _ _ _ _ _ _ eq_refl) as [Hn _]. eapply nodup_names; [by eapply param_named|done].
    + intros c d Hc. apply (G5 c). by rewrite lookup_fmap, Hc.
    + intros c d c' e v Hc Hc'. apply (G6 c (bb_params d) c' (bb_params e)); rewrite lookup_fmap; [by rewrite Hc|by rewrite Hc'].
    + done.
  - destruct HF as (G & Fn & HG & _). apply (nodup_part gvar_names gfun_names is_global_def) in Hnd.
    eapply (nodup_names G); [|exact Hnd]. clear -HG. induction HG as [|v t vs l H _ IH]; [constructor|]. simpl. destruct t; try done. simpl. constructor; [by destruct H|done].
  - intros f Hf. by apply (RegularProofs.fr_funcs _ FP).
  - intros l1 f l2 fd v d c vs El Hf Hv Hk. destruct (RegularProofs.fr_calls _ FP _ _ _ _ _ _ Hf Hv Hk) as [Hle Hin].
    pose proof (RegularProofs.fr_sorted _ FP) as HS. rewrite El in Hin, HS. apply elem_of_app in Hin as [?|[?|Hin]%elem_of_cons]; [by right|by left|].
    exfalso. clear -HS Hin Hle. induction l1 as [|y l1 IH]; simpl in HS; apply StronglySorted_inv in HS as [HS1 HS2]; [|by apply IH].
    eapply list.Forall_forall in HS2; [|exact Hin]. lia.
Qed.
Lemma count_globals ts : foldr (λ t n, globals_in t + n)%N 0%N ts = foldr (λ t n, globals_in t + n)%N 0%N (filter is_global_def ts).
Proof.
  induction ts as [|t ts IH]; [done|]. cbn [foldr]. destruct (is_global_def t) eqn:E.
  - rewrite filter_cons_True by (by rewrite E). cbn [foldr]. by rewrite IH.
  - rewrite filter_cons_False by (rewrite E; intros []). rewrite IH. by destruct t.
Qed.
Lemma same_globals p ts gs fs : faithful p ts → redescribed p gs fs → Forall wf_global gs → Forall wf_func fs →
  foldr (λ t n, globals_in t + n)%N 0%N (gs ++ fs) = foldr (λ t n, globals_in t + n)%N 0%N ts.
Proof.
  intros (G & Fn & Hg & _) (G' & Fn' & _ & _ & _ & _ & Hg' & _) Wg Wf. rewrite count_globals, (count_globals ts).
  destruct (filter_globals gs fs Wg Wf) as [-> _]. clear -Hg Hg'. revert gs Hg'.
  induction Hg as [|v t vs l Hv _ IH]; intros gs Hg'; inversion Hg' as [|? t' ? gs' Hv' Hg2]; subst; [done|].
  cbn [foldr]. rewrite (IH _ Hg2). f_equal. destruct t as [n a i| | | |], t' as [n' a' i'| | | |]; try done.
  destruct Hv as (_ & d & init & e & Hd & Hk & _ & _ & Hc & _), Hv' as (_ & d' & init' & e' & Hd' & Hk' & _ & Hc' & _).
  assert (init' = init) as -> by congruence. simpl. by rewrite (const_fun _ _ _ _ Hc Hc').
Qed.
