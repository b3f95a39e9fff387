(** Programs without loops and recursion end (C68). *)
From Coq Require Import Lia.
From stdpp Require Import list gmap.
From Verif Require Import Base IdModel TypeModel IrModel LayoutModel ArithModel InterpModel DfgSpec UsesSpec FaithSpec
  TreeTextProofs InterpSimProofs IsoProgProofs RegularProofs FallSpec.

Definition ends {A} (r : xres A) : Prop := r ≠ XDeep.
Lemma ends_bind {A B} (r : xres A) (k : A → xres B) : ends r → (∀ a, ends (k a)) → ends (r ≫= k).
Proof. destruct r; simpl; auto; done. Qed.
Lemma ends_need {A} (o : option A) : ends (xneed o).
Proof. by destruct o. Qed.
Lemma ends_mem {A} (o : option A) : ends (xmem o).
Proof. by destruct o. Qed.
Lemma ends_zero t : ∀ n, ends (x_zeroinit t n).
Proof.
  induction t as [| |b IH k|b _|]; intros n; try done. cbn [x_zeroinit]. apply ends_bind; [|by intros []]. generalize (n + 1)%N.
  induction (N.to_nat k) as [|j IHj]; intros m; cbn [x_many]; [done|]. apply ends_bind; [apply IH|]. intros [y n1]. apply ends_bind; [apply IHj|]. by intros [].
Qed.
(** ** Constants *)
Lemma ends_const m fuel : ∀ v i n, const_is (datas m) v i → (depth i < fuel)%nat → ends (x_const fuel m v n).
Proof.
  induction fuel as [|k IH]; intros v i n Hc Hk; [lia|]. cbn [x_const]. destruct (m !! v) as [d|] eqn:Ed; [|done]. cbn [xneed mbind xres_bind].
  destruct (v_kind d) as [| | |es| | | | | | | | | | | | |] eqn:Ek; try done; [apply ends_zero|].
  inversion Hc as [v' t' z E'|v' t' E'|v' t' E'|v' t' vs l E' Hl]; subst;
    unfold datas in E'; rewrite lookup_fmap, Ed in E'; simpl in E'; rewrite Ek in E'; try discriminate. injection E' as _ <-.
  apply ends_bind; [|by intros []]. assert (Hl' : Forall2 (λ v i, const_is (datas m) v i ∧ (depth i < k)%nat) es l).
  { apply Forall2_same_length_lookup_2; [by eapply Forall2_length|]. intros j e x He Hx. split; [by eapply Forall2_lookup_lr|].
    pose proof (depth_elem x l ltac:(by eapply elem_of_list_lookup_2)). lia. }
  generalize (n + 1)%N. clear -Hl' IH. induction Hl' as [|e x es l [H1 H2] _ IHl]; intros n; [done|]. cbn [x_each].
  apply ends_bind; [by eapply IH|]. intros [y n1]. apply ends_bind; [apply IHl|]. by intros [].
Qed.
(** A bound for all that is in a finite map *)
Lemma bound_all {A} (m : gmap N A) (R : A → N → nat → Prop) : (∀ k k' a v, (k ≤ k')%nat → R a v k → R a v k') →
  (∀ v a, m !! v = Some a → ∃ k, R a v k) → ∃ k, ∀ v a, m !! v = Some a → R a v k.
Proof.
  intros HM H.
  assert (HL : ∀ l : list (N * A), (∀ e, e ∈ l → m !! e.1 = Some e.2) → ∃ k, ∀ e, e ∈ l → R e.2 e.1 k).
  { induction l as [|[v a] l IH]; intros Hl; [exists O; by intros e []%elem_of_nil|].
    destruct IH as [k Hk]; [intros e He; apply Hl; by right|]. destruct (H v a) as [j Hj]; [apply (Hl (v, a)); by left|].
    exists (Nat.max k j). intros e He. apply elem_of_cons in He as [->|He]; [eapply HM; [|exact Hj]; lia|eapply HM; [|by apply Hk]; lia]. }
  destruct (HL (map_to_list m)) as [k Hk]; [intros [v a]; by rewrite elem_of_map_to_list|].
  exists k. intros v a Hv. apply (Hk (v, a)). by apply elem_of_map_to_list.
Qed.
Definition consts_end (m : gmap N vdata) (D : nat) : Prop :=
  ∀ fuel v d n, (D ≤ fuel)%nat → m !! v = Some d → is_const (v_kind d) = true → ends (x_const fuel m v n).
Lemma consts_bound m : (∀ v d, m !! v = Some d → is_const (v_kind d) = true → ∃ i, const_is (datas m) v i) → ∃ D, consts_end m D.
Proof.
  intros H. destruct (bound_all m (λ d v k, is_const (v_kind d) = true → ∀ fuel n, (k ≤ fuel)%nat → ends (x_const fuel m v n))) as [D HD].
  - intros k k' d v Hk H1 Hc fuel n Hf. apply H1; [done|lia].
  - intros v d Hd. destruct (is_const (v_kind d)) eqn:Ec; [|by exists O]. destruct (H v d Hd Ec) as [i Hi]. exists (S (depth i)). intros _ fuel n Hf.
    eapply ends_const; [exact Hi|lia].
  - exists D. intros fuel v d n Hf Hd Hc. by eapply HD.
Qed.

(** ** Runs *)
Section run.
Context {E : Type} (C : xconfig E) (p : program) (vars : gmap N xval) (rank : func → bblock → nat) (D : nat)
  (HF : falls p rank) (HD : ∀ f fd, p_funcs p !! f = Some fd → consts_end (d_values (f_dfg fd)) D).
Section func.
Context (f : func) (fd : fdata) (Hf : p_funcs p !! f = Some fd) (k : nat) (Hk : (D ≤ k)%nat).
Lemma ends_value vs v n : ends (x_value p vars k fd vs v n).
Proof.
  unfold x_value. destruct (is_global_id v).
  - apply ends_bind; [apply ends_need|]. intros d. destruct (is_const (v_kind d)); [done|]. apply ends_bind; [apply ends_need|done].
  - destruct (d_values (f_dfg fd) !! v) as [d|] eqn:Ed; [|done]. cbn [xneed mbind xres_bind]. destruct (is_const (v_kind d)) eqn:Ec; [by eapply (HD f)|].
    apply ends_bind; [apply ends_need|done].
Qed.
Lemma ends_eval F v (W : xworld E) : ends (x_eval p vars k fd F v W).
Proof. unfold x_eval. apply ends_bind; [apply ends_value|]. by intros []. Qed.
Lemma ends_evals F l (W : xworld E) : ends (x_evals p vars k fd F l W).
Proof.
  unfold x_evals. apply ends_bind; [|by intros []]. generalize (x_next W). induction l as [|v l IH]; intros n; [done|]. cbn [x_each].
  apply ends_bind; [apply ends_value|]. intros [y n1]. apply ends_bind; [apply IH|]. by intros [].
Qed.
Lemma ends_params ps : ∀ args (W : xworld E) F, ends (x_params p vars k fd ps args W F).
Proof.
  induction ps as [|q ps IH]; intros args W F; [done|]. destruct args as [|a args]; [done|]. cbn [x_params]. apply ends_bind; [apply ends_need|]. intros _.
  apply ends_bind; [apply ends_eval|]. intros [x W1]. apply IH.
Qed.
Lemma ends_pointer s off sz : ends (x_get_pointer s off sz).
Proof.
  destruct s as [| | |[q|] i n|[a|]]; try done; cbn [x_get_pointer].
  - case_match; [|done]. apply ends_bind; [apply ends_mem|done].
  - by case_match.
  - apply ends_bind; [unfold shift_raw; by case_match|done].
Qed.
Lemma ends_elem m s off sz : ends (x_elem_pointer m s off sz).
Proof.
  destruct s as [| | |[q|] i n|[a|]]; try done; cbn [x_elem_pointer].
  - apply ends_bind; [apply ends_mem|]. intros x. destruct x; try done. apply ends_pointer.
  - apply ends_bind; [unfold shift_raw; by case_match|done].
Qed.
End func.
Lemma ends_words l : ends (x_words l).
Proof.
  induction l as [|x l IH]; [done|]. cbn [x_words]. apply ends_bind; [destruct x as [| | |[]|[]]; done|]. intros w. apply ends_bind; [exact IH|done].
Qed.
Lemma ends_func go g gd args (W : xworld E) :
  (∀ c is bs W F, l_bbs (f_layout gd) = (c, is) :: bs → ends (go gd is W F)) → p_funcs p !! g = Some gd → ends (x_func C go gd args W).
Proof.
  intros Hgo Hg. unfold x_func. destruct (f_ty gd) as [| | | |ts t] eqn:Ht; try done. destruct (negb _); [done|].
  destruct (l_bbs (f_layout gd)) as [|[c is] bs] eqn:El.
  - unfold x_extern_call. rewrite Ht. destruct (f_name gd) as [|ch name]; [done|]. destruct (existsb _ _); [done|]. destruct (c_ext C name) as [h|]; [|done].
    destruct (28 <? length args)%nat; [done|]. apply ends_bind; [apply ends_words|]. intros ws. destruct (h ws (x_extern W)) as [e w].
    apply ends_bind; [by destruct t|done].
  - destruct (params_exist gd); [|done]. apply ends_bind; [by eapply Hgo|]. by intros [[]].
Qed.
Lemma ends_inst f fd k b is v d (W : xworld E) F : p_funcs p !! f = Some fd → (D ≤ k)%nat →
  (∀ g gd c is bs W F, p_funcs p !! g = Some gd → l_bbs (f_layout gd) = (c, is) :: bs → (rank g c < rank f b)%nat → ends (x_bb C p vars k gd is W F)) →
  (b, is) ∈ l_bbs (f_layout fd) → v ∈ is → d_values (f_dfg fd) !! v = Some d → ends (x_inst C p vars (x_bb C p vars k) k fd v d W F).
Proof.
  intros Hf Hk Hgo Hb Hv Hd. pose proof (proj2 (HF _ _ _ _ _ _ Hf Hb Hv Hd)) as Hcall. pose proof (ends_eval f fd Hf k Hk) as He.
  unfold x_inst. destruct (v_kind d) as [| | | | | | | |src|x dest|src i|src i|op l r| | |g args|] eqn:Ek; try done.
  - unfold x_alloc. destruct (v_ty d); try done. apply ends_bind; [apply ends_zero|]. by intros [].
  - unfold x_load. apply ends_bind; [apply He|]. intros [s W1]. destruct s as [| | |[q|] i n|[a|]]; try done.
    apply ends_bind; [apply ends_mem|]. intros x. by destruct (xclone x (x_next W1)).
  - unfold x_store. apply ends_bind; [apply He|]. intros [y W1]. apply ends_bind; [apply He|]. intros [s W2].
    destruct s as [| | |[q|] i n|[a|]]; try done; [|by destruct y]. apply ends_bind; [apply ends_mem|done].
  - unfold x_getptr. apply ends_bind; [apply He|]. intros [y W1]. destruct y; try done. apply ends_bind; [by unfold x_base_size; destruct (v_ty d)|].
    intros sz. apply ends_bind; [apply He|]. intros [s W2]. apply ends_bind; [apply ends_pointer|done].
  - unfold x_getelemptr. apply ends_bind; [apply He|]. intros [y W1]. destruct y; try done. apply ends_bind; [by unfold x_base_size; destruct (v_ty d)|].
    intros sz. apply ends_bind; [apply He|]. intros [s W2]. apply ends_bind; [apply ends_elem|done].
  - unfold x_binary. apply ends_bind; [apply He|]. intros [x W1]. apply ends_bind; [apply He|]. intros [y W2]. destruct x; try done. destruct y; try done.
    apply ends_bind; [apply ends_need|done].
  - unfold x_call. apply ends_bind; [by apply (ends_evals f)|]. intros [xs W1]. destruct (p_funcs p !! g) as [gd|] eqn:Eg; [|done]. cbn [xneed mbind xres_bind].
    apply ends_bind; [|by intros []]. eapply ends_func; [|exact Eg]. intros c is' bs W' F' Hc. eapply Hgo; [exact Eg|exact Hc|]. by eapply Hcall.
Qed.
Lemma ends_bb fuel : ∀ f fd b is (W : xworld E) F, p_funcs p !! f = Some fd → (b, is) ∈ l_bbs (f_layout fd) → (rank f b + D < fuel)%nat →
  ends (x_bb C p vars fuel fd is W F).
Proof.
  induction fuel as [|k IH]; intros f fd b is W F Hf Hb Hr; [lia|]. cbn [x_bb]. assert (Hk : (D ≤ k)%nat) by lia.
  assert (Hin : ∀ v, v ∈ is → v ∈ is) by done. revert Hin. generalize is at 1 3 as l. intros l. revert W F.
  induction l as [|v l IHl]; intros W F Hin; [done|]. cbn [x_insts]. destruct (d_values (f_dfg fd) !! v) as [d|] eqn:Hd; [|done]. cbn [xneed mbind xres_bind].
  assert (Hv : v ∈ is) by (apply Hin; by left). pose proof (proj1 (HF _ _ _ _ _ _ Hf Hb Hv Hd)) as Hjump.
  assert (Hgoto : ∀ c args W1, c ∈ targets (v_kind d) → ends (x_goto p vars (x_bb C p vars k) k fd c args W1 F)).
  { intros c args W1 Hc. unfold x_goto. apply ends_bind; [apply ends_need|]. intros bd. apply ends_bind; [by apply (ends_params f)|]. intros [W2 F2].
    destruct (find_bb c (l_bbs (f_layout fd))) as [is'|] eqn:Ei; [|done]. cbn [xneed mbind xres_bind]. apply RawBuildProofs.find_bb_in in Ei.
    eapply IH; [exact Hf|exact Ei|]. specialize (Hjump c Hc). lia. }
  assert (Hstep : ends ('(W1, F1) ← x_inst C p vars (x_bb C p vars k) k fd v d W F; x_insts C p vars (x_bb C p vars k) k fd l W1 F1)).
  { apply ends_bind; [eapply ends_inst; [exact Hf|exact Hk| |exact Hb|exact Hv|exact Hd]|].
    - intros g gd c is' bs W' F' Hg Hl Hc. eapply (IH g gd c); [exact Hg|rewrite Hl; by left|lia].
    - intros [W1 F1]. apply IHl. intros w Hw. apply Hin. by right. }
  destruct (v_kind d) as [| | | | | | | | | | | | |c t e ta ea|t a|g args|[u|]] eqn:Ek; try exact Hstep.
  - apply ends_bind; [by apply (ends_eval f)|]. intros [x W1]. destruct (x_bool x); apply Hgoto; simpl; set_solver.
  - apply Hgoto. by left.
  - apply ends_bind; [by apply (ends_eval f)|]. by intros [].
  - done.
Qed.
End run.
Lemma ends_globals {E} fuel p l :
  (∀ v d init n, v ∈ l → p_values p !! v = Some d → v_kind d = KGlobalAlloc init → ends (x_const fuel (p_values p) init n)) →
  ∀ vs (W : xworld E), ends (x_globals fuel p l vs W).
Proof.
  induction l as [|v l IH]; intros Hl vs W; [done|]. cbn [x_globals]. destruct (p_values p !! v) as [d|] eqn:Hd; [|done]. cbn [xneed mbind xres_bind].
  destruct (v_kind d) as [| | | | | | |init| | | | | | | | |] eqn:Hk; try done.
  apply ends_bind; [eapply Hl; [by left|done|done]|]. intros [x n]. apply IH. intros w dw i k Hw. apply Hl. by right.
Qed.
Lemma front_ends_all p rank : front p → falls p rank →
  (∀ v, v ∈ p_inst_layout p → ∃ d init i, p_values p !! v = Some d ∧ v_kind d = KGlobalAlloc init ∧ const_is (datas (p_values p)) init i) →
  ∃ n, ∀ E (C : xconfig E) fuel order e, (n ≤ fuel)%nat → interpret C fuel order p e ≠ XDeep.
Proof.
  intros Fp HF HG.
  destruct (bound_all (p_values p) (λ d v k, v ∈ p_inst_layout p → ∀ init fuel n, v_kind d = KGlobalAlloc init → (k ≤ fuel)%nat →
    ends (x_const fuel (p_values p) init n))) as [D0 HD0].
  { intros k k' d v Hk H Hv init fuel n Hi Hf. apply H; [done|done|lia]. }
  { intros v d Hd. destruct (decide (v ∈ p_inst_layout p)) as [Hv|Hv]; [|by exists O]. destruct (HG v Hv) as (d' & init & i & Hd' & Hk & Hi).
    rewrite Hd in Hd'. injection Hd' as <-. exists (S (depth i)). intros _ init' fuel n Hk' Hf. rewrite Hk in Hk'. injection Hk' as <-.
    eapply ends_const; [exact Hi|lia]. }
  destruct (bound_all (p_funcs p) (λ fd _ k, consts_end (d_values (f_dfg fd)) k)) as [D1 HD1].
  { intros k k' fd _ Hk H fuel v d n Hf. apply H. lia. }
  { intros f fd Hf. destruct (consts_bound (d_values (f_dfg fd))) as [k Hk]; [|by exists k]. intros v d Hd Hc. by eapply (fr_consts _ Fp). }
  destruct (bound_all (p_funcs p) (λ fd f k, ∀ b is bs, l_bbs (f_layout fd) = (b, is) :: bs → (rank f b ≤ k)%nat)) as [R HR].
  { intros k k' fd f Hk H b is bs Hb. specialize (H b is bs Hb). lia. }
  { intros f fd Hf. destruct (l_bbs (f_layout fd)) as [|[b is] bs]; [by exists O|]. exists (rank f b). intros b' is' bs' [= -> _ _]. lia. }
  exists (S (D0 + D1 + R)). intros E C fuel order e Hn. fold (ends (interpret C fuel order p e)). unfold interpret.
  apply ends_bind; [apply ends_globals; intros v d init n Hv Hd Hk; eapply HD0; [exact Hd|exact Hv|exact Hk|lia]|]. intros [vars W].
  destruct (x_main p order) as [fd|] eqn:Em; [|done]. destruct (main_is _ _ _ Em) as (f & _ & Hf & _).
  apply ends_bind; [|intros [x W1]; by destruct x]. eapply ends_func; [|exact Hf]. intros c is bs W' F' Hl.
  apply (ends_bb C p vars rank D1 HF HD1 fuel f fd c is W' F' Hf); [rewrite Hl; by left|]. specialize (HR f fd Hf c is bs Hl). lia.
Qed.
