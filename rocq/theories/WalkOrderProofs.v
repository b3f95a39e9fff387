(** In which order, and how much, the programs of the front end are walked through (C59). *)
From Coq Require Import Sorted Lia ZifyBool ZifyNat ZifyN.
From Verif Require Import Base IdModel TypeModel IrModel LayoutModel BuilderModel WorldModel LexerModel ParserModel ParserSpec
  UsesSpec DfgSpec WorldSpec TypingSpec FlowSpec FaithSpec ScopeSpec CompleteSpec RawModel RawSpec RawWalkProofs RawGoProofs RegularProofs DominSpec
  DiscoverProofs BuildableProofs WalkOnceProofs.

(** ** What a walk stays in *)
Lemma walk_inv p (K : task → Prop) S0 S l o : walk p S l o →
  (∀ v d t, K (TVal v) → value_of p v d → t ∈ refs (v_kind d) → K t) →
  (∀ b d is v, K (TBlk b) → block_of p b d is → v ∈ bb_params d ∨ v ∈ is → K (TVal v)) →
  (∀ f, K (TFunc f) → TFunc f ∈ S0) → S0 ⊆ S → (∀ t, t ∈ l → K t) → ∀ t, t ∈ o → K t.
Proof.
  intros Hw K1 K2 K3. induction Hw as [S|S t l o Ht Hw IH|S v d l o o' Hn Hv Hp Hr IHr Hw IH|S b d is l o o' Hn Hb Hr IHr Hw IH|S f fd l o o' Hn Hf Hr IHr Hw IH]; intros HS Hl x Hx.
  - by apply elem_of_nil in Hx.
  - apply IH; [done| |done]. intros y Hy. apply Hl. by right.
  - assert (Kv : K (TVal v)) by (apply Hl; by left). apply elem_of_app in Hx as [Hx|Hx]; [apply elem_of_app in Hx as [Hx|Hx]|].
    + apply IHr; [done| |done]. intros y Hy. by eapply K1.
    + by apply elem_of_list_singleton in Hx as ->.
    + apply IH; [set_solver| |done]. intros y Hy. apply Hl. by right.
  - assert (Kb : K (TBlk b)) by (apply Hl; by left). apply elem_of_app in Hx as [Hx|Hx]; [apply elem_of_app in Hx as [Hx|Hx]|].
    + apply elem_of_cons in Hx as [->|Hx]; [done|]. apply elem_of_list_fmap in Hx as (v & -> & Hv). eapply K2; eauto.
    + apply IHr; [set_solver| |done]. intros y Hy. apply elem_of_list_fmap in Hy as (v & -> & Hv). eapply K2; eauto.
    + apply IH; [set_solver| |done]. intros y Hy. apply Hl. by right.
  - destruct Hn. apply HS, K3, Hl. by left.
Qed.

(** ** What a walk meets is there *)
Definition all_tasks (p : program) : list task :=
  (TVal <$> (map_to_list (p_values p)).*1) ++
  (map_to_list (p_funcs p) ≫= λ e : func * fdata, TFunc e.1 :: (TVal <$> (map_to_list (vals e.2)).*1) ++ (TBlk <$> (map_to_list (blks e.2)).*1)).
Lemma keys_in {A} (m : gmap N A) k : is_Some (m !! k) → k ∈ (map_to_list m).*1.
Proof. intros [x Hx]. apply elem_of_list_fmap. exists (k, x). split; [done|]. by apply elem_of_map_to_list. Qed.
Lemma map_size_keys {A} (m : gmap N A) : length (map_to_list m) = base.size m.
Proof. reflexivity. Qed.
Lemma all_tasks_length p : length (all_tasks p) = parts p.
Proof.
  unfold all_tasks, parts. rewrite app_length, !fmap_length, map_size_keys. f_equal.
  induction (map_to_list (p_funcs p)) as [|e l IH]; [done|]. rewrite bind_cons, app_length, fmap_cons. cbn [sum_list_with length].
  rewrite IH, app_length, !fmap_length, !map_size_keys. unfold id. lia.
Qed.
Lemma in_value p v d : value_of p v d → TVal v ∈ all_tasks p.
Proof.
  intros [H|(f & fd & Hf & H)]; apply elem_of_app.
  - left. apply elem_of_list_fmap_1, keys_in. by eexists.
  - right. apply elem_of_list_bind. exists (f, fd). split; [|by apply elem_of_map_to_list]. right. apply elem_of_app. left. apply elem_of_list_fmap_1, keys_in. by eexists.
Qed.
Lemma in_block p f fd b : p_funcs p !! f = Some fd → is_Some (blks fd !! b) → TBlk b ∈ all_tasks p.
Proof.
  intros Hf H. apply elem_of_app. right. apply elem_of_list_bind. exists (f, fd). split; [|by apply elem_of_map_to_list]. right. apply elem_of_app. right.
  by apply elem_of_list_fmap_1, keys_in.
Qed.
Lemma in_func p f fd : p_funcs p !! f = Some fd → TFunc f ∈ all_tasks p.
Proof. intros Hf. apply elem_of_app. right. apply elem_of_list_bind. exists (f, fd). split; [by left|by apply elem_of_map_to_list]. Qed.
Lemma walk_there p S l o : regular p → walk p S l o → ∀ t, t ∈ o → t ∈ all_tasks p.
Proof.
  intros HR. induction 1 as [S|S t l o Ht Hw IH|S v d l o o' Hn Hv Hp Hr IHr Hw IH|S b d is l o o' Hn Hb Hr IHr Hw IH|S f fd l o o' Hn Hf Hr IHr Hw IH]; intros x Hx.
  - by apply elem_of_nil in Hx.
  - by apply IH.
  - apply elem_of_app in Hx as [Hx|Hx]; [apply elem_of_app in Hx as [Hx|Hx]|]; [by auto| |by auto].
    apply elem_of_list_singleton in Hx as ->. by eapply in_value.
  - apply elem_of_app in Hx as [Hx|Hx]; [apply elem_of_app in Hx as [Hx|Hx]|]; [|by auto|by auto].
    destruct Hb as (f & fd & Hf & Hb & _). apply elem_of_cons in Hx as [->|Hx]; [by eapply in_block; [exact Hf|eexists]|].
    apply elem_of_list_fmap in Hx as (v & -> & Hv). destruct (bb_params_kind p HR _ _ _ _ _ Hf Hb Hv) as (d' & j & Hd & _).
    eapply in_value. right. by exists f, fd.
  - apply elem_of_app in Hx as [Hx|Hx]; [apply elem_of_app in Hx as [Hx|Hx]|]; [|by auto|by auto].
    apply elem_of_cons in Hx as [->|Hx]; [by eapply in_func|].
    apply elem_of_list_fmap in Hx as (v & -> & Hv). destruct (params_kind p HR _ _ _ Hf Hv) as (d' & j & Hd & _).
    eapply in_value. right. by exists f, fd.
Qed.
Lemma discovered_length p o : regular p → discovered p o → length o ≤ parts p.
Proof.
  intros HR Ho. rewrite <- all_tasks_length. apply submseteq_length, NoDup_submseteq; [by eapply discovered_once|].
  intros t Ht. by eapply walk_there.
Qed.

(** ** Order *)
Section order.
Context (p : program) (Fp : front p) (o : list task) (Ho : discovered p o).
Lemma listed_alloc v : v ∈ p_inst_layout p → ∃ d init i, p_values p !! v = Some d ∧ v_kind d = KGlobalAlloc init ∧ const_is (datas (p_values p)) init i.
Proof.
  intros Hv. destruct (fr_faithful _ Fp) as (ts & G & Fn & HG & _). apply elem_of_list_lookup in Hv as [j Hj].
  destruct (Forall2_lookup_l _ _ _ _ _ HG Hj) as (t & _ & Ht). destruct t; try done.
  destruct Ht as (_ & d & init & e & Hd & Hk & _ & He & Hc & _). eauto 6.
Qed.
Lemma allocs_listed v d init : p_values p !! v = Some d → v_kind d = KGlobalAlloc init → v ∈ p_inst_layout p.
Proof.
  intros Hv Hk. destruct (cp_values _ (fr_complete _ Fp) v) as [H|(w & dw & i & Hw & Hdw & Hkw & Hp)]; [by eexists|done|exfalso].
  destruct (listed_alloc _ Hw) as (d' & i' & k & Hd' & Hk' & Hc). rewrite Hdw in Hd'. injection Hd' as <-. rewrite Hkw in Hk'. injection Hk' as <-.
  destruct (const_parts _ _ _ Hc _ Hp) as [j Hj]. apply const_kind_is in Hj as (d' & Hd' & Hk'). rewrite Hv in Hd'. injection Hd' as <-. by rewrite Hk in Hk'.
Qed.
Definition const_task (t : task) : Prop := ∃ v i, t = TVal v ∧ const_is (datas (p_values p)) v i.
Lemma const_task_refs v d t : const_task (TVal v) → value_of p v d → t ∈ refs (v_kind d) → const_task t.
Proof.
  intros (v' & i & [= <-] & Hc) Hv Ht. pose proof (const_kind_is _ _ _ Hc) as (d' & Hd' & Hk).
  assert (d = d') as -> by (eapply (value_of_det p (front_regular _ Fp)); [exact Hv|by left]).
  assert (∃ u, t = TVal u ∧ u ∈ operands (v_kind d')) as (u & -> & Hu).
  { destruct (v_kind d'); try done; cbn [refs operands] in Ht; apply elem_of_list_fmap in Ht as (u & -> & Hu); eauto. }
  destruct (v_kind d') as [| | |vs| | | | | | | | | | | | |] eqn:Ek; try done; try by apply elem_of_nil in Hu.
  destruct (const_parts _ _ _ Hc u) as [j Hj]; [|by exists u, j]. eapply po_elem; [|exact Hu|constructor].
  unfold datas. rewrite lookup_fmap, Hd'. simpl. by rewrite Ek.
Qed.
Lemma const_no_alloc l : (∀ t, t ∈ l → const_task t) → allocs_in p l = [].
Proof.
  intros H. induction l as [|t l IH]; [done|]. unfold allocs_in in *. cbn [omap list_omap].
  destruct (H t ltac:(by left)) as (v & i & -> & Hc). pose proof (const_kind_is _ _ _ Hc) as (d & Hd & Hk). rewrite Hd.
  destruct (v_kind d); try done; apply IH; intros t Ht; apply H; by right.
Qed.
Lemma allocs_app l l' : allocs_in p (l ++ l') = allocs_in p l ++ allocs_in p l'.
Proof. unfold allocs_in. by rewrite omap_app. Qed.
Lemma globals_order l : ∀ S o', NoDup l → l ⊆ p_inst_layout p → (∀ v, v ∈ l → TVal v ∉ S) → walk p S (TVal <$> l) o' → allocs_in p o' = l.
Proof.
  induction l as [|v l IH]; intros S o' Hnd Hin Hn Hw; [by inversion Hw|].
  apply list.NoDup_cons in Hnd as [Hv Hnd]. rewrite fmap_cons in Hw.
  destruct (listed_alloc v ltac:(apply Hin; by left)) as (d & init & i & Hd & Hk & Hc).
  inversion Hw as [|? ? ? ? Ht _|? ? d' ? o1 o2 _ Hv' Hp Hr Hw'| |]; subst; [destruct (Hn v); [by left|done]|].
  assert (d' = d) as -> by (eapply (value_of_det p (front_regular _ Fp)); [exact Hv'|by left]).
  assert (Hco : ∀ t, t ∈ o1 → const_task t).
  { eapply (walk_inv p const_task [] S _ o1 Hr).
    - intros *. by apply const_task_refs.
    - by intros ? ? ? ? (? & ? & ? & _).
    - by intros ? (? & ? & ? & _).
    - set_solver.
    - intros t Ht. rewrite Hk in Ht. cbn [refs operands fmap list_fmap] in Ht. apply elem_of_list_singleton in Ht as ->. by exists init, i. }
  rewrite !allocs_app, (const_no_alloc _ Hco). unfold allocs_in at 1. cbn [omap list_omap]. rewrite Hd, Hk. cbn [app]. f_equal.
  eapply IH; [done|set_solver| |exact Hw'].
  intros u Hu. rewrite !elem_of_app, elem_of_list_singleton. intros [H|[H|[= ->]]].
  - by apply (Hn u); [right|].
  - destruct (Hco _ H) as (u' & j & [= <-] & Hj). destruct (listed_alloc u ltac:(apply Hin; by right)) as (du & iu & _ & Hdu & Hku & _).
    apply const_kind_is in Hj as (d2 & Hd2 & Hk2). rewrite Hdu in Hd2. injection Hd2 as <-. by rewrite Hku in Hk2.
  - done.
Qed.

Lemma funcs_app l l' : funcs_in (l ++ l') = funcs_in l ++ funcs_in l'.
Proof. unfold funcs_in. by rewrite omap_app. Qed.
Lemma funcs_none l : (∀ f, TFunc f ∉ l) → funcs_in l = [].
Proof.
  intros H. induction l as [|t l IH]; [done|]. unfold funcs_in in *. cbn [omap list_omap].
  destruct t as [| |f]; [| |destruct (H f); by left]; apply IH; intros f Hf; destruct (H f); by right.
Qed.
(** What belongs to the function [f], or is there for all functions. *)
Definition task_in (S0 : list task) (fd : fdata) (t : task) : Prop :=
  match t with TFunc g => TFunc g ∈ S0 | TVal v => is_Some (vals fd !! v) ∨ is_Some (p_values p !! v) | TBlk b => is_Some (blks fd !! b) end.
Lemma body_functions f fd S l o' : p_funcs p !! f = Some fd → (∀ g, g ∈ p_func_layout p → (g ≤ f)%N → TFunc g ∈ S) →
  (∀ t, t ∈ l → ∃ b, t = TBlk b ∧ is_Some (blks fd !! b)) → walk p S l o' → ∀ g, TFunc g ∉ o'.
Proof.
  pose proof (front_regular _ Fp) as HR. intros Hf HS Hl Hw g Hg.
  eapply (walk_fresh p _ _ _ Hw (TFunc g) Hg); [done|].
  change (task_in S fd (TFunc g)). eapply (walk_inv p (task_in S fd) S S l o' Hw); [| |done|done| |done].
  - intros v d t Kv Hv Ht. destruct Kv as [Kv|Kv].
    + pose proof (local_data p HR _ _ _ _ Hv Hf Kv) as Hd. destruct t as [u|b|c]; simpl.
      * apply elem_refs_val in Ht. apply or_comm, (proj1 (proj2 (rg_closed _ HR)) f fd v u Hf). by exists d.
      * apply elem_refs_blk in Ht. apply (proj2 (proj2 (rg_closed _ HR)) f fd v b Hf). by exists d.
      * destruct (v_kind d) eqn:Ek; cbn [refs operands] in Ht; try (by apply elem_of_list_fmap in Ht as (? & ? & _)).
        -- apply elem_of_cons in Ht as [?|Ht]; [done|]. apply elem_of_cons in Ht as [?|Ht]; [done|]. apply elem_of_cons in Ht as [?|Ht]; [done|]. by apply elem_of_list_fmap in Ht as (? & ? & _).
        -- apply elem_of_cons in Ht as [?|Ht]; [done|]. by apply elem_of_list_fmap in Ht as (? & ? & _).
        -- apply elem_of_cons in Ht as [[= ->]|Ht]; [|by apply elem_of_list_fmap in Ht as (? & ? & _)].
           destruct (fr_calls _ Fp _ _ _ _ _ _ Hf Hd Ek) as [? ?]. by apply HS.
    + pose proof (global_data p HR _ _ Hv Kv) as Hd. destruct (global_refs p HR _ _ Hd _ Ht) as (u & -> & Hu). by right.
  - intros b d is v Kb (f' & fd' & Hf' & Hb & Hi) Hv. simpl in Kb. assert (f' = f) as -> by (eapply (rg_own_bb _ HR); [exact Hf'|exact Hf|by eexists|done]).
    rewrite Hf in Hf'. injection Hf' as <-. left. destruct Hv as [Hv|Hv]; [|by eapply (rg_insts _ HR)].
    destruct (bb_params_kind p HR _ _ _ _ _ Hf Hb Hv) as (d' & j & Hd & _). by eexists.
  - intros t Ht. destruct (Hl _ Ht) as (b & -> & Hb). done.
Qed.
Lemma functions_order todo : ∀ prev S o', p_func_layout p = prev ++ todo → (∀ g, TFunc g ∈ S ↔ g ∈ prev) →
  walk p S (TFunc <$> todo) o' → funcs_in o' = todo.
Proof.
  pose proof (front_regular _ Fp) as HR. induction todo as [|f todo IH]; intros prev S o' El HS Hw; [by inversion Hw|].
  pose proof (fr_sorted _ Fp) as Hso. rewrite El in Hso.
  assert (Hno : f ∉ prev).
  { clear -Hso. induction prev as [|x prev IH]; [set_solver|]. cbn [app] in Hso. apply StronglySorted_inv in Hso as [Hso Hfa]. rewrite List.Forall_forall in Hfa.
    specialize (Hfa f ltac:(apply elem_of_list_In; set_solver)). apply not_elem_of_cons. split; [lia|by apply IH]. }
  rewrite fmap_cons in Hw. inversion Hw as [|? ? ? ? Ht _|? ? ? ? ? ? Hn|? ? ? ? ? ? ? Hn|? ? fd ? o1 o2 Hn Hf Hr Hw']; subst; [by apply HS in Ht|].
  assert (Hnone : ∀ g, TFunc g ∉ (TVal <$> f_params fd) ++ o1).
  { intros g. rewrite elem_of_app. intros [H|H]; [by apply elem_of_list_fmap in H as (? & ? & _)|]. revert H.
    eapply (body_functions f fd); [exact Hf| | |exact Hr].
    - intros h Hh Hle. apply elem_of_app. rewrite El in Hh. apply elem_of_app in Hh as [Hh|Hh]; [left; by apply HS|].
      apply elem_of_cons in Hh as [->|Hh]; [right; by left|exfalso]. clear -Hso Hh Hle.
      induction prev as [|x prev IH]; cbn [app] in Hso; apply StronglySorted_inv in Hso as [Hso Hfa]; [|by apply IH].
      rewrite List.Forall_forall in Hfa. specialize (Hfa h (proj1 (elem_of_list_In _ _) Hh)). lia.
    - intros t Ht. apply elem_of_list_fmap in Ht as (b & -> & Hb). exists b. split; [done|]. by eapply (rg_bbs _ HR). }
  assert (E : funcs_in ((TFunc f :: (TVal <$> f_params fd)) ++ o1) = [f]).
  { change ((TFunc f :: (TVal <$> f_params fd)) ++ o1) with ([TFunc f] ++ (TVal <$> f_params fd) ++ o1). by rewrite funcs_app, (funcs_none _ Hnone). }
  rewrite funcs_app, E. cbn [app]. f_equal. eapply (IH (prev ++ [f])); [by rewrite <- app_assoc| |exact Hw'].
  intros g. rewrite elem_of_app, (elem_of_app prev), elem_of_list_singleton, <- HS. cbn [app]. rewrite elem_of_cons.
  split; [intros [H|[[= ->]|H]]; [by left|by right|by destruct (Hnone g)]|intros [H| ->]; [by left|right; by left]].
Qed.
Lemma discovered_order : NoDup (p_inst_layout p) → allocs_in p o = p_inst_layout p ∧ funcs_in o = p_func_layout p ∧
  ∀ f, f ∈ p_func_layout p → blocks_in p o f ≡ₚ listed_blocks p f.
Proof.
  intros Hnd. pose proof (front_regular _ Fp) as HR. pose proof (discovered_once p HR _ Ho) as Honce.
  destruct (walk_split p (TFunc <$> p_func_layout p) _ _ _ Ho _ eq_refl) as (o1 & o2 & E & W1 & W2). cbn [app] in W2.
  assert (G1 : ∀ t, t ∈ o1 → global_task p t).
  { eapply walk_global; [done|exact W1|]. intros t Ht. apply elem_of_list_fmap in Ht as (v & -> & Hv). exists v. split; [done|]. by apply (rg_layout _ HR). }
  assert (A1 : allocs_in p o1 = p_inst_layout p). { eapply globals_order; [done|done| |exact W1]. intros v _ ?%elem_of_nil. done. }
  assert (F2 : funcs_in o2 = p_func_layout p).
  { eapply (functions_order _ []); [done| |exact W2]. intros g. split; [|by intros ?%elem_of_nil]. intros H. by destruct (G1 _ H) as (? & ? & _). }
  assert (F : funcs_in o = p_func_layout p).
  { rewrite E, funcs_app, F2, (funcs_none o1); [done|]. intros f H. by destruct (G1 _ H) as (? & ? & _). }
  split; [|split; [done|]].
  - rewrite E, allocs_app, A1. enough (allocs_in p o2 = []) as -> by (by rewrite app_nil_r).
    destruct (allocs_in p o2) as [|v l] eqn:Ea; [done|exfalso].
    assert (Hv : v ∈ allocs_in p o2) by (rewrite Ea; by left).
    unfold allocs_in in Hv. apply elem_of_list_omap in Hv as (t & Ht & Hk). destruct t as [v'| |]; try done.
    destruct (p_values p !! v') as [d|] eqn:Ed; [|done]. destruct (v_kind d) eqn:Ek; try done. injection Hk as ->.
    pose proof (allocs_listed _ _ _ Ed Ek) as Hin. pose proof (walk_through _ _ _ _ W1 (TVal v) ltac:(by apply elem_of_list_fmap_1)) as H1. cbn [app] in H1.
    rewrite E in Honce. apply NoDup_app in Honce as (_ & Hdis & _). by eapply Hdis.
  - intros f Hin. pose proof Hin as [fd Hf]%(fr_funcs _ Fp). apply NoDup_Permutation.
    + clear -Honce. unfold blocks_in. induction Honce as [|t l Ht _ IH]; cbn [omap list_omap]; [constructor|].
      destruct t as [|b|]; [done| |done]. destruct (p_funcs p !! f) as [fd|]; [|done]. destruct (blks fd !! b); [|done].
      apply list.NoDup_cons. split; [|done]. intros H. apply elem_of_list_omap in H as (t & Ht' & Hk). destruct t as [|c|]; try done.
      destruct (blks fd !! c); [|done]. injection Hk as ->. done.
    + unfold listed_blocks. rewrite Hf. by eapply (rg_bbs_once _ HR).
    + intros b. unfold listed_blocks, blocks_in. rewrite elem_of_list_omap, Hf. split.
      * intros (t & Ht & Hk). destruct t as [|c|]; try done. destruct (blks fd !! c) eqn:Ec; [|done]. injection Hk as ->.
        apply (cf_blocks _ (proj2 (cp_funcs _ (fr_complete _ Fp) _ _ Hf))). by eexists.
      * intros Hb. exists (TBlk b). destruct (rg_bbs _ HR _ _ _ Hf Hb) as [d Hd]. rewrite Hd. split; [|done].
        change o with ([] ++ o). eapply (walk_blocks p [] _ o Ho f fd); [|done|done].
        assert (H : f ∈ funcs_in o) by (by rewrite F). unfold funcs_in in H. apply elem_of_list_omap in H as (t & Ht & Hk). destruct t; try done. by injection Hk as ->.
Qed.
End order.
