(** Proofs about the C interface (C60, C61). *)
From Coq Require Import Lia ZifyBool ZifyNat ZifyN.
From Verif Require Import Base IdModel TypeModel IrModel LayoutModel BuilderModel WorldModel RawModel CapiModel CapiSpec.

(** ** UTF-8 *)
Section utf8.
#[local] Ltac Zify.zify_post_hook ::= Z.to_euclidean_division_equations.
Lemma within_spec lo hi n : within lo hi n = true ↔ (lo ≤ n ≤ hi)%N.
Proof. unfold within. lia. Qed.
Lemma within_not lo hi n : ¬ (lo ≤ n ≤ hi)%N → within lo hi n = false.
Proof. unfold within. lia. Qed.
Lemma valid_encoding n l : scalar n → valid_utf8 (encoding n ++ l) = valid_utf8 l.
Proof.
  intros [H1 H2]. unfold encoding. repeat case_decide; cbn [app valid_utf8].
  - by rewrite (proj2 (N.ltb_lt n 128)) by lia.
  - rewrite (proj2 (N.ltb_ge _ 128)), (proj2 (within_spec 194 223 _)), (proj2 (within_spec 128 191 _)) by lia. done.
  - rewrite (proj2 (N.ltb_ge _ 128)), (within_not 194 223), (proj2 (within_spec 224 239 _)) by lia.
    rewrite (proj2 (within_spec 128 191 _)) by lia. rewrite (proj2 (within_spec _ _ _)); [done|].
    destruct (N.eqb_spec (224 + n / 4096) 224), (N.eqb_spec (224 + n / 4096) 237); lia.
  - rewrite (proj2 (N.ltb_ge _ 128)), (within_not 194 223), (within_not 224 239), (proj2 (within_spec 240 244 _)) by lia.
    rewrite !(proj2 (within_spec 128 191 (128 + _ mod 64))) by lia. rewrite (proj2 (within_spec _ _ _)); [done|].
    destruct (N.eqb_spec (240 + n / 262144) 240), (N.eqb_spec (240 + n / 262144) 244); lia.
Qed.
Lemma encodes_valid ns : Forall scalar ns → valid_utf8 (ns ≫= encoding) = true.
Proof. induction 1 as [|n ns Hn _ IH]; [done|]. by rewrite bind_cons, valid_encoding. Qed.
Lemma valid_encodes_len k : ∀ l, length l ≤ k → valid_utf8 l = true → ∃ ns, Forall scalar ns ∧ l = ns ≫= encoding.
Proof.
  induction k as [|k IH]; intros l Hk H.
  { destruct l; [|simpl in Hk; lia]. by exists []. }
  assert (Hgo : ∀ n l', scalar n → length l' ≤ k → valid_utf8 l' = true → l = encoding n ++ l' → ∃ ns, Forall scalar ns ∧ l = ns ≫= encoding).
  { intros n l' Hn Hl' Hv ->. destruct (IH l' Hl' Hv) as (ns & Hns & ->). exists (n :: ns). split; [by constructor|]. by rewrite bind_cons. }
  destruct l as [|a l1]; [by exists []|]. cbn [valid_utf8] in H. cbn [length] in Hk.
  destruct (N.ltb_spec a 128) as [Ha|Ha].
  { eapply (Hgo a l1); [split; lia|lia|done|]. unfold encoding. by rewrite decide_True. }
  destruct l1 as [|b l2]; [done|]. cbn [length] in Hk. destruct (within 194 223 a) eqn:E1.
  { apply within_spec in E1. apply andb_prop in H as [Hb H]. apply within_spec in Hb.
    eapply (Hgo ((a - 192) * 64 + (b - 128))%N l2); [split; lia|lia|done|]. unfold encoding.
    rewrite decide_False, decide_True by lia. cbn [app]. f_equal; [lia|]. f_equal. lia. }
  destruct l2 as [|c l3]; [done|]. cbn [length] in Hk. destruct (within 224 239 a) eqn:E2.
  { apply within_spec in E2. apply andb_prop in H as [H H']. apply andb_prop in H as [Hb Hc]. apply within_spec in Hb, Hc.
    eapply (Hgo ((a - 224) * 4096 + (b - 128) * 64 + (c - 128))%N l3); [|lia|done|].
    - destruct (N.eqb_spec a 224), (N.eqb_spec a 237); split; lia.
    - unfold encoding. assert (128 ≤ b ≤ 191)%N by (destruct (N.eqb_spec a 224), (N.eqb_spec a 237); lia).
      assert (2048 ≤ (a - 224) * 4096 + (b - 128) * 64 + (c - 128))%N by (destruct (N.eqb_spec a 224), (N.eqb_spec a 237); lia).
      rewrite !decide_False, decide_True by lia. clear Hb IH Hgo E1. cbn [app]. f_equal; [lia|]. f_equal; [lia|]. f_equal. lia. }
  destruct l3 as [|d l4]; [done|]. cbn [length] in Hk.
  apply andb_prop in H as [H H']. apply andb_prop in H as [H Hd]. apply andb_prop in H as [H Hc]. apply andb_prop in H as [E3 Hb].
  apply within_spec in E3, Hb, Hc, Hd.
  eapply (Hgo ((a - 240) * 262144 + (b - 128) * 4096 + (c - 128) * 64 + (d - 128))%N l4); [|lia|done|].
  - destruct (N.eqb_spec a 240), (N.eqb_spec a 244); split; lia.
  - unfold encoding. assert (128 ≤ b ≤ 191)%N by (destruct (N.eqb_spec a 240), (N.eqb_spec a 244); lia).
    assert (65536 ≤ (a - 240) * 262144 + (b - 128) * 4096 + (c - 128) * 64 + (d - 128))%N by (destruct (N.eqb_spec a 240), (N.eqb_spec a 244); lia).
    rewrite !decide_False by lia. clear Hb IH Hgo E1 E2. cbn [app]. f_equal; [lia|]. f_equal; [lia|]. f_equal; [lia|]. f_equal. lia.
Qed.
End utf8.
Lemma valid_utf8_exact l : valid_utf8 (Ascii.N_of_ascii <$> l) = true ↔ is_utf8 l.
Proof.
  split.
  - intros H. destruct (valid_encodes_len _ _ (Nat.le_refl _) H) as (ns & Hns & E). by exists ns.
  - intros (ns & Hns & ->). by apply encodes_valid.
Qed.
Lemma ascii_utf8 l : Forall (λ c, (Ascii.N_of_ascii c < 128)%N) l → is_utf8 l.
Proof.
  intros H. exists (Ascii.N_of_ascii <$> l). split.
  - apply Forall_fmap. eapply list.Forall_impl; [exact H|]. intros c Hc. cbv beta in Hc. unfold compose, scalar. lia.
  - induction H as [|c l Hc _ IH]; [done|]. rewrite !fmap_cons, bind_cons, <- IH. unfold encoding. by rewrite decide_True.
Qed.

(** ** Memory *)
Lemma in_memory_cons m a c l : in_memory m a (c :: l) ↔ m !! a = Some c ∧ in_memory m (a + 1) l.
Proof.
  split.
  - intros H. split; [rewrite <- (H 0 c eq_refl); f_equal; lia|]. intros j x Hx. rewrite <- (H (S j) x Hx). f_equal. lia.
  - intros [H1 H2] [|j] x Hx.
    + injection Hx as <-. rewrite <- H1. f_equal. simpl. lia.
    + simpl in Hx. rewrite <- (H2 j x Hx). f_equal. lia.
Qed.
(** A string is not longer than memory. *)
Lemma in_memory_size m a l : in_memory m a l → length l ≤ base.size m.
Proof.
  revert m a. induction l as [|c l IH]; intros m a H; [simpl; lia|]. apply in_memory_cons in H as [H1 H2].
  assert (length l ≤ base.size (delete a m)) as Hl; [|rewrite map_size_delete_Some in Hl by (by eexists)].
  2: { assert (base.size m ≠ 0) by (intros ->%map_size_empty_inv; by rewrite lookup_empty in H1). simpl. lia. }
  apply (IH _ (a + 1)%N). intros j x Hx. rewrite lookup_delete_ne by lia. by apply H2.
Qed.
Lemma cstr_from_ok l : ∀ m a fuel, c_text m a l → length l < fuel → cstr_from fuel m a = Some l.
Proof.
  induction l as [|c l IH]; intros m a fuel [Hz Hm] Hf; (destruct fuel as [|fuel]; [lia|]); cbn [app] in Hm; apply in_memory_cons in Hm as [H1 H2]; cbn [cstr_from]; rewrite H1; cbn.
  - done.
  - apply not_elem_of_cons in Hz as [Hz1 Hz2]. rewrite bool_decide_eq_false_2 by done. rewrite (IH m (a + 1)%N fuel); [done|by split|simpl in Hf; lia].
Qed.
Lemma cstr_ok m a l : c_text m a l → cstr m a = Some l.
Proof.
  intros H. apply cstr_from_ok; [done|]. destruct H as [_ H]. apply in_memory_size in H. rewrite app_length in H. simpl in H. lia.
Qed.
(** What is read as a string is one. *)
Lemma cstr_from_text fuel : ∀ m a l, cstr_from fuel m a = Some l → c_text m a l.
Proof.
  induction fuel as [|fuel IH]; intros m a l H; [done|]. cbn [cstr_from] in H. destruct (m !! a) as [c|] eqn:Ec; [|done]. cbn in H.
  case_bool_decide as Hc.
  - injection H as <-. subst. split; [set_solver|]. cbn [app]. apply in_memory_cons. split; [done|]. by intros [|j] x Hx.
  - destruct (cstr_from fuel m (a + 1)) as [l'|] eqn:El; [|done]. injection H as <-. destruct (IH _ _ _ El) as [H1 H2].
    split; [apply not_elem_of_cons; auto|]. cbn [app]. by apply in_memory_cons.
Qed.
Lemma copy_to_ok l : ∀ m a, mapped m a (N.of_nat (length l)) →
  ∃ m', copy_to m a l = Some m' ∧ in_memory m' a l ∧ (∀ x, (x < a ∨ a + N.of_nat (length l) ≤ x)%N → m' !! x = m !! x) ∧ ∀ x, is_Some (m' !! x) ↔ is_Some (m !! x).
Proof.
  induction l as [|c l IH]; intros m a H.
  - exists m. split; [done|]. split; [intros j x Hx; by rewrite lookup_nil in Hx|]. done.
  - cbn [copy_to length] in *. destruct (H a ltac:(lia)) as [y Hy]. rewrite Hy. cbn.
    destruct (IH (<[a := c]> m) (a + 1)%N) as (m' & E & H1 & H2 & H3).
    { intros x Hx. rewrite lookup_insert_ne by lia. apply H. lia. }
    exists m'. split; [exact E|]. split; [|split].
    + apply in_memory_cons. split; [|done]. rewrite H2 by lia. by rewrite lookup_insert.
    + intros x Hx. rewrite H2 by lia. by rewrite lookup_insert_ne by lia.
    + intros x. rewrite H3. destruct (decide (x = a)) as [->|Hne]; [rewrite lookup_insert, Hy; split; by eexists|by rewrite lookup_insert_ne].
Qed.

(** ** A builder can be used once *)
Definition kept (v : value) (s : bst) : Prop := is_Some (h_vals (s.1 : heap) !! v) ∧ (s.2 : gmap N (list value)) !! v = None.
Lemma each_kept v (go : task → bst → rr bst) l : (∀ t s s', go t s = Done s' → kept v s → kept v s') →
  ∀ s s', each go l s = Done s' → kept v s → kept v s'.
Proof.
  intros Hgo. induction l as [|t l IH]; intros s s' H K; cbn [each] in H; [by injection H as <-|].
  destruct (go t s) as [s1| | |] eqn:E; try done. cbn in H. eapply IH; [exact H|]. by eapply Hgo.
Qed.
Lemma raw_build_kept ord p v n : ∀ cf t s s', raw_build ord p n cf t s = Done s' → kept v s → kept v s'.
Proof.
  induction n as [|n IH]; intros cf t [h us] s' H K; [done|]. cbn [raw_build] in H.
  assert (HE : ∀ cf l s s', each (raw_build ord p n cf) l s = Done s' → kept v s → kept v s') by (intros cf' l; apply each_kept; intros t'; apply IH).
  destruct K as [[x Hx] Hn]. cbn [fst snd] in Hx, Hn. destruct t as [u|b|f].
  - destruct (h_vals h !! u) as [y|] eqn:Eu; [injection H as <-; split; [by eexists|done]|].
    assert (Hne : u ≠ v) by congruence.
    destruct (need _) as [d| | |] eqn:Ed; try done. cbn in H. destruct (c_name _) as [[]| | |]; try done. cbn in H.
    destruct (each _ _ _) as [[h1 us1]| | |] eqn:Ee; try done. cbn in H. injection H as <-.
    apply HE in Ee; [|split; cbn; [rewrite lookup_insert_ne by done; by eexists|done]]. destruct Ee as [K1 K2]. cbn [fst snd] in K1, K2.
    split; cbn; by rewrite lookup_insert_ne.
  - destruct (h_bbs h !! b) as [y|]; [injection H as <-; split; [by eexists|done]|].
    destruct (need cf) as [fd| | |]; try done. cbn in H. destruct (need (d_bbs _ !! _)) as [d| | |]; try done. cbn in H. destruct (c_name _) as [[]| | |]; try done. cbn in H.
    destruct (each _ (TVal <$> bb_params d) _) as [s1| | |] eqn:E1; try done. cbn in H.
    destruct (each _ (TVal <$> ord _) _) as [s2| | |] eqn:E2; try done. cbn in H.
    destruct (need (find_bb _ _)) as [is| | |]; try done. cbn in H.
    destruct (each _ (TVal <$> is) _) as [[h3 us3]| | |] eqn:E3; try done. cbn in H. injection H as <-.
    apply HE in E1; [|split; cbn; [by eexists|done]]. apply HE in E2; [|done]. apply HE in E3; [|done]. exact E3.
  - destruct (h_funcs h !! f) as [y|]; [injection H as <-; split; [by eexists|done]|].
    destruct (need _) as [fd| | |]; try done. cbn in H. destruct (c_string _) as [[]| | |]; try done. cbn in H.
    destruct (each _ (TVal <$> _) _) as [s1| | |] eqn:E1; try done. cbn in H.
    destruct (each _ (TBlk <$> _) _) as [[h2 us2]| | |] eqn:E2; try done. cbn in H. injection H as <-.
    apply HE in E1; [|split; cbn; [by eexists|done]]. apply HE in E2; [|done]. exact E2.
Qed.
Lemma build_with_once ord n h p v r : is_Some (h_vals h !! v) → build_with ord n h p ≠ Done r.
Proof.
  intros Hv H. unfold build_with in H.
  destruct (each _ (TVal <$> _) _) as [s1| | |] eqn:E1; try done. cbn in H.
  destruct (each _ (TFunc <$> _) _) as [s2| | |] eqn:E2; try done. cbn in H.
  assert (K : kept v s2).
  { eapply each_kept; [|exact E2|]; [intros *; apply raw_build_kept|]. eapply each_kept; [|exact E1|]; [intros *; apply raw_build_kept|]. by split. }
  destruct K as [[x Hx] Hn]. unfold fill_used_by in H. destruct (forallb _ _) eqn:Ef; [|done].
  rewrite forallb_forall in Ef. specialize (Ef (v, x)). cbn [fst] in Ef. rewrite Hn in Ef.
  discriminate Ef. apply elem_of_list_In. by apply elem_of_map_to_list.
Qed.
Lemma build_with_new ord n p : build_with ord n heap0 p = build_on ord n p.
Proof. reflexivity. Qed.
