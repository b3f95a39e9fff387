(** Proofs: what is printed for a program that was read is not larger than the text (for C29). *)
From Coq Require Import Lia ZifyBool ZifyNat ZifyN.
From Verif Require Import Base IdModel TypeModel IrModel LayoutModel ParserModel DfgSpec FlowSpec PrintSpec FaithSpec AcceptSpec
  TreeTextProofs RetreeTopProofs RetreeProgProofs SizedProofs ScopeProofs.

Lemma sum_app {A} (g : A → N) l k : sum_of g (l ++ k) = (sum_of g l + sum_of g k)%N.
Proof. induction l as [|x l IH]; simpl; lia. Qed.
Lemma sum_pair {A C} (g : A → N) (h : C → N) l k : Forall2 (λ x y, g x ≤ h y)%N l k → (sum_of g l ≤ sum_of h k)%N.
Proof. induction 1; simpl; lia. Qed.
Lemma sum_sub {A} (g : A → N) l k : l ⊆+ k → (sum_of g l ≤ sum_of g k)%N.
Proof. induction 1; simpl; lia. Qed.
Lemma sum_parts {A} (g : A → N) (P Q : A → bool) l : (∀ x, P x = true → Q x = true → False) →
  (sum_of g (filter P l) + sum_of g (filter Q l) ≤ sum_of g l)%N.
Proof.
  intros H. induction l as [|x l IH]; [simpl; lia|]. rewrite !filter_cons. repeat case_decide; simpl; try lia.
  exfalso. apply (H x); by apply Is_true_eq_true.
Qed.

Section fn.
Context (fd : fdata) (G Fn L B G' Fn' L' B' : gmap N string).
Notation D := (datas (vals fd)).
Context (HL : nameable fd L B) (HL' : nameable fd L' B') (Hloc : ∀ v, is_Some (vals fd !! v) → is_global_id v = false).

Definition operand_size (v : value) : N := match vals fd !! v with Some d => if is_const (v_kind d) then 1 else 0 | None => 0 end%N.
Lemma called_size (Gx Lx Bx : gmap N string) v n : nameable fd Lx Bx → is_called Gx Lx v n → operand_size v = 0%N.
Proof.
  intros HN H. unfold operand_size, is_called in *. destruct (is_global_id v) eqn:E.
  - destruct (vals fd !! v) eqn:Ev; [|done]. rewrite Hloc in E; [done|eauto].
  - destruct (na_val _ _ _ HN _ _ H) as (_ & d & -> & -> & _). done.
Qed.
Lemma const_size v i : const_is D v i → operand_size v = 1%N.
Proof.
  intros H. destruct (const_kind _ _ _ H) as (t & k & Hk & Hc). unfold datas in Hk. rewrite lookup_fmap in Hk. apply fmap_Some in Hk as (d & Hd & E).
  injection E as -> ->. unfold operand_size. by rewrite Hd, Hc.
Qed.
Lemma val_is (Gx Lx Bx : gmap N string) v a : nameable fd Lx Bx → is_val Gx Lx D v a → val_size a = operand_size v.
Proof. intros HN. destruct a; cbn [is_val val_size]; intros H; symmetry; [by eapply called_size|by eapply const_size..]. Qed.
Lemma vals_are (Gx Lx Bx : gmap N string) vs l : nameable fd Lx Bx → Forall2 (is_val Gx Lx D) vs l → sum_of val_size l = sum_of operand_size vs.
Proof. intros HN. induction 1 as [|v a vs l H _ IH]; simpl; [done|]. by rewrite (val_is _ _ _ _ _ HN H), IH. Qed.
Lemma args_le vs args args' : is_args G L D vs args → is_args G' L' D vs args' → length vs = length args' → (sum_of val_size args' ≤ sum_of val_size args)%N.
Proof.
  intros (l & rest & -> & H) H' Hlen. apply exact_args in H'; [|done]. rewrite sum_app, (vals_are _ _ _ _ _ HL H), (vals_are _ _ _ _ _ HL' H'). lia.
Qed.
Lemma val_le v a a' : is_val G L D v a → is_val G' L' D v a' → val_size a' = val_size a.
Proof. intros H H'. by rewrite (val_is _ _ _ _ _ HL H), (val_is _ _ _ _ _ HL' H'). Qed.
Lemma stmt_le v st st' : is_stmt G Fn L B D v st → is_stmt G' Fn' L' B' D v st' → exact_at fd v st' → (stmt_size st' ≤ stmt_size st)%N.
Proof.
  intros (t & k & Hk & H) (t' & k' & Hk' & H') Hex. rewrite Hk in Hk'. injection Hk' as <- <-.
  unfold datas in Hk. rewrite lookup_fmap in Hk. apply fmap_Some in Hk as (d & Hd & E). injection E as -> ->. destruct (Hex _ Hd) as [Hlen Hun]. clear Hex.
  destruct st' as [m' e'|x' y'|g' args'|c' x' ta' y' fa'|x' args'|[a'|]|]; try done.
  - destruct H' as (_ & Hne & H'). destruct e' as [a'|x'|x' i'|x' i'|op' l' r'|g' args']; cbn [is_expr] in H'.
    + destruct H' as (Ek & _). destruct st as [m e|x y|g args|c x ta y fa|x args|[a|]|]; try done; rewrite ?Ek in H; try naive_solver. simpl. lia.
    + destruct H' as (u & Ek & _). destruct st as [m e|x y|g args|c x ta y fa|x args|[a|]|]; try done; rewrite ?Ek in H; try naive_solver. simpl. lia.
    + destruct H' as (u & w & Ek & _ & Hw). destruct st as [m e|x y|g args|c x ta y fa|x args|[a|]|]; try done; rewrite ?Ek in H; try naive_solver.
      destruct H as (_ & _ & H). destruct e; cbn [is_expr] in H; try naive_solver. destruct H as (u2 & w2 & [= <- <-] & _ & Hw2). simpl.
      rewrite (val_le _ _ _ Hw2 Hw). lia.
    + destruct H' as (u & w & Ek & _ & Hw). destruct st as [m e|x y|g args|c x ta y fa|x args|[a|]|]; try done; rewrite ?Ek in H; try naive_solver.
      destruct H as (_ & _ & H). destruct e; cbn [is_expr] in H; try naive_solver. destruct H as (u2 & w2 & [= <- <-] & _ & Hw2). simpl.
      rewrite (val_le _ _ _ Hw2 Hw). lia.
    + destruct H' as (u & w & Ek & Hu & Hw). destruct st as [m e|x y|g args|c x ta y fa|x args|[a|]|]; try done; rewrite ?Ek in H; try naive_solver.
      destruct H as (_ & _ & H). destruct e; cbn [is_expr] in H; try naive_solver. destruct H as (u2 & w2 & [= _ <- <-] & Hu2 & Hw2). simpl.
      rewrite (val_le _ _ _ Hw2 Hw), (val_le _ _ _ Hu2 Hu). lia.
    + destruct H' as (c & vs & Ek & _ & Ha). rewrite Ek in Hlen. destruct st as [m e|x y|g args|c2 x ta y fa|x args|[a|]|]; try done; rewrite ?Ek in H; try naive_solver.
      * destruct H as (_ & _ & H). destruct e as [| | | | |g args]; cbn [is_expr] in H; try naive_solver. destruct H as (c2 & vs2 & [= <- <-] & _ & Ha2). simpl.
        pose proof (args_le _ _ _ Ha2 Ha Hlen). lia.
      * destruct H as (c2 & vs2 & [= <- <-] & _ & Ha2). simpl. pose proof (args_le _ _ _ Ha2 Ha Hlen). lia.
  - destruct H' as (u & w & Ek & Hu & _). destruct st as [m e|x y|g args|c2 x ta y fa|x args|[a|]|]; try done; rewrite ?Ek in H; try naive_solver.
    destruct H as (u2 & w2 & [= <- <-] & Hu2 & _). destruct x as [x|i], x' as [x'|i']; cbn [is_stored stmt_size] in *; try lia.
    + apply (called_size _ _ _ _ _ HL) in Hu2. apply const_size in Hu. lia.
    + by rewrite (const_fun _ _ _ _ Hu Hu2).
  - destruct H' as (c & vs & Ek & _ & Ha). rewrite Ek in Hlen. destruct st as [m e|x y|g args|c2 x ta y fa|x args|[a|]|]; try done; rewrite ?Ek in H; try naive_solver.
    destruct H as (c2 & vs2 & [= <- <-] & _ & Ha2). simpl. pose proof (args_le _ _ _ Ha2 Ha Hlen). lia.
  - destruct H' as (u & b1 & b2 & vs1 & vs2 & Ek & Hu & _ & Ha & _ & Hb). rewrite Ek in Hlen. destruct Hlen as [Hl1 Hl2].
    destruct st as [m e|x y|g args|c2 x ta y fa|x args|[a|]|]; try done; rewrite ?Ek in H; try naive_solver.
    destruct H as (? & ? & ? & ? & ? & [= <- <- <- <- <-] & Hu' & _ & Ha' & _ & Hb'). simpl. rewrite (val_le _ _ _ Hu' Hu).
    pose proof (args_le _ _ _ Ha' Ha Hl1). pose proof (args_le _ _ _ Hb' Hb Hl2). lia.
  - destruct H' as (b1 & vs & Ek & _ & Ha). rewrite Ek in Hlen. destruct st as [m e|x y|g args|c2 x ta y fa|x args|[a|]|]; try done; rewrite ?Ek in H; try naive_solver.
    destruct H as (? & ? & [= <- <-] & _ & Ha'). simpl. pose proof (args_le _ _ _ Ha' Ha Hlen). lia.
  - destruct H' as (u & Ek & Hu). destruct st as [m e|x y|g args|c2 x ta y fa|x args|[a|]|]; try done; rewrite ?Ek in H; try naive_solver.
    destruct H as (? & [= <-] & Hu'). simpl. rewrite (val_le _ _ _ Hu' Hu). lia.
  - destruct st as [m e|x y|g args|c2 x ta y fa|x args|[a|]|]; try done; rewrite ?H' in H; try naive_solver.
Qed.
Lemma stmts_le vs sts sts' : Forall2 (is_stmt G Fn L B D) vs sts → Forall2 (is_stmt G' Fn' L' B' D) vs sts' → Forall2 (exact_at fd) vs sts' →
  (sum_of stmt_size sts' ≤ sum_of stmt_size sts)%N.
Proof.
  intros H. revert sts'. induction H as [|v st vs sts H _ IH]; intros sts' H' Hx; inversion H' as [|? st' ? sts2 H1 H2]; subst; [done|].
  inversion Hx as [|? ? ? ? X1 X2]; subst. simpl. pose proof (stmt_le _ _ _ H H1 X1). pose proof (IH _ H2 X2). lia.
Qed.
Lemma blocks_le P xs bs bs' : Forall2 (is_block G Fn L B D P) xs bs → Forall2 (is_block G' Fn' L' B' D P) xs bs' →
  Forall2 (λ (x : bblock * list value) b, Forall2 (exact_at fd) x.2 (b_stmts b)) xs bs' → (sum_of block_size bs' ≤ sum_of block_size bs)%N.
Proof.
  intros H. revert bs'. induction H as [|x b xs bs (_ & (ps & Hps & Hp) & Hs) _ IH]; intros bs' H' Hx; inversion H' as [|? b' ? bs2 (_ & (ps' & Hps' & Hp') & Hs') H2]; subst; [done|].
  inversion Hx as [|? ? ? ? X1 X2]; subst. simpl. pose proof (IH _ H2 X2). pose proof (stmts_le _ _ _ Hs Hs' X1).
  rewrite Hps in Hps'. injection Hps' as <-. apply Forall2_length in Hp, Hp'. assert (block_size b' ≤ block_size b)%N by (unfold block_size; lia). lia.
Qed.
End fn.

Lemma NoDup_map_inv {A C} (g : A → C) l : NoDup (map g l) → NoDup l.
Proof. induction l as [|x l IH]; simpl; intros H; [constructor|]. apply list.NoDup_cons in H as [H1 H2]. constructor; [|by apply IH]. intros Hx. apply H1. by apply elem_of_list_fmap_1. Qed.
Lemma fun_le G Fn G' Fn' f fd t t' : (∀ v, is_Some (vals fd !! v) → is_global_id v = false) → fun_is G Fn fd t → redescribes G' Fn' f fd t' →
  (top_size t' ≤ top_size t)%N.
Proof.
  intros Hloc H H'. destruct t as [|n ps r bbs|n ps r| |], t' as [|n' ps' r' bbs'|n' ps' r'| |]; try done.
  - destruct H as (_ & _ & _ & L & B & l & Hn & (entry & _ & Hsub & _) & Hnd & _ & _ & Hpar & Hblk).
    destruct H' as (_ & _ & _ & L' & B' & R1 & R2 & R3 & R4 & R5 & R6 & R7 & R8 & R9 & R10 & R11 & R12).
    simpl. apply Forall2_length in Hpar, R10.
    pose proof (blocks_le fd _ _ _ _ _ _ _ _ (names_nameable _ _ _ Hn) R1 Hloc _ _ _ _ Hblk R11 R12).
    assert (Hle : (sum_of block_size l ≤ sum_of block_size bbs)%N).
    { apply sum_sub, NoDup_submseteq; [by eapply NoDup_map_inv|]. intros b Hb. by apply Hsub. }
    lia.
  - simpl. lia.
  - destruct H as (_ & E & _), H' as (_ & E' & _). done.
Qed.
Lemma globals_le G G' m vs l gs : Forall2 (global_is G m) vs l → Forall2 (redescribes_global G' m) vs gs → (sum_of top_size gs ≤ sum_of top_size l)%N.
Proof.
  intros H. revert gs. induction H as [|v t vs l Hv _ IH]; intros gs Hg'; inversion Hg' as [|? t' ? gs' Hv' Hg2]; subst; [done|].
  assert (top_size t' ≤ top_size t)%N; [|pose proof (IH _ Hg2); simpl; lia].
  destruct t as [n a i| | | |], t' as [n' a' i'| | | |]; try done.
  destruct Hv as (_ & d & init & e & Hd & Hk & _ & _ & Hc & _), Hv' as (_ & d' & init' & e' & Hd' & Hk' & _ & Hc' & _).
  assert (init' = init) as -> by congruence. simpl. by rewrite (const_fun _ _ _ _ Hc Hc').
Qed.
Lemma funs_le p G Fn G' Fn' vs l fs : (∀ f fd v, p_funcs p !! f = Some fd → is_Some (vals fd !! v) → is_global_id v = false) →
  Forall2 (λ f t, ∃ fd, p_funcs p !! f = Some fd ∧ Fn !! f = Some (f_name fd) ∧ fun_is G Fn fd t) vs l →
  Forall2 (λ f t, ∃ fd, p_funcs p !! f = Some fd ∧ redescribes G' Fn' f fd t) vs fs → (sum_of top_size fs ≤ sum_of top_size l)%N.
Proof.
  intros Hloc H. revert fs. induction H as [|v t vs l (fd & Hfd & _ & Hv) _ IH]; intros fs Hf'; inversion Hf' as [|? t' ? fs' (fd' & Hfd' & Hv') Hf2]; subst; [done|].
  assert (top_size t' ≤ top_size t)%N; [|pose proof (IH _ Hf2); simpl; lia].
  rewrite Hfd in Hfd'. injection Hfd' as <-. eapply fun_le; [|exact Hv|exact Hv']. intros u. by eapply Hloc.
Qed.
Lemma size_le p ts gs fs : faithful p ts → redescribed p gs fs →
  (∀ f fd v, p_funcs p !! f = Some fd → is_Some (vals fd !! v) → is_global_id v = false) →
  (sum_of top_size (gs ++ fs) ≤ sum_of top_size ts)%N.
Proof.
  intros (G & Fn & Hg & Hf & _) (G' & Fn' & _ & _ & _ & _ & Hg' & Hf') Hloc. rewrite sum_app.
  pose proof (sum_parts top_size is_global_def is_fun_top ts ltac:(by intros [])). pose proof (globals_le _ _ _ _ _ _ Hg Hg').
  pose proof (funs_le _ _ _ _ _ _ _ _ Hloc Hf Hf'). lia.
Qed.
