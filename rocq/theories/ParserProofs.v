(** Proofs about the parser: termination, error counting, shapes. *)
From Coq Require Import Lia ZifyBool ZifyNat ZifyN.
From Verif Require Import Base IrModel LexerModel LexerSpec LexerProofs LexerRunProofs ParserModel ParserSpec.

(** ** Progress *)
Definition live (k : tokkind) : nat := match k with TkEnd => 0 | _ => 1 end.
Definition mu (s : ps) : nat := 2 * pend (p_lex s) + live (cur_kind s).
Lemma live_le k : live k ≤ 1.
Proof. destruct k; simpl; lia. Qed.
Lemma live_pos k : k ≠ TkEnd → live k = 1.
Proof. by destruct k. Qed.
Notation perrs s := (errs (p_lex s)).

Record fine {A} (d : nat) (s : ps) (p : res A * ps) : Prop := {
  fi_fuel : p.1 ≠ Rfuel;
  fi_panic : p.1 ≠ Rpanic;
  fi_inv : inv (p_lex p.2);
  fi_mu : mu p.2 + d ≤ mu s;
  fi_errs : (perrs s ≤ perrs p.2)%N;
  fi_err : ∀ f, p.1 = Rerr f → (perrs s < perrs p.2)%N;
  fi_fatal : p.1 = Rerr true → ¬ noerr (p_lex s);
  fi_noerr : noerr (p_lex s) → noerr (p_lex p.2);
}.

Lemma fine_bind {A B} d s (m : M ps A) (k : A → M ps B) :
  fine d s (m s) →
  (∀ a s1, m s = (Rok a, s1) → inv (p_lex s1) → mu s1 + d ≤ mu s → fine 0 s1 (k a s1)) →
  fine d s ((x <- m;; k x) s).
Proof.
  intros H Hk. unfold mthen. destruct (m s) as [[a|f| |] s1] eqn:Hm.
  2-4: by destruct H as [H1 H2 H3 H4 H5 H6 H7 H8]; split; simpl in *; try done; intros;
    simplify_eq; eauto using H6.
  destruct H as [_ _ H3 H4 H5 _ _ H8]; simpl in *.
  destruct (Hk a s1 eq_refl H3 H4) as [G1 G2 G3 G4 G5 G6 G7 G8].
  split; [done|done|done|lia|lia| |by intros Hf ?; apply (G7 Hf), H8|by intros ?; apply G8, H8].
  intros f Hf. specialize (G6 f Hf). lia.
Qed.

Lemma fine_ok {A} s (a : A) : inv (p_lex s) → fine 0 s (mok a s).
Proof. intros Hi. split; simpl; try done; lia. Qed.
Lemma fine_error {A} s : inv (p_lex s) → fine 0 s (p_error (A:=A) s).
Proof.
  intros Hi. destruct s as [[r q la n] [sp k]]. unfold p_error, log_err, mu, cur_kind, pend.
  split; simpl; try done; intros; unfold mu, cur_kind, pend; simpl; lia.
Qed.
Lemma fine_weak {A} d s (p : res A * ps) : fine d s p → fine 0 s p.
Proof. intros []; split; try done; lia. Qed.

Lemma fine_next s : inv (p_lex s) → fine (live (cur_kind s)) s (p_next s).
Proof.
  intros Hi. unfold p_next. destruct (lex_next_token (p_lex s)) as [r l'] eqn:H.
  apply lex_next_token_spec in H as (Hp & Hs & Hn & Ht); [|done].
  destruct s as [l [sp k]]; unfold mu, cur_kind; simpl in *.
  destruct (last l) as [c|] eqn:Hl.
  - destruct (Hs ltac:(done)) as [Hp1 _ Hp3 Hp4]. pose proof (live_le k).
    destruct Ht as [(gap & l1 & _ & Hm & He & k' & c' & t & -> & Hm' & He' & _)|
      [(_ & -> & _ & _ & He)|(cs & f & -> & _ & He & Hf)]]; split; simpl; try done.
    + pose proof (live_le k'). unfold mu, cur_kind. simpl. lia.
    + lia.
    + unfold mu, cur_kind. simpl. lia.
    + lia.
    + unfold mu, cur_kind. simpl. lia.
    + lia.
    + intros. lia.
    + by intros [= ->]; apply Hf.
  - specialize (Hn eq_refl). subst l'. destruct Ht as [(gap & l1 & _ & Hm & He & k' & c' & t & -> & Hm' & He' & _)|
      [(_ & -> & _ & _ & He)|(cs & f & -> & _ & He & Hf)]].
    + exfalso. assert (Hr : rem l = []) by (unfold rem; by rewrite Hl).
      destruct Hm as [Hm _], Hm' as [Hm' _]. rewrite Hm' in Hm. rewrite Hr in Hm.
      by destruct gap.
    + split; simpl; try done. unfold mu, cur_kind. simpl. lia.
    + lia.
Qed.
Lemma fine_next' s : inv (p_lex s) → cur_kind s ≠ TkEnd → fine 1 s (p_next s).
Proof. intros Hi Hc. rewrite <- (live_pos _ Hc). by apply fine_next. Qed.

(** ** Each function *)
Ltac fstep :=
  lazymatch goal with
  | |- fine 0 _ (p_next _) => by eapply fine_weak, fine_next
  | |- fine 1 _ (p_next _) => apply fine_next'; [done|congruence]
  | |- fine 0 _ (mok _ _) => by apply fine_ok
  | |- fine 0 _ (p_error _) => by apply fine_error
  | |- fine _ _ (mthen _ _ _) => apply fine_bind; [|intros]
  | |- fine _ _ ((if ?b then _ else _) _) => destruct b eqn:?
  end.

Lemma fine_read_sym s : inv (p_lex s) → fine 0 s (read_sym s).
Proof. intros Hi. unfold read_sym. destruct (cur_kind s) eqn:?; repeat fstep. Qed.
Lemma fine_read_sym' s v : inv (p_lex s) → cur_kind s = TkSymbol v → fine 1 s (read_sym s).
Proof. intros Hi E. unfold read_sym. rewrite E. repeat fstep. Qed.
Lemma fine_read_int s : inv (p_lex s) → fine 0 s (read_int s).
Proof. intros Hi. unfold read_int. destruct (cur_kind s) eqn:?; repeat fstep. Qed.
Lemma fine_read_op s : inv (p_lex s) → fine 0 s (read_op s).
Proof. intros Hi. unfold read_op. destruct (cur_kind s) eqn:?; repeat fstep. Qed.
Lemma fine_expect_ is s : inv (p_lex s) → fine 0 s (expect_ is s).
Proof.
  intros Hi. unfold expect_. destruct (is (cur_kind s)); [by eapply fine_weak, fine_next|by apply fine_error].
Qed.
Lemma fine_expect c s : inv (p_lex s) → fine 0 s (expect c s).
Proof. apply fine_expect_. Qed.
Lemma is_other_spec c k : is_other c k = true → k = TkOther c.
Proof. destruct k; try done. simpl. intros ->%Ascii.eqb_eq. done. Qed.
Lemma fine_expect' c s : inv (p_lex s) → cur_kind s = TkOther c → fine 1 s (expect c s).
Proof.
  intros Hi E. unfold expect, expect_. rewrite E. simpl. rewrite Ascii.eqb_refl.
  apply fine_next'; [done|congruence].
Qed.
Lemma fine_parse_value s : inv (p_lex s) → fine 0 s (parse_value s).
Proof.
  intros Hi. unfold parse_value. destruct (cur_kind s) as [| |[]| | |] eqn:?; repeat fstep.
Qed.

(** an item parser that is fine below [n] *)
Definition fine_below {A} (n : nat) (m : M ps A) : Prop :=
  ∀ s, inv (p_lex s) → mu s < n → fine 0 s (m s).

Lemma fine_list_loop {A} f n (item : M ps A) s :
  fine_below n item → inv (p_lex s) → mu s < f → mu s < n → fine 0 s (list_loop f item s).
Proof.
  intros Hit. revert s. induction f as [|f IH]; intros s Hi Hf Hn; [lia|]. simpl.
  apply fine_bind; [by apply Hit|]. intros x s1 _ Hi1 Hm1.
  unfold mget. unfold mthen at 1. destruct (is_other "," (cur_kind s1)) eqn:E.
  - apply is_other_spec in E. apply (fine_weak 1). apply fine_bind; [fstep|].
    intros _ s2 _ Hi2 Hm2. apply fine_bind; [apply IH; [done|lia..]|].
    intros xs s3 _ Hi3 _. by apply fine_ok.
  - by apply fine_ok.
Qed.

Lemma fine_parse_list {A} f n (item : M ps A) s :
  fine_below n item → inv (p_lex s) → mu s ≤ f → mu s ≤ n → fine 0 s (parse_list f item s).
Proof.
  intros Hit Hi Hf Hn. unfold parse_list. unfold mthen at 1.
  destruct (expect "(" s) as [[[]|e| |] s1] eqn:E.
  2: { pose proof (fine_expect "(" s Hi) as H. rewrite E in H.
       by destruct H as [H1 H2 H3 H4 H5 H6 H7 H8]; split; simpl in *; try done; intros;
         simplify_eq; eauto using H6. }
  2,3: pose proof (fine_expect "(" s Hi) as H; rewrite E in H; by destruct H.
  assert (Hs : cur_kind s = TkOther "(").
  { unfold expect, expect_ in E. destruct (is_other "(" (cur_kind s)) eqn:E'; [|done].
    by apply is_other_spec in E'. }
  pose proof (fine_expect' "(" s Hi Hs) as H. rewrite E in H.
  destruct H as [_ _ H3 H4 H5 _ _ H8]; simpl in *.
  assert (G : fine 0 s1 ((s0 <- mget;; xs <- (if is_other ")" (cur_kind s0) then mok [] else list_loop f item);;
     expect ")";; mok xs) s1)).
  { unfold mget, mthen at 1. apply fine_bind.
    { destruct (is_other ")" (cur_kind s1)); [by apply fine_ok|].
      apply fine_list_loop with n; try done; lia. }
    intros xs s2 _ Hi2 _. apply fine_bind; [by apply fine_expect|]. intros _ s3 _ Hi3 _.
    by apply fine_ok. }
  destruct G as [G1 G2 G3 G4 G5 G6 G7 G8]. 
  split; [done|done|done|lia|lia| |by intros Hf' ?; apply (G7 Hf'), H8|by intros ?; apply G8, H8].
  intros f' Hf'. specialize (G6 f' Hf'). lia.
Qed.

Lemma fine_parse_opt_list {A} f n (item : M ps A) s :
  fine_below n item → inv (p_lex s) → mu s ≤ f → mu s ≤ n → fine 0 s (parse_opt_list f item s).
Proof.
  intros Hit Hi Hf Hn. unfold parse_opt_list. destruct (is_other "(" (cur_kind s)).
  - by eapply fine_parse_list. - by apply fine_ok.
Qed.

Lemma fine_opt_ret n ty s :
  fine_below n ty → inv (p_lex s) → mu s ≤ n → fine 0 s (opt_ret ty s).
Proof.
  intros Hty Hi Hn. unfold opt_ret. destruct (is_other ":" (cur_kind s)) eqn:E; [|by apply fine_ok].
  apply is_other_spec in E. apply (fine_weak 1). apply fine_bind; [fstep|].
  intros _ s1 _ Hi1 Hm1. apply fine_bind; [apply Hty; [done|lia]|]. intros. by apply fine_ok.
Qed.

Ltac fine_go :=
  lazymatch goal with
  | |- fine 0 _ (p_next _) => by eapply fine_weak, fine_next
  | |- fine 1 _ (p_next _) => apply fine_next'; [done|congruence]
  | |- fine 0 _ (mok _ _) => by apply fine_ok
  | |- fine 0 _ (p_error _) => by apply fine_error
  | |- fine 0 _ (expect _ _) => by apply fine_expect
  | |- fine 0 _ (expect_ _ _) => by apply fine_expect_
  | |- fine 0 _ (read_sym _) => by apply fine_read_sym
  | |- fine 0 _ (read_int _) => by apply fine_read_int
  | |- fine 0 _ (read_op _) => by apply fine_read_op
  | |- fine 0 _ (parse_value _) => by apply fine_parse_value
  | |- fine _ _ (mthen _ _ _) => apply fine_bind; [|intros]
  end.

Lemma fine_type f : fine_below f (parse_type f).
Proof.
  induction f as [|f IH]; intros s Hi Hm; [lia|]. simpl.
  destruct (cur_kind s) as [| |[]| |c|] eqn:E; try (by apply fine_error).
  - by repeat fine_go.
  - destruct (Ascii.eqb c "["); [|destruct (Ascii.eqb c "*"); [|destruct (Ascii.eqb c "(")]].
    + apply (fine_weak 1). fine_go; [fine_go|]. fine_go; [apply IH; [done|lia]|].
      by repeat fine_go.
    + apply (fine_weak 1). fine_go; [fine_go|]. fine_go; [apply IH; [done|lia]|].
      by repeat fine_go.
    + fine_go; [eapply fine_parse_list; [exact IH|done|lia..]|].
      fine_go; [eapply fine_opt_ret; [exact IH|done|lia]|]. fine_go.
    + fine_go.
Qed.

Lemma fine_param f : fine_below f (parse_param f).
Proof.
  intros s Hi Hm. unfold parse_param. do 2 (fine_go; [fine_go|]).
  fine_go; [apply fine_type; [done|lia]|]. fine_go.
Qed.

Lemma fine_init f : fine_below f (parse_init f).
Proof.
  induction f as [|f IH]; intros s Hi Hm; [lia|]. simpl.
  destruct (cur_kind s) as [| |[]| |c|] eqn:E; try (by apply fine_error); try by repeat fine_go.
  destruct (Ascii.eqb c "{") eqn:Ec; [|fine_go]. apply Ascii.eqb_eq in Ec as ->.
  apply (fine_weak 1). fine_go; [by apply fine_expect'|].
  fine_go; [eapply fine_list_loop; [exact IH|done|lia..]|]. by repeat fine_go.
Qed.

Lemma fine_value_below n : fine_below n parse_value.
Proof. intros s Hi _. fine_go. Qed.

Lemma fine_fun_call f s : inv (p_lex s) → cur_kind s ≠ TkEnd → mu s ≤ f →
  fine 1 s (parse_fun_call f s).
Proof.
  intros Hi Hc Hf. unfold parse_fun_call. fine_go; [fine_go|]. fine_go; [fine_go|].
  fine_go; [eapply fine_parse_list; [apply (fine_value_below f)|done|lia..]|]. fine_go.
Qed.

Lemma fine_expr f s : inv (p_lex s) → mu s ≤ f → fine 0 s (parse_expr f s).
Proof.
  intros Hi Hm. unfold parse_expr, parse_gep.
  destruct (cur_kind s) as [| |[]| |c|] eqn:E; try (by apply fine_error); try by repeat fine_go.
  - apply (fine_weak 1). fine_go; [fine_go|]. fine_go; [apply fine_type; [done|lia]|]. fine_go.
  - apply (fine_weak 1). fine_go; [apply fine_fun_call; [done|congruence|done]|].
    destruct a. fine_go.
Qed.

Lemma fine_stmt f s : inv (p_lex s) → is_Some (stmt_start (cur_kind s)) → mu s ≤ f →
  fine 1 s (parse_stmt f s).
Proof.
  intros Hi Hs Hm. unfold parse_stmt.
  destruct (cur_kind s) as [| |[]| |c|] eqn:E; simpl in Hs; try (by destruct Hs).
  - unfold parse_symbol_def. fine_go; [by eapply fine_read_sym'|]. fine_go; [fine_go|].
    fine_go; [apply fine_expr; [done|lia]|]. fine_go.
  - unfold parse_store. fine_go; [fine_go|]. fine_go.
    { unfold parse_store_value.
      destruct (cur_kind s1) eqn:?; [|by repeat fine_go|..]; fine_go; try fine_go;
        (apply fine_init; [done|lia]). }
    by repeat fine_go.
  - unfold parse_branch. fine_go; [fine_go|]. do 3 (fine_go; [fine_go|]).
    fine_go; [eapply fine_parse_opt_list; [apply (fine_value_below f)|done|lia..]|].
    do 2 (fine_go; [fine_go|]).
    fine_go; [eapply fine_parse_opt_list; [apply (fine_value_below f)|done|lia..]|]. fine_go.
  - unfold parse_jump. fine_go; [fine_go|]. fine_go; [fine_go|].
    fine_go; [eapply fine_parse_opt_list; [apply (fine_value_below f)|done|lia..]|]. fine_go.
  - fine_go; [apply fine_fun_call; [done|congruence|done]|]. destruct a. fine_go.
  - unfold parse_return. unfold mget, mthen at 1. fine_go; [fine_go|].
    unfold mthen at 1. case_match; by repeat fine_go.
Qed.

Lemma fine_recover f stop brk s :
  (∀ k, stop k = false → brk k = false → k ≠ TkEnd) →
  inv (p_lex s) → mu s < f → fine 0 s (recover f stop brk s).
Proof.
  intros Hk. revert s. induction f as [|f IH]; intros s Hi Hm; [lia|]. simpl.
  destruct (stop (cur_kind s)) eqn:E1; [by apply (fine_ok s false)|].
  destruct (brk (cur_kind s)) eqn:E2; [by apply (fine_ok s true)|].
  pose proof (fine_next' s Hi (Hk _ E1 E2)) as H.
  destruct (p_next s) as [[a|[]| |] s1]; simpl in *.
  1,3: destruct H as [_ _ H3 H4 H5 _ _ H8]; simpl in *;
    destruct (IH s1 H3 ltac:(lia)) as [G1 G2 G3 G4 G5 G6 G7 G8];
    (split; [done|done|done|lia|lia| |by intros Hf' ?; apply (G7 Hf'), H8|by intros ?; apply G8, H8]);
    intros f' Hf'; specialize (G6 f' Hf'); lia.
  - destruct H as [H1 H2 H3 H4 H5 H6 H7 H8]; simpl in *. split; simpl; try done; try lia.
    + intros f' _. by eapply H6. + intros _. by apply H7.
  - by destruct H.
  - by destruct H.
Qed.

Lemma fine_trans {A B} d s (p : res A * ps) (q : res B * ps) :
  fine d s p → fine 0 p.2 q → fine d s q.
Proof.
  intros [_ _ H3 H4 H5 _ _ H8] [G1 G2 G3 G4 G5 G6 G7 G8].
  split; [done|done|done|lia|lia| |by intros Hf' ?; apply (G7 Hf'), H8|by intros ?; apply G8, H8].
  intros f' Hf'. specialize (G6 f' Hf'). lia.
Qed.

Lemma block_break_end k : bool_decide (is_Some (stmt_start k)) = false → block_break k = false → k ≠ TkEnd.
Proof. by intros _ H ->. Qed.

Lemma fine_block_stmt f s : inv (p_lex s) → mu s < f →
  fine 0 s (block_stmt f s) ∧
  (∀ st s', block_stmt f s = (Rok st, s') → mu s' < mu s).
Proof.
  intros Hi Hm. unfold block_stmt. destruct (stmt_start (cur_kind s)) as [ex|] eqn:E.
  2: { split; [by apply fine_error|done]. }
  pose proof (fine_stmt f s Hi ltac:(by rewrite E; eauto) ltac:(lia)) as H.
  cut (fine 1 s match parse_stmt f s with
     | (Rok st, s') => (Rok (st, ex), s')
     | (Rerr true, s') => (Rerr true, s')
     | (Rerr false, s') =>
         (b <- recover f (λ k : tokkind, bool_decide (is_Some (stmt_start k))) block_break;; mok (SErr, ex || b)) s'
     | (Rpanic, s') => (Rpanic, s')
     | (Rfuel, s') => (Rfuel, s')
     end).
  { intros G. split; [by eapply fine_weak|]. intros st s' Heq. destruct G as [_ _ _ G _ _ _ _].
    rewrite Heq in G. simpl in G. lia. }
  destruct (parse_stmt f s) as [[a|[]| |] s1].
  - by destruct H; split.
  - destruct H as [H1 H2 H3 H4 H5 H6 H7 H8]; simpl in *. split; simpl; try done.
    + intros f' _. by eapply H6. + intros _. by apply H7.
  - eapply fine_trans; [exact H|]. destruct H as [_ _ H3 H4 _ _ _ _]; simpl in *.
    fine_go; [apply fine_recover; [apply block_break_end|done|lia]|]. fine_go.
  - by destruct H.
  - by destruct H.
Qed.

Lemma fine_block_loop f g s : inv (p_lex s) → mu s < f → mu s < g →
  fine 0 s (block_loop_ f g s).
Proof.
  revert s. induction f as [|f IH]; intros s Hi Hf Hg; [lia|]. simpl.
  destruct (fine_block_stmt g s Hi Hg) as [H Hlt].
  fine_go; [done|]. destruct a as [st ex]. destruct ex; [fine_go|].
  specialize (Hlt _ _ H0). fine_go; [apply IH; [done|lia..]|]. fine_go.
Qed.

Lemma fine_block f s : inv (p_lex s) → mu s < f →
  fine 0 s (parse_block f s) ∧ (∀ b s', parse_block f s = (Rok b, s') → mu s' < mu s).
Proof.
  intros Hi Hm.
  assert (G : ∀ d, fine d s (read_sym s) → fine d s (parse_block f s)).
  { intros d Hd. unfold parse_block. fine_go; [done|].
    fine_go; [eapply fine_parse_opt_list; [apply fine_param|done|lia..]|].
    fine_go; [fine_go|]. fine_go; [apply fine_block_loop; [done|lia..]|]. fine_go. }
  split; [apply G; fine_go|]. intros b s' H.
  destruct (cur_kind s) as [|v|k| |c|] eqn:E.
  2: { pose proof (G 1 ltac:(by eapply fine_read_sym')) as [_ _ _ G' _ _ _ _].
       rewrite H in G'. simpl in G'. lia. }
  all: exfalso; unfold parse_block, read_sym, mthen in H; by rewrite E in H.
Qed.

Lemma fine_blocks_loop f g s : inv (p_lex s) → mu s < f → mu s < g →
  fine 0 s (blocks_loop f g s).
Proof.
  revert s. induction f as [|f IH]; intros s Hi Hf Hg; [lia|]. simpl.
  destruct (is_other "}" (cur_kind s)); [by apply (fine_ok s [])|].
  destruct (fine_block g s Hi Hg) as [H Hlt].
  fine_go; [done|]. specialize (Hlt _ _ H0). fine_go; [apply IH; [done|lia..]|]. fine_go.
Qed.

Lemma fine_top f s : inv (p_lex s) → mu s < f → top_start (cur_kind s) = true →
  fine (live (cur_kind s)) s (parse_top f s).
Proof.
  intros Hi Hm Ht. unfold parse_top.
  destruct (cur_kind s) as [|v|[]| |c|] eqn:E; try done; simpl.
  - unfold parse_global_def. fine_go; [fine_go|]. do 3 (fine_go; [fine_go|]).
    fine_go; [apply fine_type; [done|lia]|]. fine_go; [fine_go|].
    fine_go; [apply fine_init; [done|lia]|]. fine_go.
  - unfold parse_fun_def. do 2 (fine_go; [fine_go|]).
    fine_go; [eapply fine_parse_list; [apply fine_param|done|lia..]|].
    fine_go; [eapply fine_opt_ret; [apply fine_type|done|lia]|].
    fine_go; [fine_go|]. fine_go; [apply fine_blocks_loop; [done|lia..]|].
    fine_go; [fine_go|]. case_match; fine_go.
  - unfold parse_fun_decl. do 2 (fine_go; [fine_go|]).
    fine_go; [eapply fine_parse_list; [apply fine_type|done|lia..]|].
    fine_go; [eapply fine_opt_ret; [apply fine_type|done|lia]|]. fine_go.
  - fine_go.
Qed.

Lemma fine_parse_next_f f s : inv (p_lex s) → mu s < f →
  fine 0 s (parse_next_f f s) ∧
  (∀ t s', parse_next_f f s = (Rok t, s') → t ≠ TEnd → mu s' < mu s).
Proof.
  intros Hi Hm. unfold parse_next_f. destruct (top_start (cur_kind s)) eqn:E.
  2: { split; [by apply fine_error|done]. }
  pose proof (fine_top f s Hi Hm E) as H.
  cut (fine (live (cur_kind s)) s match parse_top f s with
       | (Rerr false, s') => (recover f top_start (λ _, false);; mok TErr) s'
       | r => r
       end).
  { intros G. split; [by eapply fine_weak|]. intros t s' Heq Hne.
    assert (cur_kind s ≠ TkEnd).
    { intros HE. unfold parse_top in Heq. rewrite HE in Heq. unfold mok in Heq. congruence. }
    destruct G as [_ _ _ G _ _ _ _].
    rewrite Heq, live_pos in G by done. simpl in G. lia. }
  destruct (parse_top f s) as [[a|[]| |] s1]; try done.
  eapply fine_trans; [exact H|]. destruct H as [_ _ H3 H4 _ _ _ _]; simpl in *.
  fine_go; [apply fine_recover; [|done|lia]|]. { by intros k Hk _ ->. }
  fine_go.
Qed.

Lemma p_fuel_mu s : mu s < p_fuel s.
Proof.
  unfold mu, p_fuel, pend. pose proof (live_le (cur_kind s)).
  destruct (last (p_lex s)); lia.
Qed.
Lemma fine_parse_next s : inv (p_lex s) →
  fine 0 s (parse_next s) ∧
  (∀ t s', parse_next s = (Rok t, s') → t ≠ TEnd → mu s' < mu s).
Proof. intros Hi. apply fine_parse_next_f; [done|apply p_fuel_mu]. Qed.

(** Every sequence of calls comes to an end. *)
Lemma parse_all s : inv (p_lex s) →
  (∃ ts s', parses s ts s') ∨ (∃ f s', parse_fails s f s').
Proof.
  remember (mu s) as n eqn:Hn. revert s Hn. induction (lt_wf n) as [n _ IH]. intros s -> Hi.
  destruct (fine_parse_next s Hi) as [H Hlt].
  destruct (parse_next s) as [[t|f| |] s1] eqn:Hp.
  - assert (t = TEnd ∨ t ≠ TEnd) as [->|Hne] by (destruct t; eauto); [left; eexists [], _; by constructor|].
    destruct H as [_ _ H _ _ _ _ _]; simpl in H.
    destruct (IH (mu s1) ltac:(by eapply Hlt) s1 eq_refl H) as [(ts & s' & G)|(f & s' & G)].
    + left. eexists (_ :: _), _. by econstructor.
    + right. eexists f, s'. by econstructor.
  - right. eexists _, _. by econstructor.
  - by destruct H.
  - by destruct H.
Qed.

(** ** Shapes *)
#[global] Instance err_stmt_dec st : Decision (err_stmt st).
Proof. destruct st; (by left) || (by right). Defined.
#[global] Instance no_err_block_dec b : Decision (no_err_block b).
Proof. unfold no_err_block. apply _. Defined.
#[global] Instance no_err_top_dec t : Decision (no_err_top t).
Proof. destruct t; simpl; apply _. Defined.
Lemma bind_ok {A B} (m : M ps A) (k : A → M ps B) s b s' :
  (x <- m;; k x) s = (Rok b, s') → ∃ a s1, m s = (Rok a, s1) ∧ k a s1 = (Rok b, s').
Proof. unfold mthen. destruct (m s) as [[a|f| |] s1]; try done. eauto. Qed.
Ltac inv_ok H :=
  repeat match type of H with
  | (mthen _ _) _ = _ => let a := fresh "a" in let s := fresh "s" in let E := fresh "E" in
      apply bind_ok in H as (a & s & E & H)
  | mok _ _ = _ => unfold mok in H; simplify_eq
  | p_error _ = _ => discriminate H
  end.

Lemma stmt_kind f s st s' : parse_stmt f s = (Rok st, s') →
  ¬ err_stmt st ∧ (terminator st ↔ stmt_start (cur_kind s) = Some true).
Proof.
  unfold parse_stmt, parse_symbol_def, parse_store, parse_fun_call, parse_branch, parse_jump,
    parse_return. intros H.
  destruct (cur_kind s) as [|v|[]| |c|]; simpl; try discriminate H; inv_ok H; try done.
  - destruct a. inv_ok H. done.
  - unfold mget in *. simplify_eq. case_match; inv_ok H; done.
Qed.

Lemma block_stmt_kind f s st ex s' : inv (p_lex s) → mu s < f →
  block_stmt f s = (Rok (st, ex), s') →
  (st = SErr ∧ (perrs s < perrs s')%N) ∨ (st ≠ SErr ∧ (terminator st ↔ ex = true)).
Proof.
  intros Hi Hm. unfold block_stmt. destruct (stmt_start (cur_kind s)) as [e|] eqn:E; [|done].
  pose proof (fine_stmt f s Hi ltac:(by rewrite E; eauto) ltac:(lia)) as F.
  destruct (parse_stmt f s) as [[a|[]| |] s1] eqn:H; try done; intros G.
  - apply stmt_kind in H as [H1 H2]. simplify_eq. right. split; [done|]. rewrite H2, E. naive_solver.
  - inv_ok G. left. split; [done|]. destruct F as [_ _ F3 F4 _ F6 _ _]; simpl in *.
    pose proof (fine_recover f (λ k : tokkind, bool_decide (is_Some (stmt_start k))) block_break s1
      block_break_end F3 ltac:(lia)) as R.
    match goal with H : recover _ _ _ _ = _ |- _ => rewrite H in R end.
    destruct R as [_ _ _ _ R _ _ _]. simpl in R. specialize (F6 _ eq_refl). lia.
Qed.

Lemma block_loop_shape f g s sts s' : inv (p_lex s) → mu s < f → mu s < g →
  block_loop_ f g s = (Rok sts, s') →
  (∃ body fin, sts = body ++ [fin] ∧ Forall (λ st, ¬ terminator st) body ∧
    (terminator fin ∨ err_stmt fin)) ∧
  (Exists err_stmt sts → (perrs s < perrs s')%N).
Proof.
  revert s sts. induction f as [|f IH]; intros s sts Hi Hf Hg H; [done|]. simpl in H.
  destruct (fine_block_stmt g s Hi Hg) as [F Hlt].
  inv_ok H. rename a into p. destruct p as [st ex]. rewrite E in F.
  destruct F as [_ _ F3 F4 F5 _ _ _]. simpl in *.
  specialize (Hlt _ _ E). apply block_stmt_kind in E; [|done..].
  destruct ex.
  - inv_ok H. split.
    + exists [], st. split; [done|]. split; [constructor|]. unfold err_stmt. naive_solver.
    + intros He. apply Exists_cons in He as [He|He]; [|by apply Exists_nil in He].
      unfold err_stmt in He. naive_solver.
  - inv_ok H. pose proof (fine_block_loop f g s0 F3 ltac:(lia) ltac:(lia)) as G.
    rewrite E0 in G. destruct G as [_ _ _ _ G5 _ _ _]. simpl in G5.
    apply IH in E0 as [(body & fin & -> & Hb & Hfin) Herr]; [|done|lia..]. split.
    + exists (st :: body), fin. split; [done|]. split; [|done]. constructor; [|done].
      destruct E as [[-> _]|[_ ->]]; naive_solver.
    + intros He. apply Exists_cons in He as [He|He].
      * unfold err_stmt in He. destruct E as [[_ ?]|[? _]]; [lia|done].
      * specialize (Herr He). lia.
Qed.

(** The error counter and the trees. *)
Lemma parse_block_shape f s b s' : inv (p_lex s) → mu s < f →
  parse_block f s = (Rok b, s') → block_shape b ∧ (¬ no_err_block b → (perrs s < perrs s')%N).
Proof.
  intros Hi Hm H. unfold parse_block in H. inv_ok H.
  pose proof (fine_read_sym s Hi) as F. rewrite E in F.
  destruct F as [_ _ F3 F4 F5 _ _ _]; simpl in *.
  pose proof (fine_parse_opt_list f f (parse_param f) s0 (fine_param f) F3 ltac:(lia) ltac:(lia)) as G.
  rewrite E0 in G. destruct G as [_ _ G3 G4 G5 _ _ _]; simpl in *.
  pose proof (fine_expect ":" s1 G3) as K. rewrite E1 in K.
  destruct K as [_ _ K3 K4 K5 _ _ _]; simpl in *.
  apply block_loop_shape in E2 as [H1 H2]; [|done|lia..]. split; [done|].
  unfold no_err_block. simpl. intros Hn. apply not_Forall_Exists in Hn; [|apply _].
  assert (Hx : Exists err_stmt a2).
  { revert Hn. apply Exists_impl. intros st Hst. by apply dec_stable. }
  specialize (H2 Hx). lia.
Qed.

Lemma blocks_loop_shape f g s bs s' : inv (p_lex s) → mu s < f → mu s < g →
  blocks_loop f g s = (Rok bs, s') →
  Forall block_shape bs ∧ (¬ Forall no_err_block bs → (perrs s < perrs s')%N).
Proof.
  revert s bs. induction f as [|f IH]; intros s bs Hi Hf Hg H; [done|]. simpl in H.
  destruct (is_other "}" (cur_kind s)).
  { simplify_eq. split; [constructor|]. intros Hn. destruct Hn. constructor. }
  destruct (fine_block g s Hi Hg) as [F Hlt]. inv_ok H. rewrite E in F.
  destruct F as [_ _ F3 F4 F5 _ _ _]; simpl in *. specialize (Hlt _ _ E).
  pose proof (fine_blocks_loop f g s0 F3 ltac:(lia) ltac:(lia)) as G. rewrite E0 in G.
  destruct G as [_ _ _ _ G5 _ _ _]; simpl in *.
  apply parse_block_shape in E as [H1 H2]; [|done..].
  apply IH in E0 as [H3 H4]; [|done|lia..]. split; [by constructor|]. intros Hn.
  destruct (decide (no_err_block a)) as [Hb|Hb].
  - assert (¬ Forall no_err_block a0). { intros Hc. apply Hn. by constructor. }
    specialize (H4 ltac:(done)). lia.
  - specialize (H2 Hb). lia.
Qed.

Lemma parse_next_shape s t s' : inv (p_lex s) → parse_next s = (Rok t, s') →
  top_shape t ∧ (¬ no_err_top t → (perrs s < perrs s')%N).
Proof.
  intros Hi. unfold parse_next. pose proof (p_fuel_mu s) as Hm. set (f := p_fuel s) in *.
  clearbody f. unfold parse_next_f. destruct (top_start (cur_kind s)) eqn:E; [|done].
  pose proof (fine_top f s Hi Hm E) as F.
  destruct (parse_top f s) as [[a|[]| |] s1] eqn:H; try done.
  2: { intros G. inv_ok G. simpl. split; [done|]. intros _.
       destruct F as [_ _ F3 F4 _ F6 _ _]; simpl in *. specialize (F6 _ eq_refl).
       pose proof (fine_recover f top_start (λ _, false) s1
         ltac:(by intros k Hk _ ->) F3 ltac:(lia)) as R.
       match goal with H : recover _ _ _ _ = _ |- _ => rewrite H in R end.
       destruct R as [_ _ _ _ R _ _ _]. simpl in R. lia. }
  intros [= -> ->]. clear F. unfold parse_top in H.
  destruct (cur_kind s) as [|v|[]| |c|] eqn:K; try done.
  - unfold parse_global_def in H. inv_ok H. simpl. split; [done|]. tauto.
  - unfold parse_fun_def in H.
    pose proof (fine_next s Hi) as F0.
    apply bind_ok in H as (a0 & s0 & E0 & H). rewrite E0 in F0. destruct F0 as [_ _ F1 F2 F3 _ _ _]; simpl in *.
    pose proof (fine_read_sym s0 F1) as F0.
    apply bind_ok in H as (a1 & s1 & E1 & H). rewrite E1 in F0. destruct F0 as [_ _ G1 G2 G3 _ _ _]; simpl in *.
    pose proof (fine_parse_list f f _ s1 (fine_param f) G1 ltac:(lia) ltac:(lia)) as F0.
    apply bind_ok in H as (a2 & s2 & E2 & H). rewrite E2 in F0. destruct F0 as [_ _ I1 I2 I3 _ _ _]; simpl in *.
    pose proof (fine_opt_ret f _ s2 (fine_type f) I1 ltac:(lia)) as F0.
    apply bind_ok in H as (a3 & s3 & E3 & H). rewrite E3 in F0. destruct F0 as [_ _ J1 J2 J3 _ _ _]; simpl in *.
    pose proof (fine_expect "{" s3 J1) as F0.
    apply bind_ok in H as (a4 & s4 & E4 & H). rewrite E4 in F0. destruct F0 as [_ _ K1 K2 K3 _ _ _]; simpl in *.
    pose proof (fine_blocks_loop f f s4 K1 ltac:(lia) ltac:(lia)) as F0.
    apply bind_ok in H as (a5 & s5 & E5 & H). rewrite E5 in F0. destruct F0 as [_ _ L1 L2 L3 _ _ _]; simpl in *.
    pose proof (fine_next s5 L1) as F0.
    apply bind_ok in H as (a6 & s6 & E6 & H). rewrite E6 in F0. destruct F0 as [_ _ N1 N2 N3 _ _ _]; simpl in *.
    apply blocks_loop_shape in E5 as [H1 H2]; [|done|lia..].
    destruct a5 as [|b bs]; [done|]. inv_ok H. simpl. split; [done|].
    intros Hn. specialize (H2 Hn). lia.
  - unfold parse_fun_decl in H. inv_ok H. simpl. split; [done|]. tauto.
  - inv_ok H. simpl. split; [done|]. tauto.
Qed.

(** ** The whole text *)
Lemma parses_facts s ts s' : parses s ts s' → inv (p_lex s) →
  inv (p_lex s') ∧ (perrs s ≤ perrs s')%N ∧ Forall top_shape ts ∧
  (¬ Forall no_err_top ts → (perrs s < perrs s')%N).
Proof.
  induction 1 as [s s' H|s t s1 ts s' H Hne Hp IH]; intros Hi;
    destruct (fine_parse_next s Hi) as [F _]; rewrite H in F;
    destruct F as [_ _ F3 F4 F5 _ _ _]; simpl in *.
  - split_and!; [done|done|constructor|]. intros Hn. destruct Hn. constructor.
  - destruct (IH F3) as (I1 & I2 & I3 & I4). apply parse_next_shape in H as [H1 H2]; [|done].
    split_and!; [done|lia|by constructor|]. intros Hn.
    destruct (decide (no_err_top t)) as [Hb|Hb].
    + assert (¬ Forall no_err_top ts). { intros Hc. apply Hn. by constructor. }
      specialize (I4 ltac:(done)). lia.
    + specialize (H2 Hb). lia.
Qed.
