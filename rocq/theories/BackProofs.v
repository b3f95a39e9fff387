(** The parser on the pieces of a tree. *)
From Coq Require Import Lia ZifyBool ZifyNat ZifyN.
From Verif Require Import Base IrModel TypeModel LexerModel TextModel LexerSpec LexerProofs
  LexerFwdProofs LexerRunProofs ParserModel ParserSpec ParserProofs PrintSpec PieceProofs
  RoundProofs.

Definition hd_is (c : ascii) (l : list piece) : bool :=
  match l with [] => false | (_, k) :: _ => is_other c k end.
Definition reads {A} (m : M ps A) (p : list piece) (x : A) (ok : list piece → Prop) : Prop :=
  ∀ e tr s rest, ok rest → at_ps e tr s (p ++ rest) →
    ∃ s', m s = (Rok x, s') ∧ at_ps e tr s' rest.
Definition nocolon (l : list piece) : Prop := hd_is ":" l = false.

Lemma cur_hd e tr s l c : at_ps e tr s l → is_other c (cur_kind s) = hd_is c l.
Proof. intros H. rewrite (ap_cur _ _ _ _ H). by destruct l as [|[g k] l]. Qed.
Lemma next_at e tr s p l : at_ps e tr s (p :: l) →
  ∃ s', p_next s = (Rok tt, s') ∧ at_ps e tr s' l.
Proof. intros H. destruct (p_next_at _ _ _ _ _ H) as (s' & ? & ? & _). eauto. Qed.
Lemma bind_get {B} (k : ps → M ps B) s : (x <- mget;; k x) s = k s s.
Proof. done. Qed.

(** Steps through one read. *)
Ltac st_with lem H :=
  let s' := fresh "s'" in let E := fresh "E" in let H' := fresh "Hs" in
  destruct lem as (s' & E & H'); rewrite (bind_step _ _ _ _ _ E); clear E H; rename H' into H.
Ltac st H :=
  match type of H with
  | at_ps _ _ _ _ =>
      first
      [ match goal with |- context [mthen (expect _)] => st_with (expect_at _ _ _ _ _ _ H) H end
      | match goal with |- context [mthen read_sym] => st_with (read_sym_at _ _ _ _ _ _ H) H end
      | match goal with |- context [mthen read_int] => st_with (read_int_at _ _ _ _ _ _ H) H end
      | match goal with |- context [mthen read_op] => st_with (read_op_at _ _ _ _ _ _ H) H end
      | match goal with |- context [mthen p_next] => st_with (next_at _ _ _ _ _ H) H end ]
  end.
Ltac fin H := eexists; split; [reflexivity|exact H].
(** a sub-parse *)
Ltac sub R H :=
  let s' := fresh "s'" in let E := fresh "E" in let H' := fresh "Hs" in
  destruct (λ o, R _ _ _ _ o H) as (s' & E & H');
  [|rewrite (bind_step _ _ _ _ _ E); clear E H; rename H' into H].

Lemma list_loop_at {A} (item : M ps A) (p : string → A → list piece) l f :
  l ≠ [] → length l ≤ f → Forall (λ x, ∀ g, reads item (p g x) x nocolon) l →
  reads (list_loop f item) (seq p l) l (λ r, nocolon r ∧ hd_is "," r = false).
Proof.
  intros Hne Hf Hl. destruct Hl as [|x l Hx Hl]; [done|]. clear Hne.
  cut (∀ g0, reads (list_loop f item) (p g0 x ++
    concat (map (λ y, (""%string, oth ",") :: p " "%string y) l)) (x :: l)
    (λ r, nocolon r ∧ hd_is "," r = false)); [intros Hx'; apply Hx'|]. revert f x Hx Hf.
  induction Hl as [|y l Hy Hl IH]; intros f x Hx Hf g0 e tr s rest [Hn Hc] H;
    (destruct f as [|f]; [simpl in Hf; lia|]).
  - cbn [map concat] in H. rewrite app_nil_r in H. cbn [list_loop].
    sub (Hx g0) H; [done|]. rewrite bind_get, (cur_hd _ _ _ _ _ H), Hc. fin H.
  - cbn [map concat] in H. rewrite <- !app_assoc in H. simpl in H. cbn [list_loop].
    sub (Hx g0) H; [done|]. rewrite bind_get, (cur_hd _ _ _ _ _ H). simpl.
    st H. rewrite app_assoc in H.
    sub (IH f y Hy ltac:(simpl in *; lia) " "%string) H; [done|]. fin H.
Qed.

Lemma seq_length {A} (p : string → A → list piece) l :
  (∀ g x, p g x ≠ []) → length l ≤ length (seq p l).
Proof.
  intros Hp. destruct l as [|x l]; [done|]. simpl. rewrite app_length.
  assert (1 ≤ length (p ""%string x)) by (pose proof (Hp ""%string x); destruct (p ""%string x); simpl; [done|lia]).
  assert (length l ≤ length (concat (map (λ y, (""%string, oth ",") :: p " "%string y) l))); [|lia].
  induction l as [|y l IH]; simpl; [lia|]. rewrite app_length. lia.
Qed.
Lemma seq_elem {A} (p : string → A → list piece) l x :
  (∀ x, length (p ""%string x) = length (p " "%string x)) →
  x ∈ l → length (p ""%string x) ≤ length (seq p l).
Proof.
  intros Hp Hx. destruct l as [|y l]; [by apply elem_of_nil in Hx|]. simpl. rewrite app_length.
  apply elem_of_cons in Hx as [-> |Hx]; [lia|].
  assert (length (p ""%string x) ≤ length (concat (map (λ y, (""%string, oth ",") :: p " "%string y) l))); [|lia].
  induction l as [|z l IH]; simpl; [by apply elem_of_nil in Hx|]. rewrite app_length.
  apply elem_of_cons in Hx as [-> |Hx]; [rewrite Hp; lia|specialize (IH Hx); lia].
Qed.

Lemma paren_at {A} (item : M ps A) (p : string → A → list piece) l f :
  (∀ g x, p g x ≠ []) → (∀ g x, hd_is ")" (p g x) = false) →
  length l ≤ f → Forall (λ x, ∀ g, reads item (p g x) x nocolon) l →
  reads (parse_list f item) (p_paren p l) l (λ _, True).
Proof.
  intros Hp Hh Hf Hl e tr s rest _ H. unfold p_paren, parse_list in *. simpl in H.
  rewrite <- app_assoc in H. st H. rewrite bind_get, (cur_hd _ _ _ _ _ H).
  destruct l as [|x l].
  - simpl in *. unfold mthen at 1. simpl. st H. fin H.
  - assert (hd_is ")" (seq p (x :: l) ++ [(""%string, oth ")")] ++ rest) = false) as ->.
    { simpl. specialize (Hp ""%string x). specialize (Hh ""%string x).
      by destruct (p ""%string x) as [|[??]?]. }
    sub (list_loop_at item p (x :: l) f ltac:(done) Hf Hl) H; [done|]. simpl in H. st H. fin H.
Qed.
Lemma opt_at {A} (item : M ps A) (p : string → A → list piece) l f :
  (∀ g x, p g x ≠ []) → (∀ g x, hd_is ")" (p g x) = false) →
  length l ≤ f → Forall (λ x, ∀ g, reads item (p g x) x nocolon) l →
  reads (parse_opt_list f item) (p_opt p l) l (λ r, hd_is "(" r = false).
Proof.
  intros Hp Hh Hf Hl e tr s rest Hr H. unfold parse_opt_list. rewrite (cur_hd _ _ _ _ _ H).
  unfold p_opt in *. destruct l as [|x l].
  - simpl in H. simpl. rewrite Hr. fin H.
  - simpl hd_is. cbv iota. by eapply paren_at.
Qed.

(** ** Types *)
Lemma p_aty_ne g t : p_aty g t ≠ [].
Proof. by destruct t. Qed.
Lemma p_aty_hd g t : hd_is ")" (p_aty g t) = false.
Proof. by destruct t. Qed.
Lemma p_aty_len g g' t : length (p_aty g t) = length (p_aty g' t).
Proof. by destruct t. Qed.
Lemma usize_of_N n : (n < 2 ^ 63)%N → i64_as_usize (Z.of_N n) = n.
Proof. intros H. unfold i64_as_usize. rewrite Z.mod_small by lia. lia. Qed.

Lemma opt_ret_at (ty : M ps aty) r :
  (∀ t, r = Some t → ∀ g, reads ty (p_aty g t) t nocolon) →
  reads (opt_ret ty) (p_ret r) r nocolon.
Proof.
  intros Hr e tr s rest Hn H. unfold opt_ret. rewrite (cur_hd _ _ _ _ _ H).
  destruct r as [t|]; simpl in *.
  - st H. sub (Hr t eq_refl " "%string) H; [done|]. fin H.
  - rewrite Hn. fin H.
Qed.

Lemma type_at t : wf_aty t → ∀ g f, length (p_aty g t) < f →
  reads (parse_type f) (p_aty g t) t nocolon.
Proof.
  induction t as [|b n IH|b IH|ps r IHp IHr] using aty_ind'; intros Hwf;
    inversion Hwf as [|? ? W1 W2|? W1|? ? W1 W2]; subst; clear Hwf;
    intros g f Hf; (destruct f as [|f]; [lia|]); intros e tr s rest Hn H; cbn [p_aty parse_type] in *;
    rewrite (ap_cur _ _ _ _ H); cbn [app] in H |- *; cbv iota.
  - st H. fin H.
  - simpl. rewrite <- app_assoc in H. simpl in Hf. rewrite app_length in Hf. simpl in Hf.
    st H. sub (IH ltac:(done) ""%string f ltac:(lia)) H; [done|]. simpl in H.
    st H. st H. st H. rewrite usize_of_N by done. fin H.
  - simpl. simpl in Hf. st H. sub (IH ltac:(done) ""%string f ltac:(lia)) H; [done|]. fin H.
  - simpl. simpl in Hf. rewrite app_length in Hf. simpl in Hf.
    assert (Hpp : ∀ rest', (g, oth "(") :: (seq p_aty ps ++ (""%string, oth ")") ::
        match r with None => [] | Some r => (""%string, oth ":") :: p_aty " " r end) ++ rest' =
      ((g, oth "(") :: seq p_aty ps ++ [(""%string, oth ")")]) ++ p_ret r ++ rest').
    { intros rest'. simpl. rewrite <- !app_assoc. done. }
    rewrite Hpp in H. clear Hpp.
    assert (Hps : reads (parse_list f (parse_type f)) ((g, oth "(") :: seq p_aty ps ++ [(""%string, oth ")")]) ps (λ _, True)).
    { intros e' tr' s0 rest0 _ H0.
      assert (Hfl : Forall (λ x, ∀ g, reads (parse_type f) (p_aty g x) x nocolon) ps).
      { apply list.Forall_forall. intros x Hx g0. rewrite list.Forall_forall in IHp.
        apply IHp; [done| |].
        - rewrite list.Forall_forall in W1; by apply W1.
        - rewrite (p_aty_len _ ""%string). pose proof (seq_elem p_aty ps x (p_aty_len _ _) Hx). lia. }
      pose proof (seq_length p_aty ps p_aty_ne) as Hsl.
      unfold parse_list. simpl in H0. rewrite <- app_assoc in H0. st H0.
      rewrite bind_get, (cur_hd _ _ _ _ _ H0). destruct ps as [|x l].
      - simpl in *. unfold mthen at 1. simpl. st H0. fin H0.
      - assert (hd_is ")" (seq p_aty (x :: l) ++ [(""%string, oth ")")] ++ rest0) = false) as ->
          by (simpl; by destruct x).
        sub (list_loop_at (parse_type f) p_aty (x :: l) f ltac:(done) ltac:(lia) Hfl) H0; [done|].
        simpl in H0. st H0. fin H0. }
    sub Hps H; [done|].
    assert (Hro : reads (opt_ret (parse_type f)) (p_ret r) r nocolon).
    { apply opt_ret_at. intros t -> g0. apply IHr; [done|auto|]. simpl in Hf.
      rewrite (p_aty_len _ " "%string). lia. }
    sub Hro H; [done|]. fin H.
Qed.

(** ** Values and initializers *)
Lemma i32_of_i64 z : wf_int z → i64_as_i32 z = z.
Proof. unfold wf_int, i64_as_i32. intros H. rewrite Z.mod_small; lia. Qed.
Lemma value_at v g : wf_val v → reads parse_value [(g, k_val v)] v (λ _, True).
Proof.
  intros Hv e tr s rest _ H. unfold parse_value. rewrite (ap_cur _ _ _ _ H). simpl in H.
  destruct v; cbn [k_val wf_val app] in *; st H; [fin H| |fin H]. rewrite i32_of_i64 by done. fin H.
Qed.
Lemma p_init_ne g i : p_init g i ≠ [].
Proof. by destruct i. Qed.
Lemma p_init_len g g' i : length (p_init g i) = length (p_init g' i).
Proof. by destruct i. Qed.
Lemma reads_weak {A} (m : M ps A) p x (ok ok' : list piece → Prop) :
  reads m p x ok → (∀ r, ok' r → ok r) → reads m p x ok'.
Proof. intros H Ho e tr s rest Hr. by apply H, Ho. Qed.
Lemma init_at i : wf_init i → ∀ g f, length (p_init g i) < f →
  reads (parse_init f) (p_init g i) i (λ _, True).
Proof.
  induction i as [z| | |l IH] using ainit_ind'; intros Hwf;
    inversion Hwf as [? W1| | |? W1 W2]; subst; clear Hwf;
    intros g f Hf; (destruct f as [|f]; [lia|]); intros e tr s rest Hn H; cbn [p_init parse_init] in *;
    rewrite (ap_cur _ _ _ _ H); cbn [app] in H |- *; cbv iota.
  - st H. rewrite i32_of_i64 by done. fin H.
  - st H. fin H.
  - st H. fin H.
  - simpl. simpl in Hf. rewrite app_length in Hf. simpl in Hf. rewrite <- app_assoc in H.
    st H. pose proof (seq_length p_init l p_init_ne) as Hsl.
    assert (Hfl : Forall (λ x, ∀ g, reads (parse_init f) (p_init g x) x nocolon) l).
    { apply list.Forall_forall. intros x Hx g0. rewrite list.Forall_forall in IH.
      eapply reads_weak; [apply IH; [done| |]|done].
      - rewrite list.Forall_forall in W2; by apply W2.
      - rewrite (p_init_len _ ""%string). pose proof (seq_elem p_init l x (p_init_len _ _) Hx). lia. }
    unfold elems_loop.
    sub (list_loop_at (parse_init f) p_init l f ltac:(done) ltac:(lia) Hfl) H; [done|].
    simpl in H. st H. fin H.
Qed.
Lemma param_at p g f : wf_param p → length (p_param g p) < f →
  reads (parse_param f) (p_param g p) p nocolon.
Proof.
  intros [H1 H2] Hf e tr s rest Hn H. unfold p_param, parse_param in *. simpl in H, Hf.
  st H. st H. sub (type_at p.2 H2 " "%string f ltac:(lia)) H; [done|]. destruct p. fin H.
Qed.

(** ** Argument and parameter lists *)
Lemma args_ok l f : Forall wf_val l → length l ≤ f →
  reads (parse_list f parse_value) (p_paren p_val l) l (λ _, True).
Proof.
  intros Hl Hf. apply paren_at; try done; [by intros g []|].
  revert Hl. apply Forall_impl. intros x Hx g. eapply reads_weak; [by apply value_at|done].
Qed.
Lemma opt_args_ok l f : Forall wf_val l → length l ≤ f →
  reads (parse_opt_list f parse_value) (p_opt p_val l) l (λ r, hd_is "(" r = false).
Proof.
  intros Hl Hf. apply opt_at; try done; [by intros g []|].
  revert Hl. apply Forall_impl. intros x Hx g. eapply reads_weak; [by apply value_at|done].
Qed.
Lemma paren_len {A} (p : string → A → list piece) l :
  length (p_paren p l) = S (S (length (seq p l))).
Proof. unfold p_paren. simpl. rewrite app_length. simpl. lia. Qed.
Lemma opt_len {A} (p : string → A → list piece) l : length (seq p l) ≤ length (p_opt p l).
Proof. unfold p_opt. destruct l; [done|]. rewrite paren_len. lia. Qed.
Lemma vals_len l : length l ≤ length (p_opt p_val l).
Proof. etrans; [apply (seq_length p_val); by intros|apply opt_len]. Qed.
Lemma vals_len' l : length l ≤ length (p_paren p_val l).
Proof. rewrite paren_len. pose proof (seq_length p_val l). lia || (etrans; [apply H; by intros|lia]). Qed.
Lemma params_ok f l : Forall wf_param l → length (seq p_param l) < f →
  length l ≤ f ∧ Forall (λ x, ∀ g, reads (parse_param f) (p_param g x) x nocolon) l.
Proof.
  intros Hl Hf. split.
  - pose proof (seq_length p_param l ltac:(by intros)). lia.
  - apply list.Forall_forall. intros x Hx g. rewrite list.Forall_forall in Hl. apply param_at; [auto|].
    pose proof (seq_elem p_param l x ltac:(done) Hx) as Hy. unfold p_param in *. simpl in *. lia.
Qed.
Lemma types_ok f l : Forall wf_aty l → length (seq p_aty l) < f →
  length l ≤ f ∧ Forall (λ x, ∀ g, reads (parse_type f) (p_aty g x) x nocolon) l.
Proof.
  intros Hl Hf. split.
  - pose proof (seq_length p_aty l p_aty_ne). lia.
  - apply list.Forall_forall. intros x Hx g. rewrite list.Forall_forall in Hl. apply type_at; [auto|].
    pose proof (seq_elem p_aty l x (p_aty_len _ _) Hx) as Hy. rewrite (p_aty_len _ ""%string). lia.
Qed.

#[local] Opaque p_paren p_opt.

(** ** Expressions and statements *)
(** what follows a statement: on a new line *)
Definition newline (r : list piece) : Prop :=
  match r with
  | [] => False
  | (g, k) :: _ => no_nl g = false ∧ is_other "(" k = false ∧ is_other ":" k = false
  end.
Lemma newline_par r : newline r → hd_is "(" r = false.
Proof. destruct r as [|[g k] r]; [done|]. by intros (_ & ? & _). Qed.
Lemma newline_col r : newline r → nocolon r.
Proof. destruct r as [|[g k] r]; [done|]. by intros (_ & _ & ?). Qed.

Lemma expr_at ex f : wf_expr ex → length (p_expr ex) < f →
  reads (parse_expr f) (p_expr ex) ex newline.
Proof.
  intros Hw Hf e tr s rest Hn H. unfold parse_expr. rewrite (ap_cur _ _ _ _ H).
  destruct ex as [t|n|n v|n v|op l r|n args]; cbn [p_expr wf_expr] in *; cbn [app] in H |- *; cbv iota;
    simpl in Hf.
  - st H. sub (type_at t Hw " "%string f ltac:(lia)) H; [by apply newline_col|]. fin H.
  - st H. st H. fin H.
  - destruct Hw as [Hw1 Hw2]. unfold parse_gep. st H. st H. st H.
    sub (value_at v " "%string Hw2) H; [done|]. fin H.
  - destruct Hw as [Hw1 Hw2]. unfold parse_gep. st H. st H. st H.
    sub (value_at v " "%string Hw2) H; [done|]. fin H.
  - destruct Hw as [Hw1 Hw2]. st H. sub (value_at l " "%string Hw1) H; [done|]. st H.
    sub (value_at r " "%string Hw2) H; [done|]. fin H.
  - destruct Hw as [Hw1 Hw2]. pose proof (vals_len' args) as L1.
    assert (Hc : reads (parse_fun_call f) ((" "%string, kw KwCall) :: (" "%string, TkSymbol n) :: p_paren p_val args) (n, args) (λ _, True)).
    { intros e' tr' s0 rest0 _ H0. unfold parse_fun_call. simpl in H0. st H0. st H0.
      sub (args_ok args f Hw2 ltac:(lia)) H0; [done|]. fin H0. }
    sub Hc H; [done|]. fin H.
Qed.

Definition exits (st : astmt) : bool :=
  match st with SBr _ _ _ _ _ | SJump _ _ | SRet _ => true | _ => false end.
Lemma stmt_at st g f : wf_stmt st → length (p_stmt g st) < f →
  reads (block_stmt f) (p_stmt g st) (st, exits st) newline.
Proof.
  intros Hw Hf e tr s rest Hn H. unfold block_stmt.
  assert (Hk : stmt_start (cur_kind s) = Some (exits st)).
  { rewrite (ap_cur _ _ _ _ H). by destruct st as [n ex|[s0|i] d|n args|c t ta n fa|t a|[v|]|]. }
  rewrite Hk. cut (∃ s', parse_stmt f s = (Rok st, s') ∧ at_ps e tr s' rest).
  { intros (s' & E & H'). rewrite E. fin H'. }
  clear Hk. unfold parse_stmt. rewrite (ap_cur _ _ _ _ H).
  destruct st as [n ex|[s0|i] d|n args|c t ta n fa|t a|[v|]|]; cbn [p_stmt wf_stmt] in *;
    cbn [app] in H |- *; cbv iota; simpl in Hf; [..|done].
  - destruct Hw as [Hw1 Hw2]. unfold parse_symbol_def. st H. st H.
    sub (expr_at ex f Hw2 ltac:(lia)) H; [done|]. fin H.
  - destruct Hw as [Hw1 Hw2]. unfold parse_store. st H.
    assert (Hv : reads (parse_store_value f) [(" "%string, TkSymbol s0)] (SvSym s0) (λ _, True)).
    { intros e' tr' s1 rest0 _ H0. unfold parse_store_value. rewrite (ap_cur _ _ _ _ H0). simpl in H0.
      simpl. st H0. fin H0. }
    sub Hv H; [done|]. st H. st H. fin H.
  - destruct Hw as [Hw1 Hw2]. unfold parse_store. rewrite app_length in Hf. simpl in Hf.
    rewrite <- app_assoc in H. st H.
    assert (Hv : reads (parse_store_value f) (p_init " " i) (SvInit i) (λ _, True)).
    { intros e' tr' s1 rest0 _ H0. unfold parse_store_value. rewrite (ap_cur _ _ _ _ H0).
      destruct (init_at i Hw1 " "%string f ltac:(lia) e' tr' s1 rest0 I H0) as (s2 & E & H2).
      exists s2. split; [|done]. rewrite (bind_step _ _ _ _ _ E). by destruct i. }
    sub Hv H; [done|]. simpl in H. st H. st H. fin H.
  - destruct Hw as [Hw1 Hw2]. pose proof (vals_len' args) as L1.
    assert (Hc : reads (parse_fun_call f) ((g, kw KwCall) :: (" "%string, TkSymbol n) :: p_paren p_val args) (n, args) (λ _, True)).
    { intros e' tr' s1 rest0 _ H0. unfold parse_fun_call. simpl in H0. st H0. st H0.
      sub (args_ok args f Hw2 ltac:(lia)) H0; [done|]. fin H0. }
    sub Hc H; [done|]. fin H.
  - destruct Hw as (Hw1 & Hw2 & Hw3 & Hw4 & Hw5). pose proof (vals_len ta) as L1. pose proof (vals_len fa) as L2.
    rewrite app_length in Hf. simpl in Hf. rewrite <- app_assoc in H. simpl in H.
    unfold parse_branch. st H. sub (value_at c " "%string Hw1) H; [done|]. st H. st H.
    sub (opt_args_ok ta f Hw3 ltac:(lia)) H; [done|]. st H. st H.
    sub (opt_args_ok fa f Hw5 ltac:(lia)) H; [by apply newline_par|]. fin H.
  - destruct Hw as [Hw1 Hw2]. pose proof (vals_len a) as L1. unfold parse_jump. st H. st H.
    sub (opt_args_ok a f Hw2 ltac:(lia)) H; [by apply newline_par|]. fin H.
  - unfold parse_return. rewrite bind_get.
    destruct (p_next_at _ _ _ _ _ H) as (s' & E & H' & Hsl). rewrite (bind_step _ _ _ _ _ E).
    rewrite bind_get, (Hsl _ _ _ eq_refl). simpl.
    sub (value_at v " "%string (Hw v eq_refl)) H'; [done|]. fin H'.
  - unfold parse_return. rewrite bind_get.
    destruct (p_next_at _ _ _ _ _ H) as (s' & E & H' & Hsl). rewrite (bind_step _ _ _ _ _ E).
    destruct rest as [|[g' k'] rest]; [done|]. destruct Hn as [Hn _].
    rewrite bind_get, (Hsl _ _ _ eq_refl), Hn. fin H'.
Qed.

(** ** Blocks *)
Lemma p_stmt_newline st r : wf_stmt st → newline (p_stmt in_nl st ++ r).
Proof. by destruct st as [n ex|[s0|i] d|n args|c t ta n fa|t a|[v|]|]. Qed.
Lemma stmts_at body fin f g :
  Forall wf_stmt (body ++ [fin]) → Forall (λ st, ¬ terminator st) body → terminator fin →
  length (body ++ [fin]) ≤ f → Forall (λ st, length (p_stmt in_nl st) < g) (body ++ [fin]) →
  reads (block_loop_ f g) (concat (map (p_stmt in_nl) (body ++ [fin]))) (body ++ [fin]) newline.
Proof.
  revert f. induction body as [|st body IH]; intros f Hw Hb Ht Hf Hg e tr s rest Hn H;
    (destruct f as [|f]; [simpl in Hf; lia|]).
  - simpl in *. rewrite app_nil_r in H. apply list.Forall_cons in Hw as [Hw _].
    apply list.Forall_cons in Hg as [Hg _].
    sub (stmt_at fin in_nl g Hw Hg) H; [done|]. destruct fin; try done; fin H.
  - simpl in *. rewrite <- app_assoc in H. apply list.Forall_cons in Hw as [Hw Hw'].
    apply list.Forall_cons in Hg as [Hg Hg']. apply list.Forall_cons in Hb as [Hb Hb'].
    sub (stmt_at st in_nl g Hw Hg) H.
    { destruct body as [|st' body]; simpl in *; rewrite <- app_assoc; apply p_stmt_newline;
        by apply list.Forall_cons in Hw' as [? _]. }
    assert (exits st = false) as -> by (destruct st; simpl in *; done).
    sub (IH f Hw' Hb' Ht ltac:(lia) Hg') H; [done|]. fin H.
Qed.

Lemma concat_len {A B} (p : A → list B) l x : x ∈ l → length (p x) ≤ length (concat (map p l)).
Proof.
  induction l as [|y l IH]; [by intros ?%elem_of_nil|]. simpl. rewrite app_length.
  intros [-> |Hx]%elem_of_cons; [lia|specialize (IH Hx); lia].
Qed.
Lemma concat_len' {A B} (p : A → list B) l : Forall (λ x, p x ≠ []) l → length l ≤ length (concat (map p l)).
Proof.
  induction 1 as [|x l Hx Hl IH]; simpl; [lia|]. rewrite app_length.
  destruct (p x); [done|]. simpl. lia.
Qed.
Lemma block_at b g f : wf_block b → length (p_block g b) < f →
  reads (parse_block f) (p_block g b) b newline.
Proof.
  intros (Hw1 & Hw2 & Hw3 & body & fin & Heq & Hb & Ht) Hf e tr s rest Hn H.
  unfold p_block, parse_block in *. simpl in H, Hf. rewrite app_length in Hf. simpl in Hf.
  rewrite <- app_assoc in H. simpl in H. st H.
  pose proof (opt_len p_param (b_params b)) as Hol.
  destruct (params_ok f (b_params b) Hw2 ltac:(lia)) as [Hl Hp].
  sub (opt_at (parse_param f) p_param (b_params b) f ltac:(by intros) ltac:(by intros) Hl Hp) H; [done|].
  st H. rewrite Heq in Hw3, H, Hf.
  assert (terminator fin) as Ht'.
  { destruct Ht as [?| ->]; [done|]. apply list.Forall_app in Hw3 as [_ Hw3]. by inversion Hw3. }
  assert (Hne : Forall (λ st, p_stmt in_nl st ≠ []) (body ++ [fin])).
  { revert Hw3. apply Forall_impl. by intros [n ex|[s0|i] d|n args|c t ta n fa|t a|[v|]|]. }
  pose proof (concat_len' (p_stmt in_nl) _ Hne) as Hcl.
  assert (Hg : Forall (λ st, length (p_stmt in_nl st) < f) (body ++ [fin])).
  { apply list.Forall_forall. intros x Hx. pose proof (concat_len (p_stmt in_nl) _ _ Hx). lia. }
  sub (stmts_at body fin f f Hw3 Hb Ht' ltac:(lia) Hg) H; [done|].
  rewrite <- Heq. destruct b. fin H.
Qed.

Lemma blocks_at bbs g0 f g : Forall wf_block bbs →
  match bbs with [] => True | _ => g0 = nl ∨ g0 = (nl ++ nl)%string end →
  length bbs < f → Forall (λ b, length (p_block ""%string b) < g) bbs →
  reads (blocks_loop f g)
    (match bbs with [] => [] | b :: l' => p_block g0 b ++ concat (map (p_block (nl ++ nl)%string) l') end)
    bbs (λ r, ∃ r', r = (nl, oth "}") :: r').
Proof.
  revert g0 f. induction bbs as [|b bbs IH]; intros g0 f Hw Hg0 Hf Hg e tr s rest [r' ->] H;
    (destruct f as [|f]; [simpl in Hf; lia|]); cbn [blocks_loop]; rewrite (cur_hd _ _ _ _ _ H).
  - simpl in *. fin H.
  - apply list.Forall_cons in Hw as [Hw1 Hw2]. apply list.Forall_cons in Hg as [Hg1 Hg2].
    simpl hd_is. cbv iota. rewrite <- app_assoc in H. simpl in Hf.
    sub (block_at b g0 g Hw1 Hg1) H.
    { destruct bbs; simpl; done. }
    assert (Hm : concat (map (p_block (nl ++ nl)%string) bbs) = match bbs with [] => []
      | b :: l' => p_block (nl ++ nl)%string b ++ concat (map (p_block (nl ++ nl)%string) l') end)
      by by destruct bbs.
    rewrite Hm in H. clear Hm.
    sub (IH (nl ++ nl)%string f Hw2 ltac:(destruct bbs; [done|by right]) ltac:(lia) Hg2) H; [eauto|].
    fin H.
Qed.

(** ** Definitions and declarations *)
(** what follows a definition *)
Definition topstart (r : list piece) : Prop := hd_is ":" r = false ∧ hd_is "," r = false.

Lemma p_block_len g g' b : length (p_block g b) = length (p_block g' b).
Proof. done. Qed.
Lemma fun_def_at n pr r bbs g f : wf_func (TFunDef n pr r bbs) →
  length (p_top g (TFunDef n pr r bbs)) < f →
  reads (parse_fun_def f) (p_top g (TFunDef n pr r bbs)) (TFunDef n pr r bbs) (λ _, True).
Proof.
  intros (Hw1 & Hw2 & Hw3 & Hne & Hw4) Hf e tr s rest _ H. cbn [p_top] in *. unfold parse_fun_def.
  simpl in Hf. rewrite !app_length in Hf. simpl in Hf. rewrite app_length, paren_len in Hf. simpl in Hf.
  simpl in H. rewrite <- !app_assoc in H. simpl in H. rewrite <- !app_assoc in H.
  st H. st H. destruct (params_ok f pr Hw2 ltac:(lia)) as [Hl Hp].
  sub (paren_at (parse_param f) p_param pr f ltac:(by intros) ltac:(by intros) Hl Hp) H; [done|].
  assert (Hro : reads (opt_ret (parse_type f)) (p_ret r) r nocolon).
  { apply opt_ret_at. intros t -> g0. apply type_at; [auto|]. simpl in Hf.
    rewrite (p_aty_len _ " "%string). lia. }
  sub Hro H; [done|]. st H.
  assert (Hb : length bbs < f ∧ Forall (λ b, length (p_block ""%string b) < f) bbs).
  { destruct bbs as [|b bbs]; [done|]. unfold p_blocks in Hf. rewrite app_length in Hf.
    pose proof (concat_len' (p_block (nl ++ nl)%string) bbs) as Hc1.
    assert (Hx : Forall (λ x, p_block (nl ++ nl)%string x ≠ []) bbs) by by apply Forall_true.
    specialize (Hc1 Hx). split; [simpl length at 1; unfold p_block at 1 in Hf; simpl length in Hf; lia|].
    constructor; [change (length (p_block nl b) < f); lia|]. apply list.Forall_forall. intros x Hi.
    pose proof (concat_len (p_block (nl ++ nl)%string) bbs x Hi) as Hc2.
    change (length (p_block (nl ++ nl)%string x) < f). lia. }
  destruct Hb as [Hb1 Hb2].
  sub (blocks_at bbs nl f f Hw4 ltac:(by destruct bbs; [|left]) Hb1 Hb2) H; [simpl; eauto|].
  simpl in H. st H. destruct bbs; [done|]. fin H.
Qed.
Lemma fun_decl_at n pr r g f : wf_func (TFunDecl n pr r) →
  length (p_top g (TFunDecl n pr r)) < f →
  reads (parse_fun_decl f) (p_top g (TFunDecl n pr r)) (TFunDecl n pr r) nocolon.
Proof.
  intros (Hw1 & Hw2 & Hw3) Hf e tr s rest Hn H. cbn [p_top] in *. unfold parse_fun_decl.
  simpl in Hf. rewrite app_length, paren_len in Hf. simpl in H. rewrite <- app_assoc in H.
  st H. st H. destruct (types_ok f pr Hw2 ltac:(lia)) as [Hl Hp].
  sub (paren_at (parse_type f) p_aty pr f p_aty_ne p_aty_hd Hl Hp) H; [done|].
  assert (Hro : reads (opt_ret (parse_type f)) (p_ret r) r nocolon).
  { apply opt_ret_at. intros t -> g0. apply type_at; [auto|]. simpl in Hf.
    rewrite (p_aty_len _ " "%string). lia. }
  sub Hro H; [done|]. fin H.
Qed.
Lemma expect_alloc_at e tr s g l : at_ps e tr s ((g, kw KwAlloc) :: l) →
  ∃ s', expect_ is_alloc s = (Rok tt, s') ∧ at_ps e tr s' l.
Proof.
  intros H. destruct (next_at _ _ _ _ _ H) as (s' & H1 & H2). exists s'. split; [|done].
  unfold expect_. by rewrite (ap_cur _ _ _ _ H).
Qed.
Lemma global_at n t i g f : wf_global (TGlobal n t i) →
  length (p_top g (TGlobal n t i)) < f →
  reads (parse_global_def f) (p_top g (TGlobal n t i)) (TGlobal n t i) (λ _, True).
Proof.
  intros (Hw1 & Hw2 & Hw3) Hf e tr s rest _ H. cbn [p_top] in *. unfold parse_global_def.
  simpl in Hf. rewrite app_length in Hf. simpl in Hf. simpl in H. rewrite <- app_assoc in H.
  simpl in H. st H. st H. st H. st_with (expect_alloc_at _ _ _ _ _ H) H.
  sub (type_at t Hw2 " "%string f ltac:(lia)) H; [done|]. st H.
  sub (init_at i Hw3 " "%string f ltac:(lia)) H; [done|]. fin H.
Qed.
Lemma top_at t g f : wf_global t ∨ wf_func t → length (p_top g t) < f →
  reads (parse_next_f f) (p_top g t) t nocolon.
Proof.
  intros Hw Hf e tr s rest Hn H. unfold parse_next_f, parse_top. rewrite (ap_cur _ _ _ _ H).
  destruct t as [n t i|n pr r bbs|n pr r| |]; [..|by destruct Hw|by destruct Hw].
  - destruct Hw as [Hw|[]].
    destruct (global_at n t i g f Hw Hf e tr s rest I H) as (s' & E & H'). simpl. rewrite E. fin H'.
  - destruct Hw as [[]|Hw].
    destruct (fun_def_at n pr r bbs g f Hw Hf e tr s rest I H) as (s' & E & H'). simpl. rewrite E. fin H'.
  - destruct Hw as [[]|Hw].
    destruct (fun_decl_at n pr r g f Hw Hf e tr s rest Hn H) as (s' & E & H'). simpl. rewrite E. fin H'.
Qed.

(** ** Enough fuel *)
Lemma flat_len l : Forall (λ p : piece, okk p.2) l → length l ≤ length (flat l).
Proof.
  induction 1 as [|[g k] l Hk Hl IH]; [done|]. rewrite flat_cons, app_length. simpl.
  unfold piece_text. rewrite app_length. simpl. pose proof (token_nonempty _ _ (okk_text _ Hk)).
  cbn [snd] in H. destruct (chars (show_token k)); [done|]. simpl. lia.
Qed.
Lemma valid_okk b l : valid b l → Forall (λ p : piece, okk p.2) l.
Proof.
  revert b. induction l as [|[g k] l IH]; intros b; [constructor|]. intros (H1 & _ & _ & H4).
  constructor; [done|eauto].
Qed.
Lemma bytes_len rd : length (bytes_of rd) ≤ length rd.
Proof. induction rd as [|[]]; simpl; lia. Qed.
Lemma rem_len l : length (rem l) ≤ S (length (rd l)).
Proof. unfold rem. pose proof (bytes_len (rd l)). destruct (last l); simpl; lia. Qed.
Lemma fuel_at e tr s l : at_ps e tr s l → length l < p_fuel s.
Proof.
  intros [_ _ H]. unfold p_fuel. destruct l as [|p l]; [simpl; lia|].
  destruct (H ltac:(done)) as (_ & _ & _ & Hv & Hr & _). simpl in *.
  pose proof (flat_len _ (valid_okk _ _ Hv)). pose proof (rem_len (p_lex s)) as Hl.
  rewrite Hr, app_length in Hl. lia.
Qed.

(** ** Programs *)
Definition p_tops (g : string) (l : list atop) : list piece := concat (map (p_top g) l).
Lemma p_top_nocolon g t : wf_global t ∨ wf_func t → ∀ r, nocolon (p_top g t ++ r).
Proof. intros H r. destruct t; try done; by destruct H. Qed.

Inductive pieces_of : list atop → list piece → Prop :=
  | po_nil : pieces_of [] []
  | po_cons t ts g l : wf_global t ∨ wf_func t → pieces_of ts l → pieces_of (t :: ts) (p_top g t ++ l).
Lemma pieces_of_nocolon ts l : pieces_of ts l → nocolon l.
Proof. destruct 1; [done|]. by apply p_top_nocolon. Qed.
Lemma pieces_parse ts l e tr s : pieces_of ts l → at_ps e tr s l →
  ∃ s', parses s ts s' ∧ perrs s' = e.
Proof.
  intros Hp. revert s. induction Hp as [|t ts g l Hw Hp IH]; intros s H.
  - exists s. split; [|by apply H]. constructor. unfold parse_next, parse_next_f, parse_top.
    by rewrite (ap_cur _ _ _ _ H).
  - pose proof (fuel_at _ _ _ _ H) as Hf. rewrite app_length in Hf.
    destruct (top_at t g (p_fuel s) Hw ltac:(lia) e tr s l (pieces_of_nocolon _ _ Hp) H) as (s1 & E & H1).
    destruct (IH s1 H1) as (s' & Hs & He). exists s'. split; [|done].
    econstructor; [exact E| |done]. intros ->. by destruct Hw.
Qed.
Lemma pieces_app ts1 l1 ts2 l2 : pieces_of ts1 l1 → pieces_of ts2 l2 → pieces_of (ts1 ++ ts2) (l1 ++ l2).
Proof.
  induction 1 as [|t ts g l Hw Hp IH]; [done|]. intros H2. simpl. rewrite <- app_assoc.
  constructor; [done|auto].
Qed.

(** The pieces of a program and the text after the last one. *)
Definition p_globals (l : list atop) : list piece :=
  match l with [] => [] | t :: l' => p_top "" t ++ concat (map (p_top nl) l') end.
Definition p_funcs (g : string) (l : list atop) : list piece :=
  match l with [] => [] | t :: l' => p_top g t ++ concat (map (p_top (nl ++ nl)%string) l') end.
Definition p_program (gs fs : list atop) : list piece :=
  p_globals gs ++ p_funcs (match gs with [] => "" | _ => nl ++ nl end)%string fs.
Definition program_tail (gs fs : list atop) : list ascii :=
  match fs with
  | [] => match gs with [] => [] | _ => ["010"; "010"]%char end
  | _ => ["010"]%char
  end.

Lemma pieces_concat g l : Forall (λ t, wf_global t ∨ wf_func t) l →
  pieces_of l (concat (map (p_top g) l)).
Proof. induction 1; simpl; by constructor. Qed.
Lemma pieces_globals gs : Forall wf_global gs → pieces_of gs (p_globals gs).
Proof.
  destruct 1 as [|t gs Ht Hg]; constructor; [by left|]. apply pieces_concat.
  revert Hg. apply Forall_impl. by left.
Qed.
Lemma pieces_funcs g fs : Forall wf_func fs → pieces_of fs (p_funcs g fs).
Proof.
  destruct 1 as [|t gs Ht Hg]; constructor; [by right|]. apply pieces_concat.
  revert Hg. apply Forall_impl. by right.
Qed.

Lemma text_globals gs : Forall wf_global gs → gs ≠ [] →
  flat (p_globals gs) ++ chars nl = chars (cat (map text_top gs)).
Proof.
  intros H Hne. destruct H as [|t gs Ht Hg]; [done|]. clear Hne. unfold p_globals.
  cut (∀ g, flat (p_top g t ++ concat (map (p_top nl) gs)) ++ chars nl =
         chars g ++ chars (cat (map text_top (t :: gs)))); [intros Hx; apply Hx|].
  revert t Ht. induction Hg as [|t' gs Ht' Hg IH]; intros t Ht g.
  - cbn [map concat cat]. rewrite app_nil_r, flat_top by by left. by rewrite chars_app, app_nil_r.
  - cbn [map concat]. rewrite flat_app, <- app_assoc, (IH t' Ht' nl), app_assoc, flat_top by by left.
    change (cat (text_top t :: text_top t' :: map text_top gs)) with
      (text_top t ++ cat (map text_top (t' :: gs)))%string.
    by rewrite chars_app, <- app_assoc.
Qed.
Lemma text_funcs fs g : Forall wf_func fs → fs ≠ [] →
  flat (p_funcs g fs) ++ chars nl = chars g ++ chars (cat_nl (map text_top fs)).
Proof.
  intros H Hne. destruct H as [|t fs Ht Hf]; [done|]. symmetry. apply flat_cat_nl.
  - revert Hf. apply Forall_impl. intros x Hx g'. apply flat_top. by right.
  - intros g'. apply flat_top. by right.
Qed.
Lemma text_of_program gs fs : Forall wf_global gs → Forall wf_func fs →
  chars (text_program gs fs) = flat (p_program gs fs) ++ program_tail gs fs.
Proof.
  intros Hg Hf. unfold text_program, p_program, program_tail. rewrite !chars_app, flat_app.
  destruct gs as [|t gs].
  - simpl. destruct fs as [|f fs]; [done|]. symmetry. by apply text_funcs.
  - rewrite <- text_globals by done. destruct fs as [|f fs].
    + simpl. rewrite !app_nil_r, <- app_assoc. done.
    + rewrite <- !app_assoc. rewrite (text_funcs (f :: fs)) by done. rewrite chars_app. by rewrite <- !app_assoc.
Qed.
Lemma valid_globals gs : Forall wf_global gs → valid true (p_globals gs).
Proof.
  destruct 1 as [|t gs Ht Hg]; [done|]. unfold p_globals. apply valid_app.
  - apply valid_top; [by left|apply okgap_nil|by left].
  - apply valid_concat. revert Hg. apply Forall_impl. intros x Hx. apply valid_top; [by left|apply okgap_nl|by right].
Qed.
Lemma valid_program gs fs : Forall wf_global gs → Forall wf_func fs → valid true (p_program gs fs).
Proof.
  intros Hg Hf. unfold p_program.
  assert (Hfs : ∀ b g, okgap g → b = true ∨ g ≠ EmptyString → valid b (p_funcs g fs)).
  { intros b g Hog Hb. destruct Hf as [|t fs Ht Hf]; [done|]. unfold p_funcs. apply valid_app.
    - apply valid_top; [by right|done|done].
    - apply valid_concat. revert Hf. apply Forall_impl. intros x Hx.
      apply valid_top; [by right|apply okgap_nl2|by right]. }
  destruct gs as [|t gs]; [simpl; apply Hfs; [apply okgap_nil|by left]|].
  apply valid_app; [by apply valid_globals|]. apply Hfs; [apply okgap_nl2|by right].
Qed.

(** ** From the start *)
Lemma parser_start e tr l : valid true l → oktail tr →
  ∃ s l', parser_new (lex_new (RByte <$> (flat l ++ tr)) e) = (Rok s, l') ∧ at_ps e tr s l.
Proof.
  intros Hv Ht. unfold parser_new, p_next. cbn [p_lex].
  set (l0 := lex_new (RByte <$> (flat l ++ tr)) e).
  assert (Hr : rem l0 = " "%char :: flat l ++ tr).
  { unfold rem, l0. simpl. by rewrite bytes_of_RByte. }
  destruct l as [|[g k] l].
  - destruct (lex_end l0) as (l1 & -> & _ & He & Hn & Hi & _); [apply noerr_RByte|done| |].
    { rewrite Hr. simpl. constructor. apply sep_ws_list. constructor; [done|]. revert Ht.
      apply Forall_impl. by intros c [-> | ->]. }
    eexists _, _. split; [done|]. split; simpl; [done|done|done].
  - destruct Hv as (H1 & H2 & H3 & H4).
    destruct (lex_piece l0 (flat ((g, k) :: l) ++ tr) 0 (String " " g) k l tr)
      as (l2 & sp & -> & He2 & Hat & _); try done.
    { apply noerr_RByte. }
    { unfold l0. pose proof (lex_new_at (RByte <$> (flat ((g, k) :: l) ++ tr)) e) as Ha.
      by rewrite bytes_of_RByte in Ha. }
    { destruct H2 as [H2 H2']. split; [constructor; [by left|done]|done]. }
    eexists _, _. split; [done|]. destruct Hat as [A1 A2 A3]. split; [done|done|].
    intros _. exact (A3 ltac:(done)).
Qed.

Lemma oktail_program gs fs : oktail (program_tail gs fs).
Proof.
  unfold program_tail, oktail. destruct fs; [destruct gs|]; repeat constructor; by right.
Qed.

Lemma program_round_trip gs fs e : Forall wf_global gs → Forall wf_func fs →
  ∃ s l s', parser_new (lex_new (RByte <$> chars (text_program gs fs)) e) = (Rok s, l) ∧
    parses s (gs ++ fs) s' ∧ perrs s' = e.
Proof.
  intros Hg Hf. rewrite text_of_program by done.
  destruct (parser_start e (program_tail gs fs) (p_program gs fs)) as (s & l & Hs & Ha).
  { by apply valid_program. } { by apply oktail_program. }
  destruct (pieces_parse (gs ++ fs) (p_program gs fs) e (program_tail gs fs) s) as (s' & Hp & He);
    [|done|].
  { apply pieces_app; [by apply pieces_globals|by apply pieces_funcs]. }
  by exists s, l, s'.
Qed.

Lemma type_round_trip t tr e : wf_aty t → oktail tr →
  ∃ s l s', parser_new (lex_new (RByte <$> (chars (text_aty t) ++ tr)) e) = (Rok s, l) ∧
    parse_type (p_fuel s) s = (Rok t, s') ∧ cur_kind s' = TkEnd ∧ perrs s' = e.
Proof.
  intros Hw Ht. assert (Hf : chars (text_aty t) = flat (p_aty ""%string t)) by by rewrite flat_aty.
  rewrite Hf. destruct (parser_start e tr (p_aty ""%string t)) as (s & l & Hs & Ha); [|done|].
  { apply valid_aty; [done|apply okgap_nil|by left]. }
  pose proof (fuel_at _ _ _ _ Ha) as Hfu.
  destruct (type_at t Hw ""%string (p_fuel s) Hfu e tr s []) as (s' & E & H'); [done|by rewrite app_nil_r|].
  exists s, l, s'. split_and!; [done|done|by apply H'|by apply H'].
Qed.
