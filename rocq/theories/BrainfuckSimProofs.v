(** Code that looks like the code of the brainfuck example does what the program does. *)
From Coq Require Import Lia ZifyBool ZifyNat ZifyN Ascii.
From Verif Require Import Base IdModel TypeModel IrModel LayoutModel ArithModel InterpModel InterpSimProofs
  InterpFuelProofs BrainfuckSpec.

Lemma wrap_fits z : cell_fits z = true → cell_wrap z = z.
Proof. unfold cell_fits, cell_wrap. intros H. rewrite Z.mod_small by lia. lia. Qed.
Lemma arith_cell checks z : arith checks z = if checks && negb (cell_fits z) then None else Some (cell_wrap z).
Proof.
  unfold arith. replace (in_i32 z) with (cell_fits z).
  - destruct (cell_fits z) eqn:E; [rewrite wrap_fits by done; by destruct checks|]. by destruct checks.
  - unfold cell_fits, in_i32, i32_min, i32_max. change (-2 ^ 31)%Z with (-2147483648)%Z. change (2 ^ 31)%Z with 2147483648%Z. lia.
Qed.

Section sim.
Context {E : Type} (C : xconfig E) (K : console E) (p : program) (vars : gmap N xval) (fd : fdata).
Context (ptr : value) (putc getc : func).
(** Values and blocks of the function *)
Definition kd (v : value) (t : ty) (k : vkind) : Prop :=
  is_global_id v = false ∧ ∃ d, d_values (f_dfg fd) !! v = Some d ∧ v_ty d = t ∧ v_kind d = k.
Definition bl (b : bblock) (is : list value) : Prop :=
  find_bb b (l_bbs (f_layout fd)) = Some is ∧ ∃ bd, d_bbs (f_dfg fd) !! b = Some bd ∧ bb_params bd = [].
(** The instructions of a command *)
Definition moved (d : Z) (es : list value) : Prop := ∃ l i g s, es = [l; g; s] ∧
  kd l (TPtr TInt32) (KLoad ptr) ∧ kd i TInt32 (KInteger d) ∧ kd g (TPtr TInt32) (KGetPtr l i) ∧ kd s TUnit (KStore g ptr).
Definition changed (z : Z) (es : list value) : Prop := ∃ l d i a s, es = [l; d; a; s] ∧
  kd l (TPtr TInt32) (KLoad ptr) ∧ kd d TInt32 (KLoad l) ∧ kd i TInt32 (KInteger z) ∧ kd a TInt32 (KBinary Add d i) ∧
  kd s TUnit (KStore a l).
Definition emitted (c : cmd) (es : list value) : Prop :=
  match c with
  | CRight => moved 1 es
  | CLeft => moved (-1) es
  | CPlus => changed 1 es
  | CMinus => changed (-1) es
  | COut => ∃ l d c, es = [l; d; c] ∧ kd l (TPtr TInt32) (KLoad ptr) ∧ kd d TInt32 (KLoad l) ∧ kd c TInt32 (KCall putc [d])
  | CIn => ∃ c l s, es = [c; l; s] ∧ kd c TInt32 (KCall getc []) ∧ kd l (TPtr TInt32) (KLoad ptr) ∧ kd s TUnit (KStore c l)
  | CLoop _ => False
  end.
(** The condition of a loop *)
Definition tested (cond body last : bblock) : Prop := ∃ l d z c br r, bl cond (l :: d :: c :: br :: r) ∧
  kd l (TPtr TInt32) (KLoad ptr) ∧ kd d TInt32 (KLoad l) ∧ kd z TInt32 (KInteger 0) ∧ kd c TInt32 (KBinary NotEq d z) ∧
  kd br TUnit (KBranch c body last [] []).
Inductive code : list cmd → list value → list value → Prop :=
  | c_nil is : code [] is is
  | c_act c k cs es is is' : letter c k → emitted k es → code cs is is' → code (k :: cs) (es ++ is) is'
  | c_loop body cs j r cond bbb last isb j2 r2 is is' :
      kd j TUnit (KJump cond []) → tested cond bbb last → bl bbb isb → code body isb (j2 :: r2) →
      kd j2 TUnit (KJump cond []) → bl last is → code cs is is' → code (CLoop body :: cs) (j :: r) is'.

(** The program and the foreign functions *)
Record setting : Prop := {
  s_vars : ∀ v, is_global_id v = false → vars !! v = None;
  s_ptr : kd ptr (TPtr (TPtr TInt32)) KAlloc;
  s_put : ∃ f pd, c_ext C "putchar" = Some f ∧ (∀ z e, (f [wide z] e).1 = c_out K z e) ∧
    p_funcs p !! putc = Some pd ∧ f_name pd = "@putchar" ∧ f_ty pd = TFun [TInt32] TInt32 ∧ l_bbs (f_layout pd) = [];
  s_get : ∃ f gd, c_ext C "getchar" = Some f ∧ (∀ e, c_in K e = (cell_wrap (Z.of_N (f [] e).2), (f [] e).1)) ∧
    p_funcs p !! getc = Some gd ∧ f_name gd = "@getchar" ∧ f_ty gd = TFun [] TInt32 ∧ l_bbs (f_layout gd) = [];
}.
Context (HS : setting).
(** The tape in memory: the array [id] in the box [g], the head in the box [b] *)
Context (b g id size : N).
Record holds (t : tape E) (W : xworld E) (F : xframe) : Prop := {
  h_ptr : xf_vals F !! ptr = Some (XPtr (Some (Ptr b [])) 0 0);
  h_head : x_mem W !! b = Some (XPtr (Some (Ptr g [(id, N.to_nat (t_pos t))])) (t_pos t) size);
  h_tape : ∃ l, x_mem W !! g = Some (XArr id l) ∧ N.of_nat (length l) = size ∧
    ∀ j, (j < size)%N → l !! N.to_nat j = Some (XInt (t_cells t j));
  h_diff : b ≠ g;
  h_pos : (t_pos t < size)%N;
  h_io : x_extern W = t_io t;
}.
Implicit Types (W : xworld E) (F : xframe).

Lemma kd_fun v t k t' k' : kd v t k → kd v t' k' → t = t' ∧ k = k'.
Proof. intros (_ & d & H1 & <- & <-) (_ & d' & H2 & <- & <-). rewrite H1 in H2. by injection H2 as ->. Qed.
Lemma eval_var fuel F v t k x W : kd v t k → is_const k = false → xf_vals F !! v = Some x → (∀ n, xclone x n = (x, n)) →
  x_eval p vars fuel fd F v W = XOk (x, W).
Proof.
  intros (Hg & d & Hd & _ & Hk) Hc Hv Hcl. unfold x_eval, x_value. rewrite Hg, Hd. simpl. rewrite Hk, Hc.
  rewrite (s_vars HS _ Hg), Hv. simpl. rewrite Hcl. simpl. by destruct W.
Qed.
Lemma eval_int fuel F v t z W : kd v t (KInteger z) →
  x_eval p vars fuel fd F v W = match fuel with O => XDeep | S _ => XOk (XInt z, W) end.
Proof.
  intros (Hg & d & Hd & _ & Hk). unfold x_eval, x_value. rewrite Hg, Hd. simpl. rewrite Hk. simpl.
  destruct fuel; simpl; [done|]. rewrite Hd. simpl. rewrite Hk. simpl. by destruct W.
Qed.
Lemma insts_inst go fuel v t k is W F : kd v t k →
  match k with KBranch _ _ _ _ _ | KJump _ _ | KReturn _ => False | _ => True end →
  x_insts C p vars go fuel fd (v :: is) W F =
    ('(W1, F1) ← (match k with
      | KLoad src => x_load p vars fuel fd v src W F
      | KStore x dest => x_store p vars fuel fd x dest W F
      | KGetPtr src i => x_getptr C p vars fuel fd v (VData t None k ∅) src i W F
      | KBinary op l r => x_binary C p vars fuel fd v op l r W F
      | KCall f args => x_call C p vars go fuel fd v f args W F
      | KAlloc => x_alloc v (VData t None k ∅) W F
      | KGetElemPtr src i => x_getelemptr C p vars fuel fd v (VData t None k ∅) src i W F
      | _ => XPanic
      end); x_insts C p vars go fuel fd is W1 F1).
Proof.
  intros (Hg & d & Hd & Ht & Hk) Hn. simpl. rewrite Hd. simpl. rewrite Hk. unfold x_inst. rewrite Hk.
  unfold x_alloc, x_getptr, x_getelemptr. simpl. rewrite Ht. by destruct k.
Qed.
(** Some instructions are executed; without fuel for constants, perhaps not. *)
Definition steps (is : list value) W F (is' : list value) W' F' : Prop := ∀ go k,
  (k = O ∧ x_insts C p vars go k fd is W F = XDeep) ∨ x_insts C p vars go k fd is W F = x_insts C p vars go k fd is' W' F'.
Definition fails (r : xres (xval * xworld E * xframe)) (is : list value) W F : Prop := ∀ go k,
  (k = O ∧ x_insts C p vars go k fd is W F = XDeep) ∨ x_insts C p vars go k fd is W F = r.
Lemma steps_trans is W F is1 W1 F1 is2 W2 F2 : steps is W F is1 W1 F1 → steps is1 W1 F1 is2 W2 F2 → steps is W F is2 W2 F2.
Proof. intros H1 H2 go k. destruct (H1 go k) as [?|H3]; [by left|]. rewrite H3. apply H2. Qed.
Lemma steps_fails r is W F is1 W1 F1 : steps is W F is1 W1 F1 → fails r is1 W1 F1 → fails r is W F.
Proof. intros H1 H2 go k. destruct (H1 go k) as [?|H3]; [by left|]. rewrite H3. apply H2. Qed.
Lemma kd_ne v w t k t' k' : kd v t k → kd w t' k' → k ≠ k' → v ≠ w.
Proof. intros Hv Hw Hk ->. by destruct (kd_fun _ _ _ _ _ Hv Hw). Qed.
Lemma holds_insert t W F v x : holds t W F → v ≠ ptr → holds t W (x_insert v x F).
Proof. intros [H1 H2 H3 H4 H5 H6] Hv. constructor; try done. simpl. by rewrite lookup_insert_ne. Qed.
Lemma not_ptr v t k : kd v t k → k ≠ KAlloc → v ≠ ptr.
Proof. intros H Hk. eapply kd_ne; [exact H|apply (s_ptr HS)|done]. Qed.
(** Loading the head *)
Notation head t := (XPtr (Some (Ptr g [(id, N.to_nat (t_pos t))])) (t_pos t) size).
Lemma load_head l is t W F : holds t W F → kd l (TPtr TInt32) (KLoad ptr) →
  ∃ F', steps (l :: is) W F is W F' ∧ holds t W F' ∧ xf_vals F' !! l = Some (head t) ∧
    ∀ v x, v ≠ l → xf_vals F !! v = Some x → xf_vals F' !! v = Some x.
Proof.
  intros H Hl. exists (x_insert l (head t) F). split_and!.
  - intros go k. right. rewrite (insts_inst _ _ _ _ _ _ _ _ Hl) by done. unfold x_load.
    rewrite (eval_var _ _ _ _ _ _ _ (s_ptr HS) eq_refl (h_ptr _ _ _ H)) by done. simpl.
    unfold x_read. simpl. rewrite (h_head _ _ _ H). simpl. by destruct W.
  - apply holds_insert; [done|]. by eapply not_ptr.
  - simpl. by rewrite lookup_insert.
  - intros v x Hv. simpl. by rewrite lookup_insert_ne.
Qed.
(** Reading the cell *)
Lemma load_cell l d is t W F : holds t W F → xf_vals F !! l = Some (head t) → kd l (TPtr TInt32) (KLoad ptr) →
  kd d TInt32 (KLoad l) →
  ∃ F', steps (d :: is) W F is W F' ∧ holds t W F' ∧ xf_vals F' !! l = Some (head t) ∧ xf_vals F' !! d = Some (XInt (cell t)).
Proof.
  intros H Hv Hl Hd. assert (d ≠ l) as Hne.
  { eapply kd_ne; [exact Hd|exact Hl|]. intros [= ->]. by destruct (kd_fun _ _ _ _ _ (s_ptr HS) Hl). }
  exists (x_insert d (XInt (cell t)) F). split_and!.
  - intros go k. right. rewrite (insts_inst _ _ _ _ _ _ _ _ Hd) by done. unfold x_load.
    rewrite (eval_var _ _ _ _ _ _ _ Hl eq_refl Hv) by done. simpl. unfold x_read. simpl.
    destruct (h_tape _ _ _ H) as (ls & -> & Hs & Hc). simpl. rewrite N.eqb_refl, (Hc _ (h_pos _ _ _ H)). simpl. by destruct W.
  - apply holds_insert; [done|]. by eapply not_ptr.
  - simpl. by rewrite lookup_insert_ne.
  - simpl. by rewrite lookup_insert.
Qed.
(** The head, and the cell *)
Lemma load_both l d is t W F : holds t W F → kd l (TPtr TInt32) (KLoad ptr) → kd d TInt32 (KLoad l) →
  ∃ F', steps (l :: d :: is) W F is W F' ∧ holds t W F' ∧ xf_vals F' !! l = Some (head t) ∧ xf_vals F' !! d = Some (XInt (cell t)).
Proof.
  intros H Hl Hd. destruct (load_head l (d :: is) t W F H Hl) as (F1 & S1 & H1 & V1 & _).
  destruct (load_cell l d is t W F1 H1 V1 Hl Hd) as (F2 & S2 & H2). exists F2. split; [by eapply steps_trans|done].
Qed.
(** Writing the cell *)
Lemma store_cell l v s is t W F z tv kv : holds t W F → xf_vals F !! l = Some (head t) → kd l (TPtr TInt32) (KLoad ptr) →
  xf_vals F !! v = Some (XInt z) → kd v tv kv → is_const kv = false → kd s TUnit (KStore v l) →
  ∃ W', steps (s :: is) W F is W' F ∧ holds (write z t) W' F.
Proof.
  intros H Hv Hl Hz Hkv Hc Hs. destruct (h_tape _ _ _ H) as (ls & E1 & E2 & E3).
  exists (XWorld (<[g := XArr id (<[N.to_nat (t_pos t) := XInt z]> ls)]> (x_mem W)) (x_next W) (x_extern W)). split.
  - intros go k. right. rewrite (insts_inst _ _ _ _ _ _ _ _ Hs) by done. unfold x_store.
    rewrite (eval_var _ _ _ _ _ _ _ Hkv Hc Hz) by done. simpl.
    rewrite (eval_var _ _ _ _ _ _ _ Hl eq_refl Hv) by done. simpl. unfold x_write. simpl.
    rewrite E1. simpl. rewrite N.eqb_refl, (E3 _ (h_pos _ _ _ H)). done.
  - destruct H as [H1 H2 H3 H4 H5 H6]. constructor; try done; simpl.
    + by rewrite lookup_insert_ne.
    + eexists. split; [by rewrite lookup_insert|]. split; [by rewrite insert_length|]. intros j Hj.
      destruct (N.eqb_spec j (t_pos t)) as [->|Hne].
      * rewrite list_lookup_insert; [done|]. lia.
      * rewrite list_lookup_insert_ne by lia. by apply E3.
Qed.

(** A command *)
Definition after (o : outcome E) (is0 : list value) W0 F0 (is : list value) : Prop :=
  match o with
  | Done t => ∃ W F, holds t W F ∧ steps is0 W0 F0 is W F
  | OffTape => fails XErr is0 W0 F0
  | Overflow => fails XPanic is0 W0 F0
  end.
Lemma moved_ok d es is t W F : moved d es → holds t W F → after (move size d t) (es ++ is) W F is.
Proof.
  intros (l & i & gp & s & -> & Hl & Hi & Hg & Hs) H. simpl app.
  destruct (load_head l (gp :: s :: is) t W F H Hl) as (F1 & S1 & H1 & Hv & _).
  assert (Hd : ∀ go k, (k = O ∧ x_insts C p vars go k fd (gp :: s :: is) W F1 = XDeep) ∨
    x_insts C p vars go k fd (gp :: s :: is) W F1 =
      (x ← x_get_pointer (head t) d (TypeModel.size (c_ptr_size C) TInt32); x_insts C p vars go k fd (s :: is) W (x_insert gp x F1))).
  { intros go k. rewrite (insts_inst _ _ _ _ _ _ _ _ Hg) by done. unfold x_getptr. rewrite (eval_int _ _ _ _ _ _ Hi).
    destruct k as [|k]; [by left|right]. cbn [mbind xres_bind]. unfold x_base_size. cbn [v_ty mbind xres_bind].
    rewrite (eval_var _ _ _ _ _ _ _ Hl eq_refl Hv) by done. cbn [mbind xres_bind]. by destruct (x_get_pointer _ _ _). }
  unfold x_get_pointer in Hd. simpl pt_path in Hd. simpl pt_box in Hd. cbn [shift_path] in Hd.
  unfold move. set (q := (Z.of_N (t_pos t) + d)%Z) in *. destruct ((0 <=? q) && (q <? Z.of_N size))%Z eqn:Eq.
  2: { simpl. eapply steps_fails; [exact S1|]. exact Hd. }
  assert (Hq : (0 <=? Z.of_nat (N.to_nat (t_pos t)) + d)%Z = true) by lia. rewrite Hq in Hd. cbn [xmem mbind xres_bind] in Hd.
  set (hd := XPtr _ _ _) in Hd.
  assert (H2 : holds t W (x_insert gp hd F1)) by (apply holds_insert; [done|]; by eapply not_ptr).
  exists (XWorld (<[b := hd]> (x_mem W)) (x_next W) (x_extern W)), (x_insert gp hd F1). split.
  - destruct H2 as [A1 A2 A3 A4 A5 A6]. constructor; try done; simpl.
    + rewrite lookup_insert. unfold hd. repeat f_equal. lia.
    + destruct A3 as (ls & E1 & E2). exists ls. split; [by rewrite lookup_insert_ne by done|done].
    + lia.
  - eapply steps_trans; [exact S1|]. eapply steps_trans; [exact Hd|]. intros go k. right.
    rewrite (insts_inst _ _ _ _ _ _ _ _ Hs) by done. unfold x_store.
    rewrite (eval_var _ _ _ _ _ hd _ Hg eq_refl) by (try done; simpl; by rewrite lookup_insert). cbn [mbind xres_bind].
    rewrite (eval_var _ _ _ _ _ _ _ (s_ptr HS) eq_refl (h_ptr _ _ _ H2)) by done. cbn [mbind xres_bind]. unfold x_write. simpl pt_path. simpl pt_box.
    rewrite (h_head _ _ _ H2). done.
Qed.
Lemma changed_ok z es is t W F : changed z es → holds t W F → after (change (c_checks C) z t) (es ++ is) W F is.
Proof.
  intros (l & d & i & a & s & -> & Hl & Hd & Hi & Ha & Hs) H. simpl app.
  destruct (load_both l d (a :: s :: is) t W F H Hl Hd) as (F2 & S2 & H2 & Hv & Hc).
  assert (Hb : ∀ go k, (k = O ∧ x_insts C p vars go k fd (a :: s :: is) W F2 = XDeep) ∨
    x_insts C p vars go k fd (a :: s :: is) W F2 =
      (c ← xneed (arith (c_checks C) (cell t + z)); x_insts C p vars go k fd (s :: is) W (x_insert a (XInt c) F2))).
  { intros go k. rewrite (insts_inst _ _ _ _ _ _ _ _ Ha) by done. unfold x_binary.
    rewrite (eval_var _ _ _ _ _ _ _ Hd eq_refl Hc) by done. cbn [mbind xres_bind]. rewrite (eval_int _ _ _ _ _ _ Hi).
    destruct k as [|k]; [by left|right]. cbn [mbind xres_bind exec_op]. by destruct (arith _ _). }
  rewrite arith_cell in Hb. unfold change.
  destruct (c_checks C && negb (cell_fits (cell t + z))).
  { simpl. eapply steps_fails; [exact S2|]. exact Hb. }
  cbn [xneed mbind xres_bind] in Hb.
  assert (a ≠ l) as Hne by (by eapply kd_ne; [exact Ha|exact Hl|]).
  destruct (store_cell l a s is t W (x_insert a (XInt (cell_wrap (cell t + z))) F2) (cell_wrap (cell t + z)) TInt32 (KBinary Add d i)) as (W' & S3 & H'); try done.
  - apply holds_insert; [done|]. by eapply not_ptr.
  - simpl. by rewrite lookup_insert_ne.
  - simpl. by rewrite lookup_insert.
  - eexists _, _. split; [exact H'|]. eapply steps_trans; [exact S2|]. eapply steps_trans; [exact Hb|]. exact S3.
Qed.
Lemma out_ok es is t W F : emitted COut es → holds t W F → after (act (c_checks C) size K COut t) (es ++ is) W F is.
Proof.
  intros (l & d & c & -> & Hl & Hd & Hk) H. simpl app.
  destruct (load_both l d (c :: is) t W F H Hl Hd) as (F2 & S2 & H2 & Hv & Hc).
  destruct (s_put HS) as (f & pd & E1 & E2 & E3 & E4 & E5 & E6). specialize (E2 (cell t) (x_extern W)).
  destruct (f [wide (cell t)] (x_extern W)) as [e w] eqn:Ef. simpl in E2.
  exists (XWorld (x_mem W) (x_next W) e), (x_insert c (XInt (as_i32 (Z.of_N w))) F2). split.
  - apply holds_insert; [|by eapply not_ptr]. destruct H2 as [A1 A2 A3 A4 A5 A6]. constructor; try done. simpl. by rewrite E2, A6.
  - eapply steps_trans; [exact S2|]. intros go k. right.
    rewrite (insts_inst _ _ _ _ _ _ _ _ Hk) by done. unfold x_call, x_evals. cbn [x_each].
    pose proof (eval_var k F2 d _ _ _ W Hd eq_refl Hc (λ n, eq_refl)) as He. unfold x_eval in He.
    apply xbind_ok in He as ([x n] & -> & He). injection He as -> Hn. cbn [mbind xres_bind].
    rewrite E3. cbn [xneed mbind xres_bind].
    unfold x_func. rewrite E5, E6. cbn [length Nat.eqb negb]. unfold x_extern_call. rewrite E4, E5. simpl existsb.
    change (c_ext C _) with (c_ext C "putchar"). rewrite E1. cbn [length Nat.ltb Nat.leb x_words x_word mbind xres_bind].
    fold (wide (cell t)). simpl x_extern. rewrite Ef. cbn -[as_i32]. rewrite <- Hn. done.
Qed.
Lemma in_ok es is t W F : emitted CIn es → holds t W F → after (act (c_checks C) size K CIn t) (es ++ is) W F is.
Proof.
  intros (c & l & s & -> & Hk & Hl & Hs) H. simpl app.
  destruct (s_get HS) as (f & pd & E1 & E2 & E3 & E4 & E5 & E6). specialize (E2 (x_extern W)).
  destruct (f [] (x_extern W)) as [e w] eqn:Ef. simpl in E2.
  set (F1 := x_insert c (XInt (as_i32 (Z.of_N w))) F). set (W1 := XWorld (x_mem W) (x_next W) e).
  set (t1 := Tape (t_cells t) (t_pos t) e).
  assert (S1 : steps (c :: l :: s :: is) W F (l :: s :: is) W1 F1).
  { intros go k. right.
    rewrite (insts_inst _ _ _ _ _ _ _ _ Hk) by done. unfold x_call, x_evals. cbn [x_each mbind xres_bind].
    rewrite E3. cbn [xneed mbind xres_bind].
    unfold x_func. rewrite E5, E6. cbn [length Nat.eqb negb]. unfold x_extern_call. rewrite E4, E5. simpl existsb.
    change (c_ext C _) with (c_ext C "getchar"). rewrite E1. cbn [length Nat.ltb Nat.leb x_words x_word mbind xres_bind].
    simpl x_extern. rewrite Ef. done. }
  assert (H1 : holds t1 W1 F1).
  { unfold F1. apply holds_insert; [|by eapply not_ptr]. destruct H as [A1 A2 A3 A4 A5 A6]. constructor; done. }
  assert (Hc : xf_vals F1 !! c = Some (XInt (cell_wrap (Z.of_N w)))) by (unfold F1; simpl; by rewrite lookup_insert).
  destruct (load_head l (s :: is) t1 W1 F1 H1 Hl) as (F2 & S2 & H2 & Hv & Hold).
  unfold act. rewrite <- (h_io _ _ _ H), E2.
  assert (c ≠ l) as Hne by (by eapply kd_ne; [exact Hk|exact Hl|]).
  destruct (store_cell l c s is t1 W1 F2 (cell_wrap (Z.of_N w)) TInt32 (KCall getc [])) as (W' & S3 & H'); try done.
  - by apply Hold.
  - eexists _, _. split; [exact H'|]. eapply steps_trans; [exact S1|]. eapply steps_trans; [exact S2|]. exact S3.
Qed.
Lemma act_ok c k es is t W F : letter c k → emitted k es → holds t W F → after (act (c_checks C) size K k t) (es ++ is) W F is.
Proof.
  intros Hc He H. destruct Hc.
  - by apply moved_ok.
  - by apply moved_ok.
  - by apply changed_ok.
  - by apply changed_ok.
  - by apply out_ok.
  - by apply in_ok.
Qed.
(** Jumps *)
Lemma goto_ok go fuel bb is W F : bl bb is → x_goto p vars go fuel fd bb [] W F = go fd is W F.
Proof. intros (Hf & bd & Hb & Hp). unfold x_goto. rewrite Hb. simpl. rewrite Hp. simpl. by rewrite Hf. Qed.
Lemma jump_ok go fuel j t bb r is W F : kd j t (KJump bb []) → bl bb is → x_insts C p vars go fuel fd (j :: r) W F = go fd is W F.
Proof. intros (Hg & d & Hd & _ & Hk) Hb. simpl. rewrite Hd. simpl. rewrite Hk. by apply goto_ok. Qed.
(** From the jump to the condition of a loop to where it leads *)
Notation at_ k is W F := (x_insts C p vars (x_bb C p vars k) k fd is W F).
Lemma loop_step cond body last isb isl j ty r t W F : kd j ty (KJump cond []) → tested cond body last → bl body isb → bl last isl → holds t W F →
  ∃ W' F', holds t W' F' ∧ (∀ k, at_ (S (S k)) (j :: r) W F = at_ k (if (cell t =? 0)%Z then isl else isb) W' F') ∧
    at_ 0 (j :: r) W F = XDeep ∧ at_ 1 (j :: r) W F = XDeep.
Proof.
  intros Hj (l & d & z & c & br & r' & Hcb & Hl & Hd & Hz & Hc & Hbr) Hbo Hla H.
  destruct (load_both l d (c :: br :: r') t W F H Hl Hd) as (F2 & S2 & H2 & Hv & Hcl).
  set (F3 := x_insert c (XInt (bool_i32 (negb (cell t =? 0)%Z))) F2).
  assert (S3 : steps (c :: br :: r') W F2 (br :: r') W F3).
  { intros go k. rewrite (insts_inst _ _ _ _ _ _ _ _ Hc) by done. unfold x_binary. rewrite (eval_var _ _ _ _ _ _ _ Hd eq_refl Hcl) by done.
    cbn [mbind xres_bind]. rewrite (eval_int _ _ _ _ _ _ Hz). destruct k as [|k]; [by left|by right]. }
  pose proof (steps_trans _ _ _ _ _ _ _ _ _ S2 S3) as ST. exists W, F3. split.
  { apply holds_insert; [done|]. by eapply not_ptr. }
  assert (Hx : ∀ k, at_ (S k) (j :: r) W F = at_ k (l :: d :: c :: br :: r') W F).
  { intros k. by rewrite (jump_ok _ _ _ _ _ _ _ _ _ Hj Hcb). }
  assert (Hbk : ∀ go k, x_insts C p vars go k fd (br :: r') W F3 = go fd (if (cell t =? 0)%Z then isl else isb) W F3).
  { intros go k. destruct Hbr as (Hg & bd & Hbd & _ & Hk). cbn [x_insts]. rewrite Hbd. cbn [xneed mbind xres_bind]. rewrite Hk.
    rewrite (eval_var _ _ _ _ _ (XInt (bool_i32 (negb (cell t =? 0)%Z))) _ Hc eq_refl) by (try done; unfold F3; simpl; by rewrite lookup_insert).
    cbn [mbind xres_bind x_bool]. destruct (cell t =? 0)%Z; cbn; by apply goto_ok. }
  split_and!.
  - intros k. rewrite Hx. destruct (ST (x_bb C p vars (S k)) (S k)) as [[? _]| -> ]; [done|]. by rewrite Hbk.
  - by rewrite (jump_ok _ _ _ _ _ _ _ _ _ Hj Hcb).
  - rewrite Hx. destruct (ST (x_bb C p vars 0) 0) as [[_ ->]| -> ]; [done|]. by rewrite Hbk.
Qed.

(** ** Runs *)
Definition ends_as (o : outcome E) (is is' : list value) W F : Prop :=
  match o with
  | Done t => ∃ m W' F', holds t W' F' ∧ ∀ k, at_ (m + S k) is W F = at_ (S k) is' W' F'
  | OffTape => ∃ m, ∀ k, at_ (m + S k) is W F = XErr
  | Overflow => ∃ m, ∀ k, at_ (m + S k) is W F = XPanic
  end.
Lemma ends_before m o is0 is is' W0 F0 W F : (∀ k, at_ (m + S k) is0 W0 F0 = at_ (S k) is W F) →
  ends_as o is is' W F → ends_as o is0 is' W0 F0.
Proof.
  intros H Hr.
  assert (Hm : ∀ n k, at_ (m + n + S k) is0 W0 F0 = at_ (n + S k) is W F).
  { intros n k. replace (m + n + S k) with (m + S (n + k)) by lia. rewrite H. by replace (S (n + k)) with (n + S k) by lia. }
  destruct o as [t| |]; simpl in *.
  - destruct Hr as (n & W' & F' & H1 & H2). exists (m + n), W', F'. split; [done|]. intros k. by rewrite Hm.
  - destruct Hr as (n & H2). exists (m + n). intros k. by rewrite Hm.
  - destruct Hr as (n & H2). exists (m + n). intros k. by rewrite Hm.
Qed.
Lemma after_stop o is0 W F is is' : after o is0 W F is → stops o → ends_as o is0 is' W F.
Proof.
  intros H Hs. destruct o as [t| |]; [by destruct (Hs t)|..]; simpl in *.
  - exists 0. intros k. by destruct (H (x_bb C p vars (S k)) (S k)) as [[? _]|?].
  - exists 0. intros k. by destruct (H (x_bb C p vars (S k)) (S k)) as [[? _]|?].
Qed.
Lemma ends_stop o is W F is1 is2 : stops o → ends_as o is is1 W F → ends_as o is is2 W F.
Proof. intros Hs. destruct o as [t| |]; [by destruct (Hs t)|done..]. Qed.
Lemma code_act_inv c k cs is0 is' : letter c k → code (k :: cs) is0 is' → ∃ es is, is0 = es ++ is ∧ emitted k es ∧ code cs is is'.
Proof. intros Hc H. inversion H; subst; [eauto|by inversion Hc]. Qed.
Lemma code_loop_inv body cs is0 is' : code (CLoop body :: cs) is0 is' → ∃ j r cond bbb last isb j2 r2 is, is0 = j :: r ∧
  kd j TUnit (KJump cond []) ∧ tested cond bbb last ∧ bl bbb isb ∧ code body isb (j2 :: r2) ∧
  kd j2 TUnit (KJump cond []) ∧ bl last is ∧ code cs is is'.
Proof. intros H. inversion H as [|c ? ? ? ? ? Hc|]; subst; [by inversion Hc|]. by eexists _, _, _, _, _, _, _, _, _. Qed.
Lemma runs_ok cs t o : runs (c_checks C) size K cs t o → ∀ is is' W F, code cs is is' → holds t W F → ends_as o is is' W F.
Proof.
  induction 1 as [t|c k cs t t' o Hc Ha Hr IH|c k cs t Hc Hs|body cs t o Hz Hr IH|body cs t t' o Hz H1 IH1 H2 IH2|body cs t o Hz H1 IH1 Hs];
    intros is is' W F HC H.
  - inversion HC; subst. exists 0, W, F. by split.
  - apply (code_act_inv c) in HC as (es & is1 & -> & He & HC); [|done].
    pose proof (act_ok _ _ _ is1 _ W F Hc He H) as HA. rewrite Ha in HA.
    destruct HA as (W' & F' & H' & HS'). eapply (ends_before 0); [|by eapply IH].
    intros n. by destruct (HS' (x_bb C p vars (S n)) (S n)) as [[? _]|?].
  - apply (code_act_inv c) in HC as (es & is1 & -> & He & HC); [|done].
    pose proof (act_ok _ _ _ is1 _ W F Hc He H) as HA. by eapply after_stop.
  - apply code_loop_inv in HC as (j & r & cond & bbb & last & isb & j2 & r2 & is1 & -> & Hj & Ht & Hb & HC1 & Hj2 & Hl & HC2).
    destruct (loop_step _ _ _ _ _ _ _ r t W F Hj Ht Hb Hl H) as (W' & F' & H' & HS' & _). rewrite Hz in HS'.
    eapply (ends_before 2); [|by eapply IH]. intros n. apply HS'.
  - apply code_loop_inv in HC as (j & r & cond & bbb & last & isb & j2 & r2 & is1 & -> & Hj & Ht & Hb & HC1 & Hj2 & Hl & HC2).
    destruct (loop_step _ _ _ _ _ _ _ r t W F Hj Ht Hb Hl H) as (W' & F' & H' & HS' & _).
    destruct (Z.eqb_spec (cell t) 0); [done|]. eapply (ends_before 2); [intros n'; apply HS'|].
    destruct (IH1 _ _ _ _ HC1 H') as (m & W2 & F2 & H'' & HS2). eapply (ends_before m); [exact HS2|].
    eapply IH2; [|done]. by eapply c_loop.
  - apply code_loop_inv in HC as (j & r & cond & bbb & last & isb & j2 & r2 & is1 & -> & Hj & Ht & Hb & HC1 & Hj2 & Hl & HC2).
    destruct (loop_step _ _ _ _ _ _ _ r t W F Hj Ht Hb Hl H) as (W' & F' & H' & HS' & _).
    destruct (Z.eqb_spec (cell t) 0); [done|]. eapply (ends_before 2); [intros n'; apply HS'|].
    eapply ends_stop; [done|]. by eapply IH1.
Qed.
Lemma at_more k j is W F : at_ k is W F ≠ XDeep → at_ (k + j) is W F = at_ k is W F.
Proof.
  intros H. induction j as [|j IH]; [by rewrite Nat.add_0_r|]. rewrite Nat.add_succ_r.
  destruct (x_insts_upto C p vars (x_bb C p vars (k + j)) (x_bb C p vars (S (k + j))) (k + j) fd is (x_bb_upto C p vars _) W F) as [Hd|Hd]; congruence.
Qed.
Lemma runs_all n : ∀ k, k ≤ n → ∀ cs is is' t W F, code cs is is' → holds t W F → at_ k is W F ≠ XDeep →
  ∃ o, runs (c_checks C) size K cs t o.
Proof.
  induction n as [n IHn] using lt_wf_ind. intros k Hk cs is is' t W F HC. revert t W F.
  induction HC as [is|c kk cs es is is' Hc He HC IH|body cs j r cond bbb last isb j2 r2 is is' Hj Ht Hb HC1 _ Hj2 Hl HC2 _];
    intros t W F H Hn.
  - eexists. constructor.
  - pose proof (act_ok _ _ _ is _ W F Hc He H) as HA. destruct (act (c_checks C) size K kk t) as [t'| |] eqn:Ea.
    + destruct HA as (W' & F' & H' & HS'). destruct (HS' (x_bb C p vars k) k) as [[_ ?]|Hx]; [done|]. rewrite Hx in Hn.
      destruct (IH _ _ _ H' Hn) as [o Ho]. exists o. by eapply r_act.
    + exists OffTape. rewrite <- Ea. eapply r_stop; [done|]. by rewrite Ea.
    + exists Overflow. rewrite <- Ea. eapply r_stop; [done|]. by rewrite Ea.
  - destruct (loop_step _ _ _ _ _ _ _ r t W F Hj Ht Hb Hl H) as (W' & F' & H' & HS' & Z0 & Z1).
    destruct k as [|[|k]]; [done..|]. rewrite HS' in Hn. destruct (Z.eqb_spec (cell t) 0) as [Hz|Hz].
    + destruct (IHn k ltac:(lia) k ltac:(lia) _ _ _ _ _ _ HC2 H' Hn) as [o Ho]. exists o. by apply r_skip.
    + destruct (IHn k ltac:(lia) k ltac:(lia) _ _ _ _ _ _ HC1 H' Hn) as [o Ho].
      destruct o as [t1| |]; [|exists OffTape; by apply r_loop_stop|exists Overflow; by apply r_loop_stop].
      destruct (runs_ok _ _ _ Ho _ _ _ _ HC1 H') as (m & W2 & F2 & H2 & HS2).
      destruct (decide (k ≤ m)) as [Hle|Hgt].
      * exfalso. pose proof (at_more k (m + 1 - k) isb W' F' Hn) as Hx.
        replace (k + (m + 1 - k)) with (m + 1) in Hx by lia. rewrite HS2 in Hx.
        destruct (loop_step _ _ _ _ _ _ _ r2 t1 W2 F2 Hj2 Ht Hb Hl H2) as (_ & _ & _ & _ & _ & Z1'). congruence.
      * replace k with (m + S (k - m - 1)) in Hn by lia. rewrite HS2 in Hn.
        destruct (IHn (S (k - m - 1)) ltac:(lia) (S (k - m - 1)) ltac:(lia) (CLoop body :: cs) (j2 :: r2) is' t1 W2 F2) as [o Ho2]; [by eapply c_loop|done..|].
        exists o. by eapply r_loop.
Qed.
End sim.
