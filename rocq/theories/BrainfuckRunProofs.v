(** What the programs of the brainfuck example do. *)
From Coq Require Import Lia ZifyBool ZifyNat ZifyN Ascii.
From Verif Require Import Base IdModel TypeModel IrModel LayoutModel BuilderModel WorldModel
  LexerModel ParserModel ParserSpec FrontModel FrontProofs FlowSpec FlowProofs BlockListProofs
  CleanProofs BuildCleanProofs FunCleanProofs FlowBuildProofs DriverModel DriverSpec DriverProofs UsesSpec UsesProofs
  DfgSpec DfgProofs WorldSpec WorldProofs TypingSpec TypingProofs TypingHistory EqHistory SkelProofs ParamProofs HistoryProofs
  FaithSpec RoundProofs ViewProofs FaithProofs FaithFunProofs CanonProofs CanonReadProofs RetreeFunProofs AcceptSpec AcceptProofs
  AcceptFunProofs LayoutProofs InterpModel InterpSimProofs InterpFuelProofs InterpOptProofs BrainfuckModel BrainfuckSpec BrainfuckSimProofs
  BrainfuckBuildProofs.

Definition fresh_ids (i : ids) : bool :=
  ((0 <? next_lv i) && (next_lv i + 3221225000 <? two32) && (0 <? next_bb i) && (next_bb i + 3221225000 <? two32) &&
   (0 <? next_fn i) && (next_fn i + 3221225000 <? two32))%N.
Lemma globals_ids : match bf_globals world0 with Some (_, w) => fresh_ids (w_ids w) | None => false end = true.
Proof. vm_compute. reflexivity. Qed.
Lemma globals_ok : ∃ g z putc getc f w, bf_globals world0 = Some (BfEnv g putc getc f, w) ∧ room 0 w ∧ left_in 3221225000 (w_ids w) ∧
  fvs w !! f = Some (FView "@main" (TFun [] TInt32) [] ∅ ∅ []) ∧
  fvs w !! putc = Some (FView "@putchar" (TFun [TInt32] TInt32) [] ∅ ∅ []) ∧
  fvs w !! getc = Some (FView "@getchar" (TFun [] TInt32) [] ∅ ∅ []) ∧
  f ≠ putc ∧ f ≠ getc ∧ (∀ h, is_Some (fvs w !! h) → h = f ∨ h = putc ∨ h = getc) ∧
  gvs w !! g = Some (Some "@data_arr", (TPtr (TArray TInt32 65536), KGlobalAlloc z)) ∧
  gvs w !! z = Some (None, (TArray TInt32 65536, KZeroInit)) ∧
  is_global_id g = true ∧ p_inst_layout (w_prog w) = [g] ∧ p_func_layout (w_prog w) = [putc; getc; f].
Proof.
  pose proof globals_ids as HI. destruct (bf_globals world0) as [[env w]|] eqn:HG; [|done].
  assert (HL : left_in 3221225000 (w_ids w)) by (unfold left_in; unfold fresh_ids in HI; lia). clear HI.
  unfold bf_globals in HG.
  apply bind_Some in HG as ([z w1] & H1 & HG). apply bind_Some in HG as ([g w2] & H2 & HG). apply bind_Some in HG as (w3 & H3 & HG).
  apply bind_Some in HG as ([putc w4] & H4 & HG). apply bind_Some in HG as ([getc w5] & H5 & HG). apply bind_Some in HG as ([f w6] & H6 & HG).
  injection HG as <- <-.
  assert (R0 : room 2 world0) by (apply (room_start ids0 2 counting0); done).
  apply (view_new_global 1) in H1 as (d1 & Hd1 & N1 & _ & G1 & F1 & O1 & I1 & R1); [|done|done].
  apply (view_new_global 0) in H2 as (d2 & Hd2 & N2 & Gi & G2 & F2 & O2 & I2 & R2); [|done|done].
  pose proof (room_op_ _ _ _ _ H3 R2) as R3. apply view_name_global in H3 as (y & Hy & G3 & F3 & O3 & I3).
  pose proof (room_op _ _ _ _ _ H4 R3) as R4. apply (view_new_decl 0) in H4 as (N4 & F4 & G4 & I4 & O4); [|done].
  pose proof (room_op _ _ _ _ _ H5 R4) as R5. apply (view_new_decl 0) in H5 as (N5 & F5 & G5 & I5 & O5); [|done].
  pose proof (room_op _ _ _ _ _ H6 R5) as R6. apply (view_new_def 0) in H6 as (m & vs & N6 & F6 & G6 & I6 & O6 & A6); [|done].
  pose proof A6 as (_ & Hlen & _). destruct vs; [|done].
  assert (E1 : v_ty d1 = TArray TInt32 65536).
  { cbn [build] in Hd1. unfold mk_zero_init in Hd1. cbn in Hd1. by injection Hd1 as <-. }
  rewrite E1 in G1.
  assert (E2 : v_ty d2 = TPtr (TArray TInt32 65536)).
  { cbn [build] in Hd2. unfold mk_global_alloc, global_querier in Hd2. cbn in Hd2.
    assert (Hz : gvs w1 !! z = Some (None, (TArray TInt32 65536, KZeroInit))) by (by rewrite G1, lookup_insert).
    rewrite lookup_fmap in Hz. apply fmap_Some in Hz as (dz & Hz & Ez). injection Ez as Ez1 Ez2 Ez3.
    rewrite Hz in Hd2. cbn in Hd2. rewrite <- Ez2 in Hd2. cbn in Hd2. by injection Hd2 as <-. }
  rewrite E2 in G2.
  assert (Em : m = ∅).
  { apply map_eq. intros v. destruct A6 as (_ & _ & _ & A6 & _). rewrite A6; [done|]. intros Hx. inversion Hx. }
  subst m. assert (Hzg : z ≠ g) by (intros ->; rewrite G1, lookup_insert in N2; done).
  rewrite G2, lookup_insert in Hy. injection Hy as <-.
  rewrite F5 in N6. rewrite F4 in N5. rewrite F5, F4 in F6.
  apply lookup_insert_None in N5 as [N5 N5']. apply lookup_insert_None in N6 as [N6 N6']. rewrite F4 in N6. apply lookup_insert_None in N6 as [N6 N6''].
  exists g, z, putc, getc, f, w6. split_and!; [done|done|done| | | | | | | | | | |].
  - by rewrite F6, lookup_insert.
  - rewrite F6, lookup_insert_ne by done. rewrite lookup_insert_ne by done. by rewrite lookup_insert.
  - rewrite F6, lookup_insert_ne by done. by rewrite lookup_insert.
  - done.
  - done.
  - intros h. rewrite F6, F3, F2, F1. rewrite !lookup_insert_is_Some. intros [->|[_ [->|[_ [->|[_ Hx]]]]]]; [by left|by right; right|by right; left|].
    destruct Hx as [? Hx]. simpl in Hx. by rewrite fmap_empty, lookup_empty in Hx.
  - by rewrite G6, G5, G4, G3, lookup_insert.
  - rewrite G6, G5, G4, G3, lookup_insert_ne by done. rewrite G2, lookup_insert_ne by done. by rewrite G1, lookup_insert.
  - done.
  - by rewrite I6, I5, I4, I3, I2, I1.
  - by rewrite O6, O5, O4, O3, O2, O1.
Qed.

Lemma many_zero h k n : (∀ n, h n = XOk (XInt 0, n)) → x_many h k n = XOk (replicate k (XInt 0), n).
Proof. intros H. induction k as [|k IH]; cbn [x_many replicate]; [done|]. rewrite H. cbn [mbind xres_bind]. by rewrite IH. Qed.
Lemma zero_array len n : x_zeroinit (TArray TInt32 len) n = XOk (XArr n (replicate (N.to_nat len) (XInt 0)), n + 1)%N.
Proof. cbn [x_zeroinit]. by rewrite many_zero by done. Qed.

Section result.
Context {E : Type} (C : xconfig E) (K : console E) (len : N) (Hlen : (0 < len)%N).
Context (p : program) (g z : value) (putc getc f : func) (fd : fdata) (cs : list cmd).
Record compiled : Prop := {
  co_g : ∃ d, p_values p !! g = Some d ∧ v_kind d = KGlobalAlloc z;
  co_z : ∃ d, p_values p !! z = Some d ∧ v_ty d = TArray TInt32 len ∧ v_kind d = KZeroInit;
  co_gid : is_global_id g = true;
  co_lay : p_inst_layout p = [g];
  co_main : p_funcs p !! f = Some fd;
  co_name : f_name fd = "@main";
  co_ty : f_ty fd = TFun [] TInt32;
  co_params : f_params fd = [];
  co_put : ∃ d, p_funcs p !! putc = Some d ∧ f_name d = "@putchar" ∧ f_ty d = TFun [TInt32] TInt32 ∧ l_bbs (f_layout d) = [];
  co_get : ∃ d, p_funcs p !! getc = Some d ∧ f_name d = "@getchar" ∧ f_ty d = TFun [] TInt32 ∧ l_bbs (f_layout d) = [];
  co_funcs : ∀ h, is_Some (p_funcs p !! h) → h = f ∨ h = putc ∨ h = getc;
  co_local : ∀ v, is_Some (d_values (f_dfg fd) !! v) → is_global_id v = false;
  co_whole : whole g putc getc (fv fd) cs;
}.
Context (HC : compiled) (HK : console_is C K).
Context (order : list func) (Hord : ∀ h, h ∈ order ↔ is_Some (p_funcs p !! h)).
Lemma main_found : x_main p order = Some fd.
Proof.
  apply (x_main_some _ _ f).
  - apply Hord. rewrite (co_main HC). eauto.
  - apply (co_main HC).
  - apply (co_name HC).
  - intros h d Hd Hn. destruct (co_funcs HC h) as [->|[->| -> ]]; [eauto|done|..].
    + destruct (co_put HC) as (d' & H1 & H2 & _). congruence.
    + destruct (co_get HC) as (d' & H1 & H2 & _). congruence.
Qed.
Definition vars1 : gmap N xval := {[g := XPtr (Some (Ptr 1 [])) 0 0]}.
Definition mem1 : gmap N xval := {[1%N := XArr 0 (replicate (N.to_nat len) (XInt 0))]}.
Lemma globals_run k (e : E) : x_globals (S k) p (p_inst_layout p) ∅ (XWorld ∅ 0 e) = XOk (vars1, XWorld mem1 2 e).
Proof.
  rewrite (co_lay HC). destruct (co_g HC) as (d & Hd & Hk). destruct (co_z HC) as (d' & Hd' & Ht & Hk').
  cbn [x_globals]. rewrite Hd. cbn [xneed mbind xres_bind]. rewrite Hk. cbn [x_const]. rewrite Hd'. cbn [xneed mbind xres_bind].
  rewrite Hk', Ht, zero_array. done.
Qed.
Notation at_ k is W F := (x_insts C p vars1 (x_bb C p vars1 k) k fd is W F).
Definition answer (r : xres (xval * xworld E * xframe)) : xres (Z * E) :=
  xres_bind _ _ (λ '(x, W, _), match x with XInt v => XOk (v, x_extern W) | _ => XErr end) r.
Lemma interp_as (e : E) : ∃ ptr r jl r1 W F,
  setting C K p vars1 fd ptr putc getc ∧ holds ptr 2 1 0 len (blank e) W F ∧ code fd ptr putc getc cs r (jl :: r1) ∧
  (∀ k, interpret C (S (S k)) order p e = answer (at_ k r W F)) ∧
  (∀ k W F, at_ (S (S k)) (jl :: r1) W F = XOk (XInt 0, W, F)) ∧
  ∀ W F, at_ 0 (jl :: r1) W F = XDeep ∧ at_ 1 (jl :: r1) W F = XDeep.
Proof.
  destruct (co_whole HC) as (entry & l & ptr & zero & dp & s & j & r0 & first & r & jl & r1 & last & rt & r2 & HL & HW).
  destruct (HW fd eq_refl (co_local HC)) as (Be & Kp & Kz & Kd & Ks & Kj & Bf & HCo & Kjl & Bl & Kr). clear HW.
  assert (HS : setting C K p vars1 fd ptr putc getc).
  { destruct HK as [(h1 & A1 & A2) (h2 & A3 & A4)]. destruct (co_put HC) as (d1 & D1), (co_get HC) as (d2 & D2). constructor.
    - intros v Hv. apply lookup_singleton_None. intros <-. rewrite (co_gid HC) in Hv. done.
    - exact Kp.
    - exists h1, d1. by destruct D1 as (? & ? & ? & ?).
    - exists h2, d2. by destruct D2 as (? & ? & ? & ?). }
  set (head := XPtr (Some (Ptr 1 [(0%N, 0)])) 0 len).
  set (F1 := XFrame {[ptr := XPtr (Some (Ptr 2 [])) 0 0]} [2%N]).
  set (F2 := x_insert dp head F1).
  set (W0 := XWorld mem1 2 e).
  set (W1 := XWorld (<[2%N := XPtr None 0 0]> mem1) 3 e).
  set (W2 := XWorld (<[2%N := head]> (<[2%N := XPtr None 0 0]> mem1)) 3 e).
  assert (Hpd : dp ≠ ptr) by (eapply kd_ne; [exact Kd|exact Kp|done]).
  exists ptr, r, jl, r1, W2, F2. split; [done|]. split.
  { constructor; simpl; try done.
    - rewrite lookup_insert_ne by done. by rewrite lookup_singleton.
    - exists (replicate (N.to_nat len) (XInt 0)). split; [|split].
      + rewrite !lookup_insert_ne by done. unfold mem1. by rewrite lookup_singleton.
      + rewrite replicate_length. lia.
      + intros i Hi. apply lookup_replicate_2. lia. }
  split; [done|]. split; [|split].
  - intros k. unfold interpret. rewrite globals_run. cbn [mbind xres_bind]. rewrite main_found. unfold x_func. rewrite (co_ty HC). cbn [length Nat.eqb negb].
    destruct Be as [Hf Hbd]. change (w_lay (fv fd)) with (l_bbs (f_layout fd)) in HL.
    destruct (l_bbs (f_layout fd)) as [|[b0 is0] ls] eqn:Els; [done|]. injection HL as -> _. simpl in Hf. rewrite N.eqb_refl in Hf. injection Hf as ->.
    unfold params_exist. rewrite (co_params HC). cbn [forallb x_args].
    assert (Hrun : x_bb C p vars1 (S (S k)) fd (ptr :: dp :: s :: j :: r0) W0 (XFrame ∅ []) = at_ k r W2 F2).
    { cbn [x_bb]. rewrite (insts_inst _ _ _ _ _ _ _ _ _ _ _ _ Kp) by done. cbn [x_alloc v_ty x_zeroinit x_box x_upto mbind xres_bind x_next].
      rewrite (insts_inst _ _ _ _ _ _ _ _ _ _ _ _ Kd) by done. unfold x_getelemptr.
      rewrite (eval_int _ _ _ _ _ _ _ _ _ Kz). cbn [mbind xres_bind]. cbn [x_base_size v_ty].
      assert (Hg : ∀ fu F (W : xworld E), x_eval p vars1 fu fd F g W = XOk (XPtr (Some (Ptr 1 [])) 0 0, W)).
      { intros fu F W. unfold x_eval, x_value. rewrite (co_gid HC). destruct (co_g HC) as (d & Hd & Hk). rewrite Hd. cbn [xneed mbind xres_bind].
        rewrite Hk. cbn [is_const]. unfold vars1. rewrite lookup_singleton. cbn. by destruct W. }
      rewrite Hg. cbn [mbind xres_bind]. unfold x_elem_pointer, x_read. cbn [pt_box pt_path x_mem].
      assert (Hm : <[x_next W0:=XPtr None 0 0]> (x_mem (x_upto W0 (x_next W0))) !! 1%N = Some (XArr 0 (replicate (N.to_nat len) (XInt 0)))) by done.
      rewrite Hm. cbn [mbind option_bind at_path xmem xres_bind app].
      rewrite replicate_length. unfold x_get_pointer.
      replace (N.of_nat (N.to_nat len)) with len by lia. replace ((0 <=? Z.of_N 0 + 0) && (Z.of_N 0 + 0 <? Z.of_N len))%Z with true by lia.
      cbn [pt_path shift_path]. replace (0 <=? Z.of_nat 0 + 0)%Z with true by done. cbn [xmem mbind xres_bind pt_box].
      change (Z.to_N (Z.of_N 0 + 0)) with 0%N. change (Z.to_nat (Z.of_nat 0 + 0)) with 0.
      rewrite (insts_inst _ _ _ _ _ _ _ _ _ _ _ _ Ks) by done. unfold x_store.
      assert (Hv1 : x_eval p vars1 (S k) fd F2 dp W1 = XOk (head, W1)).
      { apply (eval_var C K p vars1 fd ptr putc getc HS (S k) F2 dp (TPtr TInt32) (KGetElemPtr g zero)); [done|done| |done]. simpl. by rewrite lookup_insert. }
      assert (Hv2 : x_eval p vars1 (S k) fd F2 ptr W1 = XOk (XPtr (Some (Ptr 2 [])) 0 0, W1)).
      { apply (eval_var C K p vars1 fd ptr putc getc HS (S k) F2 ptr (TPtr (TPtr TInt32)) KAlloc); [done|done| |done].
        simpl. rewrite lookup_insert_ne by done. by rewrite lookup_singleton. }
      match goal with |- context [x_eval p vars1 (S k) fd ?F dp ?W] => change F with F2; change W with W1 end.
      rewrite Hv1. cbn [mbind xres_bind]. rewrite Hv2. cbn [mbind xres_bind]. unfold x_write. cbn [pt_box pt_path x_mem W1].
      rewrite lookup_insert. cbn [mbind option_bind set_path xmem xres_bind x_next x_extern].
      rewrite (jump_ok _ _ _ _ _ _ _ _ _ _ _ _ _ Kj Bf). done. }
    cbn [mbind xres_bind]. unfold W0 in Hrun. rewrite Hrun. unfold answer. destruct (at_ k r W2 F2) as [[[x W'] F']| | | |]; done.
  - intros k W F. rewrite (jump_ok _ _ _ _ _ _ _ _ _ _ _ _ _ Kjl Bl). cbn [x_bb]. destruct Kr as (Hg & d & Hd & Ht & Hk).
    cbn [x_insts]. rewrite Hd. cbn [xneed mbind xres_bind]. rewrite Hk, (eval_int _ _ _ _ _ _ _ _ _ Kz). done.
  - intros W F. rewrite !(jump_ok _ _ _ _ _ _ _ _ _ _ _ _ _ Kjl Bl). split; [done|]. cbn [x_bb]. destruct Kr as (Hg & d & Hd & Ht & Hk).
    cbn [x_insts]. rewrite Hd. cbn [xneed mbind xres_bind]. rewrite Hk, (eval_int _ _ _ _ _ _ _ _ _ Kz). done.
Qed.
Notation runs := (BrainfuckSpec.runs (c_checks C) len K cs).
Notation run n e := (interpret C n order p e).
Lemma run_ends (e : E) o : runs (blank e) o → match o with
  | Done t => ∃ n, run n e = XOk (0%Z, t_io t) | OffTape => ∃ n, run n e = XErr | Overflow => ∃ n, run n e = XPanic end.
Proof.
  intros H. destruct (interp_as e) as (ptr & r & jl & r1 & W & F & HS & HH & HCo & HI & HE & _).
  pose proof (runs_ok C K p vars1 fd ptr putc getc HS 2 1 0 len cs _ _ H _ _ _ _ HCo HH) as HR. destruct o as [t| |]; unfold ends_as in HR.
  - destruct HR as (m & W' & F' & H' & HR). exists (S (S (m + 2))). rewrite HI, HR.
    rewrite (HE 0). simpl. by rewrite (h_io _ _ _ _ _ _ _ _ H').
  - destruct HR as (m & HR). exists (S (S (m + 1))). by rewrite HI, HR.
  - destruct HR as (m & HR). exists (S (S (m + 1))). by rewrite HI, HR.
Qed.
Lemma run_all (e : E) n : run n e ≠ XDeep → ∃ o, runs (blank e) o.
Proof.
  intros Hn. destruct (interp_as e) as (ptr & r & jl & r1 & W & F & HS & HH & HCo & HI & HE & _).
  assert (Hn2 : run (S (S n)) e ≠ XDeep).
  { replace (S (S n)) with (n + 2) by lia. by rewrite (interpret_more C n 2 order p e _ eq_refl Hn). }
  rewrite HI in Hn2. apply (runs_all C K p vars1 fd ptr putc getc HS 2 1 0 len n n (le_n n) cs r (jl :: r1) (blank e) W F HCo HH).
  intros Hx. apply Hn2. by rewrite Hx.
Qed.
Lemma run_fun (e : E) n m : run n e ≠ XDeep → run m e ≠ XDeep → run n e = run m e.
Proof.
  intros Hn Hm. rewrite <- (interpret_more C n m order p e _ eq_refl Hn). rewrite Nat.add_comm. by apply interpret_more.
Qed.
Lemma run_done (e : E) v e' : (∃ n, run n e = XOk (v, e')) ↔ v = 0%Z ∧ ∃ t, runs (blank e) (Done t) ∧ t_io t = e'.
Proof.
  split.
  - intros [n Hn]. destruct (run_all e n) as [o Ho]; [by rewrite Hn|]. pose proof (run_ends e o Ho) as HE.
    destruct o as [t| |]; destruct HE as [m Hm].
    + assert (Hx : run n e = run m e) by (apply run_fun; congruence). rewrite Hn, Hm in Hx. injection Hx as -> ->. split; [done|]. by exists t.
    + assert (Hx : run n e = run m e) by (apply run_fun; congruence). congruence.
    + assert (Hx : run n e = run m e) by (apply run_fun; congruence). congruence.
  - intros (-> & t & Ht & <-). apply (run_ends e _ Ht).
Qed.
Lemma run_off (e : E) : (∃ n, run n e = XErr) ↔ runs (blank e) OffTape.
Proof.
  split; [|apply run_ends].
  intros [n Hn]. destruct (run_all e n) as [o Ho]; [by rewrite Hn|]. pose proof (run_ends e o Ho) as HE.
  destruct o as [t| |]; [|done|]; destruct HE as [m Hm].
  all: assert (Hx : run n e = run m e) by (apply run_fun; congruence); congruence.
Qed.
Lemma run_over (e : E) : (∃ n, run n e = XPanic) ↔ runs (blank e) Overflow.
Proof.
  split; [|apply run_ends].
  intros [n Hn]. destruct (run_all e n) as [o Ho]; [by rewrite Hn|]. pose proof (run_ends e o Ho) as HE.
  destruct o as [t| |]; [..|done]; destruct HE as [m Hm].
  all: assert (Hx : run n e = run m e) by (apply run_fun; congruence); congruence.
Qed.
Lemma run_not_beyond (e : E) n : run n e ≠ XBeyond.
Proof.
  intros Hn. destruct (run_all e n) as [o Ho]; [by rewrite Hn|]. pose proof (run_ends e o Ho) as HE.
  destruct o as [t| |]; destruct HE as [m Hm]; (assert (Hx : run n e = run m e) by (apply run_fun; congruence)); congruence.
Qed.
End result.

(** ** The built program *)
Lemma find_elem b is l : find_bb b l = Some is → (b, is) ∈ l.
Proof.
  induction l as [|[c cs] l IH]; simpl; [done|]. destruct (N.eqb_spec c b) as [->|]; [intros [= ->]; by left|]. right. by apply IH.
Qed.
Lemma build_ok text : (N.of_nat (length text) < 2 ^ 28)%N →
  (closes_opened text ∧ ∃ w, bf_build text = BfOk w ∧ room 0 w ∧
    (∀ cs, spells text cs → ∃ g z putc getc f fd, compiled 65536 (w_prog w) g z putc getc f fd cs) ∧
    (balanced text ∨ stray (w_prog w))) ∨
  (¬ closes_opened text ∧ bf_build text = BfParse).
Proof.
  intros Ht. destruct globals_ok as (g & z & putc & getc & f & w & HG & HR & HL & Hf & Hp & Hg & Nfp & Nfg & Hall & Gg & Gz & Gi & Li & Lo).
  unfold bf_build. rewrite HG. clear HG. cbn [bf_need bf_then].
  assert (Hcl : closes 0 text ↔ closes_opened text).
  { unfold closes, closes_opened. split; intros H a b E; specialize (H a b E); lia. }
  set (x0 := FView "@main" (TFun [] TInt32) [] ∅ ∅ []).
  assert (I : bfi f (gvs w) (fts w) (delete f (fvs w)) [g] [putc; getc; f]
    (1 + (1 + (1 + (1 + (1 + (1 + (1 + (9 * N.of_nat (length text) + (1 + (1 + (1 + 0))))))))))) x0 w).
  { constructor; try done.
    - eapply left_mono; [|exact HL]. change (2 ^ 28)%N with 268435456%N in Ht. lia.
    - intros b Hb. inversion Hb.
  }
  destruct (generate_ok f (gvs w) (fts w) (delete f (fvs w)) [g] [putc; getc; f] g putc getc (Some "@data_arr") (KGlobalAlloc z)) with (text := text) (k := 0%N) (x := x0) (w := w)
    as [(Hc & w' & x' & E & I' & M & HW & HS)|[Hc E]]; [by rewrite lookup_fmap, Hp|by rewrite lookup_fmap, Hg|done|done|done|left|right].
  - split; [by apply Hcl|]. exists w'. split; [done|]. split; [apply I'|].
    pose proof (bf_view _ _ _ _ _ _ _ _ _ I') as Hv. rewrite lookup_fmap in Hv. apply fmap_Some in Hv as (fd & Hfd & ->).
    split.
    2: { destruct HS as [HS|(b & is & br & c & body & la & S1 & S2 & [n S3] & _ & S5)]; [left; split; [by apply Hcl|done]|right].
      simpl in S1, S3, S5. rewrite lookup_fmap in S3. apply fmap_Some in S3 as (d & Hd & Ed). injection Ed as _ _ Ed.
      exists f, fd, b, is, br, d, la. split_and!; [done|by apply find_elem|done|done| |by apply find_bb_none]. rewrite <- Ed. right. by left. }
    intros cs Hcs. specialize (HW cs Hcs).
    destruct (bf_rest _ _ _ _ _ _ _ _ _ I') as (R1 & R2 & R3). pose proof (bf_gs _ _ _ _ _ _ _ _ _ I') as R4.
    destruct M as (M1 & M2 & M3). simpl in M1, M2, M3.
    assert (Hother : ∀ h, h ≠ f → fvs w' !! h = fvs w !! h).
    { intros h Hne. rewrite <- (lookup_delete_ne (fvs w') f h) by done. rewrite R1. by rewrite lookup_delete_ne. }
    assert (Hgv : ∀ v y, gvs w !! v = Some y → ∃ d, p_values (w_prog w') !! v = Some d ∧ v_ty d = y.2.1 ∧ v_kind d = y.2.2).
    { intros v y Hy. rewrite <- R4, lookup_fmap in Hy. apply fmap_Some in Hy as (d & Hd & ->). by exists d. }
    assert (Hfv : ∀ h y, h ≠ f → fvs w !! h = Some y → ∃ d, p_funcs (w_prog w') !! h = Some d ∧ fv d = y).
    { intros h y Hne Hy. rewrite <- Hother in Hy by done. rewrite lookup_fmap in Hy. apply fmap_Some in Hy as (d & Hd & ->). by exists d. }
    pose proof (bf_room _ _ _ _ _ _ _ _ _ I') as R'.
    exists g, z, putc, getc, f, fd. constructor; try done.
    + destruct (Hgv _ _ Gg) as (d & ? & _ & ?). by exists d.
    + destruct (Hgv _ _ Gz) as (d & ? & ? & ?). by exists d.
    + destruct (Hfv putc _ ltac:(done) Hp) as (d & Hd & Ed). exists d. injection Ed as -> -> _ _ _ ->. done.
    + destruct (Hfv getc _ ltac:(done) Hg) as (d & Hd & Ed). exists d. injection Ed as -> -> _ _ _ ->. done.
    + intros h [d Hd]. destruct (decide (h = f)) as [|Hne]; [by left|]. apply Hall. rewrite <- Hother by done. by rewrite lookup_fmap, Hd; eauto.
    + intros v [d Hd]. destruct (room_lv _ _ R') as (_ & _ & L). destruct (L f (fv fd) v) as [L1 _].
      * by rewrite lookup_fmap, Hfd.
      * simpl. rewrite lookup_fmap, Hd. eauto.
      * unfold is_global_id. lia.
  - split; [by rewrite <- Hcl|done].
Qed.

(** ** The programs that texts spell *)
Inductive segs : nat → list ascii → Prop :=
  | sg_end b cs : spells b cs → segs 0 b
  | sg_more n b cs rest : spells b cs → segs n rest → segs (S n) (b ++ "]"%char :: rest).
Lemma segs_add n a text : (∀ b cs, spells b cs → ∃ cs', spells (a ++ b) cs') → segs n text → segs n (a ++ text).
Proof.
  intros H HS. destruct HS as [b cs Hb|n b cs rest Hb HS].
  - destruct (H _ _ Hb) as [cs' Hcs']. by eapply sg_end.
  - destruct (H _ _ Hb) as [cs' Hcs']. rewrite app_assoc. by eapply sg_more.
Qed.
Lemma count_open s : count "]" ("["%char :: s) = count "]" s ∧ count "[" ("["%char :: s) = S (count "[" s).
Proof. by rewrite !count_cons. Qed.
Lemma count_close s : count "]" ("]"%char :: s) = S (count "]" s) ∧ count "[" ("]"%char :: s) = count "[" s.
Proof. by rewrite !count_cons. Qed.
Lemma closes_segs text : ∀ n, closes n text → count "]" text = count "[" text + n → segs n text.
Proof.
  induction text as [|c text IH]; intros n Hc He.
  - change (count _ []) with 0 in He. destruct n; [|lia]. by eapply sg_end; constructor.
  - destruct (classify c) as [[k Hk]|[-> |[-> |Hk]]].
    + destruct (count_letter _ _ Hk). rewrite !count_cons, !decide_False in He by done.
      apply (segs_add n [c]); [intros b cs Hb; exists (k :: cs); by constructor|]. apply IH; [|done].
      eapply closes_cons; [|exact Hc]. rewrite !count_cons, !decide_False by done. done.
    + assert (HS : segs (S n) text).
      { apply IH; [eapply closes_cons; [|exact Hc]; done|]. destruct (count_open text). lia. }
      inversion HS as [|n' b cs rest Hb HS']; subst.
      change ("["%char :: b ++ "]"%char :: rest) with (("["%char :: b) ++ "]"%char :: rest). rewrite (cons_middle "]"%char), app_assoc.
      apply segs_add; [|done]. intros b' cs' Hb'. exists (CLoop cs :: cs'). rewrite <- app_assoc. by apply sp_loop.
    + destruct n as [|n]; [specialize (Hc ["]"%char] text eq_refl); compute in Hc; lia|].
      apply (sg_more n [] []); [constructor|]. apply IH; [by apply (closes_cons (S n) n "]"%char text)|].
      destruct (count_close text). lia.
    + destruct Hk as (? & ? & ?). rewrite !count_cons, !decide_False in He by done.
      apply (segs_add n [c]); [intros b cs Hb; exists cs; by constructor|]. apply IH; [|done].
      eapply closes_cons; [|exact Hc]. rewrite !count_cons, !decide_False by done. done.
Qed.
Lemma count_app c a b : count c (a ++ b) = count c a + count c b.
Proof. unfold count. by rewrite list.filter_app, app_length. Qed.
Lemma spells_closes text cs : spells text cs → ∀ n s, closes n s → closes n (text ++ s).
Proof.
  induction 1 as [|c k text cs Hc _ IH|c text cs Hc _ IH|b body text cs _ IHb _ IH]; intros n s Hs; simpl; [done|..].
  - destruct (count_letter _ _ Hc). eapply closes_cons; [|by apply IH]. rewrite !count_cons, !decide_False by done. done.
  - destruct Hc as (? & ? & _). eapply closes_cons; [|by apply IH]. rewrite !count_cons, !decide_False by done. done.
  - rewrite <- app_assoc. simpl. apply (closes_cons n (S n)); [done|]. apply IHb. apply (closes_cons (S n) n); [done|]. by apply IH.
Qed.
Lemma spells_count text cs : spells text cs → count "[" text = count "]" text.
Proof.
  induction 1 as [|c k text cs Hc _ IH|c text cs Hc _ IH|b body text cs _ IHb _ IH]; [done|..].
  - destruct (count_letter _ _ Hc). by rewrite !count_cons, !decide_False by done.
  - destruct Hc as (? & ? & _). by rewrite !count_cons, !decide_False by done.
  - destruct (count_open (b ++ "]"%char :: text)) as [-> -> ]. rewrite !count_app. destruct (count_close text) as [-> -> ]. lia.
Qed.
Lemma spells_balanced text : (∃ cs, spells text cs) ↔ balanced text.
Proof.
  split.
  - intros [cs Hcs]. split; [|by eapply spells_count]. intros a b E.
    pose proof (spells_closes _ _ Hcs 0 []) as H. rewrite app_nil_r in H. specialize (H ltac:(intros [|] ? ?; [cbn; lia|done]) a b E). lia.
  - intros [H1 H2]. assert (HS : segs 0 text).
    { apply closes_segs; [|lia]. intros a b E. specialize (H1 a b E). lia. }
    inversion HS; eauto.
Qed.
Definition tail_ok (s : list ascii) : Prop := s = [] ∨ ∃ s', s = "]"%char :: s'.
Lemma spells_one_ b cs : spells b cs → ∀ b' cs' s s', spells b' cs' → tail_ok s → tail_ok s' → b ++ s = b' ++ s' →
  b = b' ∧ cs = cs' ∧ s = s'.
Proof.
  assert (N1 : ∀ c (l r : list ascii) s, tail_ok s → c ≠ "]"%char → c :: l = s → False).
  { intros c l _ s [->|[s' ->]] Hc E; [done|]. by injection E. }
  assert (N2 : ∀ c k, letter c k → c ≠ "]"%char) by (intros c k Hk; by apply (count_letter _ _ Hk)).
  induction 1 as [|c k text cs Hc _ IH|c text cs Hc _ IH|b body text cs _ IHb _ IH]; intros b' cs' s s' H' T T' E.
  - destruct H' as [|c k text cs Hc ?|c text cs Hc ?|b body text cs ? ?]; [done|exfalso; simpl in E..].
    + symmetry in E. eapply N1; [..|exact E]; [done|done|by eapply N2].
    + symmetry in E. eapply N1; [..|exact E]; [done|done|by apply Hc].
    + symmetry in E. eapply N1; [..|exact E]; [done|done|done].
  - destruct H' as [|c2 k2 text2 cs2 Hc2 H2|c2 text2 cs2 Hc2 H2|b2 body2 text2 cs2 H2b H2]; simpl in E.
    + exfalso. eapply N1; [..|exact E]; [done|done|by eapply N2].
    + injection E as -> E. destruct (IH _ _ _ _ H2 T T' E) as (-> & -> & ->). split_and!; [done| |done]. f_equal. by destruct Hc; inversion Hc2.
    + injection E as -> E. exfalso. destruct Hc2 as (_ & _ & Hx). by eapply Hx.
    + injection E as -> E. exfalso. inversion Hc.
  - destruct H' as [|c2 k2 text2 cs2 Hc2 H2|c2 text2 cs2 Hc2 H2|b2 body2 text2 cs2 H2b H2]; simpl in E.
    + exfalso. eapply N1; [..|exact E]; [done|done|by apply Hc].
    + injection E as -> E. exfalso. destruct Hc as (_ & _ & Hx). by eapply Hx.
    + injection E as -> E. destruct (IH _ _ _ _ H2 T T' E) as (-> & -> & ->). done.
    + injection E as -> E. exfalso. by destruct Hc.
  - destruct H' as [|c2 k2 text2 cs2 Hc2 H2|c2 text2 cs2 Hc2 H2|b2 body2 text2 cs2 H2b H2]; simpl in E.
    + exfalso. eapply N1; [..|exact E]; done.
    + injection E as <- E. exfalso. inversion Hc2.
    + injection E as <- E. exfalso. by destruct Hc2.
    + injection E as E. rewrite <- !app_assoc in E. simpl in E.
      destruct (IHb _ _ ("]"%char :: text ++ s) ("]"%char :: text2 ++ s') H2b) as (-> & -> & E2); [right; eauto|right; eauto|done|].
      injection E2 as E2. destruct (IH _ _ _ _ H2 T T' E2) as (-> & -> & ->). done.
Qed.
Lemma spells_one text cs cs' : spells text cs → spells text cs' → cs = cs'.
Proof. intros H H'. destruct (spells_one_ _ _ H _ _ [] [] H' (or_introl eq_refl) (or_introl eq_refl) eq_refl) as (_ & E & _). exact E. Qed.

(** ** Consistency *)
Lemma room_consistent n w : room n w → use_lists_exact (w_prog w) ∧ no_dangling (w_prog w) ∧ well_typed (w_prog w).
Proof.
  intros (i & os & Ci & F & R & G).
  assert (HW0 : winv i program0 ∅) by (apply winv_empty; [done|lia]).
  destruct (run_winv os (World i program0) (er w) ∅) as (F' & HW & Hc); [done|by apply fe_tidy|simpl; lia|done|].
  split_and!.
  - apply er_exact. eapply winv_exact; [done|]. apply Hc; [|by apply fe_releases]. intros f fd u v Hf. done.
  - apply er_no_dangling. by eapply winv_no_dangling.
  - apply er_well_typed. eapply (tinv_well_typed (w_ids (er w))).
    eapply (run_tinv os (World i program0) (er w) ∅); [done|apply pinv_empty; [done|simpl; lia]|by apply fe_tidy|by apply fe_builders|simpl; lia| |done].
    split; [|by intros ???]. intros v y Hv. simpl in Hv. rewrite fmap_empty in Hv. done.
Qed.
