(** C30-C35: what the builder of the front end accepts, rejects and resolves. *)
From Coq Require Import Lia.
From Verif Require Import Base IdModel TypeModel IrModel WorldModel LexerModel LexerProofs
  ParserModel ParserSpec ParserProofs FrontModel DriverModel DriverSpec FrontProofs DriverProofs
  FlowSpec FlowProofs BlockListProofs CleanProofs BuildCleanProofs FunCleanProofs FlowBuildProofs
  DriverProperties.

(** ** Texts and their trees *)
(** The driver, in a fresh process, returns a program for the text [t], whose trees are [ts]. *)
Definition accepted (t : string) (ts : list atop) : Prop :=
  ∃ s s' p b, driver_new (RByte <$> String.list_ascii_of_string t) = (Rok s, 0%N) ∧
    parses s ts s' ∧ read_program (RByte <$> String.list_ascii_of_string t) = (Rok p, 0%N, b) ∧
    builds (bstate0 ids0 0 0) ts b ∧ p = w_prog (b_world b).
(** A check by computation *)
Fixpoint trees_of (n : nat) (s : ps) : option (list atop) :=
  match n with
  | O => None
  | S n =>
      match parse_next s with
      | (Rok TEnd, _) => Some []
      | (Rok t, s') => ts ← trees_of n s'; Some (t :: ts)
      | _ => None
      end
  end.
Lemma trees_of_parses n : ∀ s ts, trees_of n s = Some ts → ∃ s', parses s ts s'.
Proof.
  induction n as [|n IH]; intros s ts H; [done|]. cbn [trees_of] in H.
  destruct (parse_next s) as [[t|f| |] s1] eqn:E; try done.
  assert (t = TEnd ∨ t ≠ TEnd) as [-> |Hne] by (destruct t; by (left + right)).
  { injection H as <-. exists s1. by constructor. }
  assert (H' : (ts ← trees_of n s1; Some (t :: ts)) = Some ts) by (by destruct t).
  apply bind_Some in H' as (ts' & Ht & E'). injection E' as <-.
  apply IH in Ht as [s' Hp]. exists s'. by eapply parses_next.
Qed.
Definition trees_text (t : string) : option (list atop) :=
  match driver_new (RByte <$> String.list_ascii_of_string t) with
  | (Rok s, _) => trees_of 20 s
  | _ => None
  end.
Lemma accepted_check t ts : run_text t = ("program", 0%N)%string → trees_text t = Some ts → accepted t ts.
Proof.
  unfold run_text, trees_text. intros H1 H2.
  destruct (read_program (RByte <$> String.list_ascii_of_string t)) as [[[p|f| |] n] b] eqn:E; simpl in H1;
    simplify_eq.
  pose proof E as Hr. unfold read_program in Hr.
  destruct (driver_new (RByte <$> String.list_ascii_of_string t)) as [d e0] eqn:Hd.
  destruct (generate_ok _ _ _ _ _ _ _ _ _ Hd Hr) as (-> & _ & s & ts' & s' & -> & Hp & _ & _ & _ & Hb & _ & ->).
  apply trees_of_parses in H2 as [s2 H2].
  assert (ts' = ts) as ->.
  { revert H2 Hp. clear. intros H. revert s2 ts' s' H. revert ts.
    assert (Hd : ∀ s ts s1, parses s ts s1 → ∀ ts' s1', parses s ts' s1' → ts = ts').
    { clear. intros s ts s1 H. induction H as [s s1 H|s t s1 ts s2 H Hne Hp IH]; intros ts' s1' H';
        inversion H' as [? ? G|? ? ? ? ? G Gne Gp]; subst; [done|congruence|congruence|].
      rewrite H in G. injection G as -> ->. f_equal. by eapply IH. }
    intros ts s2 ts' s' H1 H2. symmetry. by eapply Hd. }
  exists s, s', (w_prog (b_world b)), b. done.
Qed.

(** ** C30: panics *)

(** C30 is false: there are texts on which the driver panics. *)
Theorem C30_no_panic_refuted : ∃ t n, run_text t = ("panic"%string, n).
Proof. exists "fun @f() { %a: jump %b }"%string, 1%N. vm_compute. reflexivity. Qed.
Print Assumptions C30_no_panic_refuted.

(** A jump to an undefined block, an array type of length zero, a call with too few
    arguments, aggregates stored through pointers to pointers and to arrays of another
    length, a jump with too few arguments. *)
Example C30_witnesses :
  (run_text "fun @f() { %a: jump %b }").1 = "panic"%string ∧
  (run_text "decl @f([i32, 0])").1 = "panic"%string ∧
  (run_text "decl @f(i32) fun @g() { %a: call @f() ret
   }").1 = "panic"%string ∧
  (run_text "fun @g(@p: **i32) { %a: store {1}, @p ret
   }").1 = "panic"%string ∧
  (run_text "fun @g(@p: *[i32, 2]) { %a: store {1}, @p ret
   }").1 = "panic"%string ∧
  (run_text "fun @g() { %a: jump %b %b(%x: i32): ret
   }").1 = "panic"%string.
Proof. vm_compute. split_and!; reflexivity. Qed.

(** What is true: the lexer and the parser never panic, on any input. *)
Theorem C30_no_panic_partial : ∀ r d e0 s,
  driver_new r = (d, e0) → d ≠ Rpanic ∧
  (inv (p_lex s) → (parse_next s).1 ≠ Rpanic ∧ inv (p_lex (parse_next s).2)) ∧
  (d = Rok s → inv (p_lex s)).
Proof.
  intros r d e0 s H. apply driver_spec in H as (H1 & H2 & H3 & _). split_and!; [done| |].
  - intros Hi. destruct (fine_parse_next s Hi) as [[_ F1 F2 _ _ _ _ _] _]. done.
  - intros ->. by destruct (H3 s eq_refl) as (? & _).
Qed.
Print Assumptions C30_no_panic_partial.

(** ** C31: numbers of arguments *)

(** C31 is false: a call with too many arguments is accepted. *)
Definition extra_args : string :=
  "decl @f(i32) fun @g() { %a: call @f(1, 2, 3) ret
   }".
Theorem C31_argument_count_refuted : ∃ t ts f ps r g qs r' bbs b args,
  accepted t ts ∧ TFunDecl f ps r ∈ ts ∧ TFunDef g qs r' bbs ∈ ts ∧ b ∈ bbs ∧
  SCall f args ∈ b_stmts b ∧ length args ≠ length ps.
Proof.
  exists extra_args, [TFunDecl "@f" [AInt] None; TFunDef "@g" [] None
    [ABlock "%a" [] [SCall "@f" [VInt 1; VInt 2; VInt 3]; SRet None]]]%string.
  do 9 eexists. split_and!; [apply accepted_check; vm_compute; reflexivity|by left|by right; left|by left|by left|done].
Qed.
Print Assumptions C31_argument_count_refuted.

(** ** C32: symbols *)

(** C32: in every state whose predecessor lists mention only blocks, a symbol that is not a
    global variable is resolved, without changing the state, to a definition in the block or
    in one from which it can be reached; otherwise there is none and an error is reported. *)
Theorem C32_resolution : ∀ bb sym s,
  preds_closed (b_bbs s) → is_Some (b_bbs s !! bb) → b_gvars s !! sym = None →
  (∃ v, gen_symbol bb sym s = (Rok v, s) ∧ visible (b_bbs s) bb sym v) ∨
  (gen_symbol bb sym s = b_error s ∧ ∀ v, ¬ visible (b_bbs s) bb sym v).
Proof. exact gen_symbol_spec. Qed.
Print Assumptions C32_resolution.

(** C32: the predecessors that are recorded are the edges of the control flow, between the
    blocks that are kept; and at first the definitions in a block are its parameters, those
    in the entry the arguments of the function. *)
Theorem C32_predecessors : ∀ f args l s u s',
  clean (init_local_bbs f args l) s u s' → NoDup (map b_name l) →
  ∃ first, head l = Some first ∧
  (∀ n, is_Some (b_bbs s' !! n) ↔ n ∈ map b_name l) ∧
  (∀ t p, pred_of (b_bbs s') t p ↔ ∃ b, b ∈ l ∧ p = b_name b ∧ succ b t) ∧
  (∀ b t, b ∈ l → succ b t → t ∈ map b_name l) ∧
  (∀ b x, b ∈ l → b ≠ first → ((∃ v, defines (b_bbs s') (b_name b) x v) ↔ x ∈ param_names b)) ∧
  (∀ x v, defines (b_bbs s') (b_name first) x v ↔ args !! x = Some v).
Proof. exact clean_init_local. Qed.
Print Assumptions C32_predecessors.

(** C32: when the builder comes to block [b], a symbol defined in a block that dominates [b]
    (by an instruction, a block parameter, or for the entry an argument of the function) is
    resolved to that definition, if no block parameter has the name of an argument. *)
Theorem C32_dominating : ∀ f ret args bbs entry s0 l s1 s2 l1 b l2 s3 d x,
  clean (get_block_list bbs) s0 l s1 → head bbs = Some entry →
  clean (init_local_bbs f args l) s1 tt s2 →
  l = l1 ++ b :: l2 → clean (b_each (build_block f ret) l1) s2 tt s3 →
  dominates bbs entry d b → d ∈ bbs → d ≠ b →
  (x ∈ body_names d ∨
   (if decide (b_name d = b_name entry) then is_Some (args !! x) else x ∈ param_names d)) →
  (∀ b x, b ∈ l → x ∈ param_names b → args !! x = None) →
  b_gvars s3 !! x = None →
  ∃ v, gen_symbol (b_name b) x s3 = (Rok v, s3) ∧ defines (b_bbs s3) (b_name d) x v.
Proof. exact dominating_found. Qed.
Print Assumptions C32_dominating.

(** The stages of building a function until block number [k], by computation. *)
Definition cleanly {A} (m : F A) (s : bstate) : option (A * bstate) :=
  match m s with
  | (Rok a, s') => if (b_errs s' =? b_errs s)%N then Some (a, s') else None
  | _ => None
  end.
Lemma cleanly_clean {A} (m : F A) s a s' : cleanly m s = Some (a, s') → clean m s a s'.
Proof.
  unfold cleanly, clean. destruct (m s) as [[x|?| |] s1]; try done.
  destruct (b_errs s1 =? b_errs s)%N eqn:E; intros [= -> ->]. split; [done|by apply N.eqb_eq].
Qed.
Definition stages (ret : ty) (bbs : list ablock) (k : nat) : option (func * list ablock * bstate * bstate * bstate * bstate) :=
  w_new_func_def "@f" [] ret (World ids0 program0) ≫= λ (p : func * world), let (f, w) := p in
  let s0 := set_world w (bstate0 ids0 0 0) in
  cleanly (get_block_list bbs) s0 ≫= λ (p : list ablock * bstate), let (l, s1) := p in
  cleanly (init_local_bbs f ∅ l) s1 ≫= λ (p : unit * bstate), let (_, s2) := p in
  cleanly (b_each (build_block f ret) (take k l)) s2 ≫= λ (p : unit * bstate), let (_, s3) := p in
  Some (f, l, s0, s1, s2, s3).
Definition dom_blocks : list ablock :=
  [ABlock "%e" [] [SJump "%d" []];
   ABlock "%d" [] [SDef "%x" (EBin Add (VInt 1) (VInt 2)); SBr (VSym "%x") "%l" [] "%r" []];
   ABlock "%l" [] [SJump "%b" []];
   ABlock "%r" [] [SJump "%d" []];
   ABlock "%b" [] [SRet (Some (VSym "%x"))]]%string.
Definition dom_d : ablock :=
  ABlock "%d" [] [SDef "%x" (EBin Add (VInt 1) (VInt 2)); SBr (VSym "%x") "%l" [] "%r" []]%string.
Definition dom_b : ablock := ABlock "%b" [] [SRet (Some (VSym "%x"))]%string.
(** A function with a loop in which block [%d] dominates the last block. *)
Example C32_example : ∃ f entry s0 l s1 s2 l1 l2 s3,
  clean (get_block_list dom_blocks) s0 l s1 ∧ head dom_blocks = Some entry ∧
  clean (init_local_bbs f ∅ l) s1 tt s2 ∧ NoDup (map b_name l) ∧
  l = l1 ++ dom_b :: l2 ∧ clean (b_each (build_block f TInt32) l1) s2 tt s3 ∧
  dominates dom_blocks entry dom_d dom_b ∧ dom_d ∈ dom_blocks ∧ dom_d ≠ dom_b ∧
  "%x"%string ∈ body_names dom_d ∧
  (∀ b x, b ∈ l → x ∈ param_names b → (∅ : gmap string value) !! x = None) ∧
  b_gvars s3 !! "%x"%string = None ∧ entry ≠ dom_d.
Proof.
  assert (H : ∃ f l s0 s1 s2 s3, stages TInt32 dom_blocks 4 = Some (f, l, s0, s1, s2, s3) ∧
    l = take 4 l ++ [dom_b] ∧ map b_name l = ["%e"; "%d"; "%l"; "%r"; "%b"]%string ∧
    b_gvars s3 !! "%x"%string = None).
  { assert (Hc : match stages TInt32 dom_blocks 4 with
      | Some (f, l, s0, s1, s2, s3) => Some (l, b_gvars s3 !! "%x"%string) | None => None end =
      Some ([ABlock "%e" [] [SJump "%d" []]; dom_d; ABlock "%l" [] [SJump "%b" []];
        ABlock "%r" [] [SJump "%d" []]; dom_b]%string, None)) by (vm_compute; reflexivity).
    destruct (stages TInt32 dom_blocks 4) as [[[[[[f l] s0] s1] s2] s3]|]; [|done].
    injection Hc as -> Hg. exists f. do 5 eexists. split; [done|]. done. }
  destruct H as (f & l & s0 & s1 & s2 & s3 & H & El & En & Hg). unfold stages in H.
  apply bind_Some in H as ([f' w] & _ & H). apply bind_Some in H as ([l' s1'] & H1 & H).
  apply bind_Some in H as ([[] s2'] & H2 & H). apply bind_Some in H as ([[] s3'] & H3 & H).
  injection H as <- <- <- <- <- <-.
  apply cleanly_clean in H1, H2, H3.
  exists f'. do 8 eexists. split_and!; [exact H1|done|exact H2| |exact El|exact H3| |by right; left|done|by left|done|done|done].
  - rewrite En. repeat constructor; set_solver.
  - intros Hv. inversion Hv as [|? c ? Hne Hs Hc Hv']; subst.
    destruct Hs as (body & fin & Hb & Hg'). destruct body as [|? []]; try done. injection Hb as <-. simpl in Hg'.
    assert (c = dom_d) as ->.
    { repeat (apply elem_of_cons in Hc as [-> |Hc]; [done|]). by apply elem_of_nil in Hc. }
    by inversion Hv'.
Qed.

(** ** C33: definitions and uses *)

(** C33 is false: a text is accepted in which a use is not dominated by its definition. *)
Definition not_ssa : string :=
  "fun @g(%c: i32): i32 { %e: br %c, %a, %b %a: %x = add 1, 2 jump %d %b: jump %d %d: ret %x }".
Theorem C33_ssa_refuted : ∃ t ts f ps r bbs,
  accepted t ts ∧ TFunDef f ps r bbs ∈ ts ∧ ¬ ssa_form bbs.
Proof.
  set (e := ABlock "%e" [] [SBr (VSym "%c") "%a" [] "%b" []]%string).
  set (a := ABlock "%a" [] [SDef "%x" (EBin Add (VInt 1) (VInt 2)); SJump "%d" []]%string).
  set (b := ABlock "%b" [] [SJump "%d" []]%string).
  set (d := ABlock "%d" [] [SRet (Some (VSym "%x"))]%string).
  exists not_ssa, [TFunDef "@g" [("%c", AInt)] (Some AInt) [e; a; b; d]]%string.
  do 4 eexists. split_and!; [apply accepted_check; vm_compute; reflexivity|by left|].
  intros H. assert (Hp : succ e "%b"%string ∧ succ b "%d"%string).
  { split; (exists []; eexists; split; [reflexivity|]); simpl; auto. }
  destruct Hp as [P1 P2].
  destruct (H e d a "%x"%string) as [_ Hd]; [done|set_solver| |set_solver| |set_solver|].
  - exists 2. apply (bpath_cons _ _ _ b); [done|set_solver|].
    apply (bpath_cons _ _ _ d); [done|set_solver|]. constructor.
  - exists [], (SRet (Some (VSym "%x"%string))), []. split_and!; [done|by left|by intros ?%elem_of_nil..].
  - apply Hd. apply (avoids_cons _ _ _ b); [done|done|set_solver|].
    apply (avoids_cons _ _ _ d); [done|done|set_solver|]. by constructor.
Qed.
Print Assumptions C33_ssa_refuted.

(** ** C34: blocks *)

(** C34: for blocks with distinct names, the blocks that are kept are exactly those that can
    be reached from the entry, each once, the entry first, in an order of nondecreasing
    distance; an error is reported exactly if control can flow from a kept block to the
    entry or to no block, and the others are counted in warnings. *)
Theorem C34_blocks_kept : ∀ first rest s l s',
  NoDup (map b_name (first :: rest)) →
  get_block_list (first :: rest) s = (Rok l, s') →
  let bbs := first :: rest in
  head l = Some first ∧ NoDup l ∧ NoDup (map b_name l) ∧
  (∀ b, b ∈ l ↔ reachable bbs first b) ∧
  (∀ i j x y n, l !! i = Some x → l !! j = Some y → i ≤ j → bpath bbs n first y →
     ∃ m, bpath bbs m first x ∧ m ≤ n) ∧
  (b_errs s' = b_errs s ↔
     ∀ b t, b ∈ l → succ b t → t ≠ b_name first ∧ t ∈ map b_name bbs) ∧
  (b_warns s' = b_warns s + N.of_nat (length bbs - length l))%N.
Proof. exact get_block_list_spec. Qed.
Print Assumptions C34_blocks_kept.

(** Blocks with the same name are always reported. *)
Theorem C34_block_names : ∀ bbs s l s',
  clean (get_block_list bbs) s l s' → NoDup (map b_name bbs).
Proof. by intros bbs s l s' (? & ? & ? & -> & _ & ? & _)%clean_block_list. Qed.
Print Assumptions C34_block_names.

(** Unreachable blocks, a loop, and blocks in another order than in the text. *)
Definition flow_blocks : list ablock :=
  [ABlock "%e" [] [SBr (VInt 1) "%c" [] "%b" []];
   ABlock "%b" [] [SJump "%c" []];
   ABlock "%u" [] [SJump "%b" []];
   ABlock "%c" [] [SBr (VInt 0) "%b" [] "%x" []];
   ABlock "%x" [] [SRet None]]%string.
Example C34_example :
  NoDup (map b_name flow_blocks) ∧
  match get_block_list flow_blocks (bstate0 ids0 0 0) with
  | (Rok l, s) => (map b_name l, b_errs s, b_warns s)
  | _ => ([], 0%N, 0%N)
  end = (["%e"; "%c"; "%b"; "%x"]%string, 0%N, 1%N).
Proof. split; [|vm_compute; reflexivity]. repeat constructor; set_solver. Qed.

(** ** C35: duplicate definitions *)

(** C35, for what the builder checks: in an accepted text the names of the global variables
    and functions are distinct; in each function the names of the parameters and of the
    blocks are distinct, and in the blocks that can be reached no name is defined twice, nor
    has the name of an earlier global variable, and no instruction redefines a parameter.
    Not covered, and false (below): blocks that cannot be reached, and parameters of the
    function against those of its blocks and against global variables. *)
Theorem C35_names_once_partial : ∀ r d e0 i e w p n b,
  driver_new r = (d, e0) → generate i d e w = (Rok p, n, b) →
  ∃ s ts s', d = Rok s ∧ parses s ts s' ∧
    NoDup (concat (map (λ t, gvar_names t ++ gfun_names t) ts)) ∧
    ∀ ts1 f ps r' bbs ts2, ts = ts1 ++ TFunDef f ps r' bbs :: ts2 →
      fun_once (concat (map gvar_names ts1)) ps bbs.
Proof.
  intros r d e0 i e w p n b Hd Hg.
  destruct (generate_ok _ _ _ _ _ _ _ _ _ Hd Hg) as (_ & _ & s & ts & s' & -> & Hp & _ & _ & _ & Hb & _).
  exists s, ts, s'. split_and!; [done|done|by eapply builds_once..].
Qed.
Print Assumptions C35_names_once_partial.

(** Duplicates of each kind are reported. *)
Example C35_example :
  run_text "global @x = alloc i32, 1 decl @x()" = ("error", 1%N)%string ∧
  run_text "decl @x() fun @x() { %e: ret
   }" = ("error", 1%N)%string ∧
  run_text "fun @x(%a: i32, %a: i32) { %e: ret
   }" = ("error", 1%N)%string ∧
  run_text "fun @x() { %e: jump %f %f: ret
   %f: ret
   }" = ("error", 1%N)%string ∧
  run_text "fun @x(%a: i32) { %e: %a = add 1, 2 ret
   }" = ("error", 1%N)%string ∧
  run_text "global @g = alloc i32, 1 fun @x(%a: i32) { %e: @g = alloc i32 ret
   }" = ("error", 1%N)%string ∧
  run_text "fun @x(%a: i32) { %e: %x = add 1, 2 jump %f(%x) %f(%b: i32): %x = add 2, 3 ret
   }" = ("error", 1%N)%string ∧
  run_text "global @g = alloc i32, 1 fun @x(%a: i32) { %e: %x = add 1, 2 jump %f(%x) %f(%b: i32): ret
   }" = ("program", 0%N)%string.
Proof. vm_compute. split_and!; reflexivity. Qed.

(** C35 is false: a parameter of a block may have the name of a parameter of the function. *)
Definition same_param : string :=
  "fun @g(%x: i32) { %e: jump %a(1) %a(%x: i32): ret
   }".
Theorem C35_block_param_refuted : ∃ t ts f ps r bbs b x,
  accepted t ts ∧ TFunDef f ps r bbs ∈ ts ∧ b ∈ bbs ∧ x ∈ map fst ps ∧ x ∈ param_names b.
Proof.
  exists same_param, [TFunDef "@g" [("%x", AInt)] None
    [ABlock "%e" [] [SJump "%a" [VInt 1]]; ABlock "%a" [("%x", AInt)] [SRet None]]]%string.
  do 5 eexists. exists "%x"%string. split_and!; [apply accepted_check; vm_compute; reflexivity|by left|by right; left|by left..].
Qed.
Print Assumptions C35_block_param_refuted.

(** C35 is false: a parameter may have the name of a global variable. *)
Definition same_global : string :=
  "global @x = alloc i32, 1 fun @g(@x: i32) { %e: ret
   }".
Theorem C35_global_refuted : ∃ t ts f ps r bbs x a i,
  accepted t ts ∧ TFunDef f ps r bbs ∈ ts ∧ TGlobal x a i ∈ ts ∧ x ∈ map fst ps.
Proof.
  exists same_global, [TGlobal "@x" AInt (IInt 1); TFunDef "@g" [("@x", AInt)] None
    [ABlock "%e" [] [SRet None]]]%string.
  do 7 eexists. split_and!; [apply accepted_check; vm_compute; reflexivity|by right; left|by left|by left].
Qed.
Print Assumptions C35_global_refuted.

(** C35 is false: names may be defined twice in a block that cannot be reached. *)
Definition same_unreachable : string :=
  "fun @g() { %e: ret
   %u: %z = add 1, 2 %z = add 1, 2 ret
   }".
Theorem C35_unreachable_refuted : ∃ t ts f ps r bbs b,
  accepted t ts ∧ TFunDef f ps r bbs ∈ ts ∧ b ∈ bbs ∧ ¬ NoDup (body_names b).
Proof.
  exists same_unreachable, [TFunDef "@g" [] None [ABlock "%e" [] [SRet None];
    ABlock "%u" [] [SDef "%z" (EBin Add (VInt 1) (VInt 2)); SDef "%z" (EBin Add (VInt 1) (VInt 2)); SRet None]]]%string.
  do 5 eexists. split_and!; [apply accepted_check; vm_compute; reflexivity|by left|by right; left|].
  cbn. intros H. apply list.NoDup_cons in H as [H _]. apply H. by left.
Qed.
Print Assumptions C35_unreachable_refuted.
