(** C49: well-formed texts are accepted. *)
From Coq Require Import Lia ZifyBool ZifyNat ZifyN.
From Verif Require Import Base IdModel TypeModel IrModel WorldModel LexerModel ParserModel ParserSpec ParserProofs FrontModel
  FlowSpec DriverModel DriverSpec DriverProofs DriverProperties FrontProperties HistoryProofs FaithSpec AcceptSpec AcceptTopProofs.

(** C49: if a text is parsed without errors, and its syntax trees are well formed and not of
    more than 2^30 parts, then the front end returns a program and reports no error. *)
Theorem C49_well_formed_accepted : ∀ r s ts s',
  driver_new r = (Rok s, 0%N) → parses s ts s' → perrs s' = 0%N → well_formed ts → small ts →
  ∃ p b, read_program r = (Rok p, 0%N, b).
Proof.
  intros r s ts s' Hd Hp He Hw Hs. destruct (well_formed_builds ts Hw Hs) as (b & Hb).
  exists (w_prog (b_world b)), b. unfold read_program. rewrite Hd. by eapply generate_accepts.
Qed.
Print Assumptions C49_well_formed_accepted.

(** *** A text with a loop, arguments of blocks, calls and memory *)
Definition loop_text : string :=
  "global @g = alloc [i32, 2], {1, 2}
   decl @f(i32): i32
   fun @main(@n: i32): i32 {
   %e: jump %loop(@n)
   %loop(%i: i32): %p = getelemptr @g, %i
     br %i, %body, %exit
   %body: %x = call @f(%i) store %x, %p %y = load %p jump %loop(%y)
   %exit: %r = call @main(%i) ret %r
   }".
Definition le : ablock := ABlock "%e" [] [SJump "%loop" [VSym "@n"]].
Definition ll : ablock := ABlock "%loop" [("%i", AInt)] [SDef "%p" (EGetElemPtr "@g" (VSym "%i")); SBr (VSym "%i") "%body" [] "%exit" []].
Definition lb : ablock := ABlock "%body" [] [SDef "%x" (ECall "@f" [VSym "%i"]); SStore (SvSym "%x") "%p"; SDef "%y" (ELoad "%p"); SJump "%loop" [VSym "%y"]].
Definition lx : ablock := ABlock "%exit" [] [SDef "%r" (ECall "@main" [VSym "%i"]); SRet (Some (VSym "%r"))].
Definition lmain : atop := TFunDef "@main" [("@n", AInt)] (Some AInt) [le; ll; lb; lx].
Definition lpre : list atop := [TGlobal "@g" (AArr AInt 2) (IAggr [IInt 1; IInt 2]); TFunDecl "@f" [AInt] (Some AInt)].
Definition lty (n : string) : ty := if String.eqb n "%p" then TPtr TInt32 else TInt32.
Lemma loop_trees : trees_text loop_text = Some (lpre ++ [lmain]).
Proof. vm_compute. reflexivity. Qed.

Ltac spells := by (eexists _, _, _; split; [reflexivity|]; auto).
Lemma loop_order : in_order [le; ll; lb; lx] [le; ll; lb; lx].
Proof.
  exists le. split; [done|]. split; [|vm_compute; reflexivity]. intros b. split; [|by intros [? _]]. intros Hb. split; [done|].
  assert (S1 : succ le "%loop"%string) by (exists [], (SJump "%loop" [VSym "@n"]); by split).
  assert (S2 : ∀ n, n = "%body"%string ∨ n = "%exit"%string → succ ll n).
  { intros n Hn. exists [SDef "%p" (EGetElemPtr "@g" (VSym "%i"))]. eexists. split; [reflexivity|]. simpl. tauto. }
  assert (Hl : bpath [le; ll; lb; lx] 1 le ll).
  { apply (bpath_cons _ _ _ ll); [exact S1|set_solver|constructor]. }
  assert (Hn : ∀ c, c = lb ∨ c = lx → bpath [le; ll; lb; lx] 2 le c).
  { intros c Hc. apply (bpath_cons _ _ _ ll); [exact S1|set_solver|]. apply (bpath_cons _ _ _ c); [|set_solver|constructor].
    apply S2. destruct Hc as [-> | ->]; simpl; auto. }
  repeat (apply elem_of_cons in Hb as [-> |Hb]).
  - exists 0. constructor.
  - by exists 1.
  - exists 2. auto.
  - exists 2. auto.
  - by apply elem_of_nil in Hb.
Qed.
Lemma loop_reach : ∀ d b, d ∈ [le; ll] → b ∈ [ll; lb; lx] → FlowSpec.reachable [le; ll; lb; lx] d b.
Proof.
  assert (S1 : succ le "%loop"%string) by (exists [], (SJump "%loop" [VSym "@n"]); by split).
  assert (S2 : ∀ n, n = "%body"%string ∨ n = "%exit"%string → succ ll n).
  { intros n Hn. exists [SDef "%p" (EGetElemPtr "@g" (VSym "%i"))]. eexists. split; [reflexivity|]. simpl. tauto. }
  assert (Hx : ∀ b, b ∈ [ll; lb; lx] → FlowSpec.reachable [le; ll; lb; lx] ll b).
  { intros b [-> |Hb]%elem_of_cons; [exists 0; constructor|]. exists 1. apply (bpath_cons _ _ _ b); [|set_solver|constructor].
    apply S2. apply elem_of_cons in Hb as [-> |Hb]; [by left|]. apply elem_of_list_singleton in Hb as ->. by right. }
  intros d b [-> |Hd]%elem_of_cons Hb.
  - destruct (Hx b Hb) as [k Hk]. exists (S k). apply (bpath_cons _ _ _ ll); [exact S1|set_solver|exact Hk].
  - apply elem_of_list_singleton in Hd as ->. by apply Hx.
Qed.
Lemma loop_well_formed : well_formed (lpre ++ [lmain]).
Proof.
  intros pre t post E. destruct pre as [|t1 [|t2 [|t3 pre]]]; simpl in E.
  - injection E as <- <-. split.
    + apply list.Forall_cons. split; [|constructor]. split; [spells|by intros ?%elem_of_nil].
    + exists (TArray TInt32 2). split; [by repeat constructor|]. apply (io_aggr [IInt 1; IInt 2] TInt32); [done|done|repeat constructor].
  - injection E as <- <- <-. split.
    + apply list.Forall_cons. split; [|constructor]. split; [spells|]. simpl. by intros ?%elem_of_list_singleton.
    + exists [TInt32], TInt32. split; [repeat constructor|constructor].
  - injection E as <- <- <- <-. split.
    + apply list.Forall_cons. split; [|constructor]. split; [spells|]. cbn. by intros [?|?%elem_of_list_singleton]%elem_of_cons.
    + exists TInt32, [le; ll; lb; lx], lty. split; [constructor|]. fold lpre. fold lmain.
      assert (Hf : fun_in (lpre ++ [lmain]) "@f" [TInt32] TInt32).
      { exists [AInt], (Some AInt). split; [left; set_solver|]. split; repeat constructor. }
      assert (Hm : fun_in (lpre ++ [lmain]) "@main" [TInt32] TInt32).
      { exists [AInt], (Some AInt). split; [right; exists [("@n"%string, AInt)], [le; ll; lb; lx]; split; [done|set_solver]|]. split; repeat constructor. }
      assert (Hg : var_in lpre "@g" (TPtr (TArray TInt32 2))).
      { exists (AArr AInt 2), (IAggr [IInt 1; IInt 2]), (TArray TInt32 2). split; [set_solver|]. split; [by repeat constructor|done]. }
      assert (Bl : blk_in [le; ll; lb; lx] "%loop" [TInt32]) by (exists ll; split; [set_solver|]; split; [done|repeat constructor]).
      assert (Bb : blk_in [le; ll; lb; lx] "%body" []) by (exists lb; split; [set_solver|]; split; [done|constructor]).
      assert (Bx : blk_in [le; ll; lb; lx] "%exit" []) by (exists lx; split; [set_solver|]; split; [done|constructor]).
      constructor.
      * cbn. by apply (bool_decide_unpack _).
      * apply loop_order.
      * intros b Hb. repeat (apply elem_of_cons in Hb as [-> |Hb]); [..|by apply elem_of_nil in Hb].
        -- by exists [], (SJump "%loop" [VSym "@n"]).
        -- by exists [SDef "%p" (EGetElemPtr "@g" (VSym "%i"))], (SBr (VSym "%i") "%body" [] "%exit" []).
        -- by exists [SDef "%x" (ECall "@f" [VSym "%i"]); SStore (SvSym "%x") "%p"; SDef "%y" (ELoad "%p")], (SJump "%loop" [VSym "%y"]).
        -- by exists [SDef "%r" (ECall "@main" [VSym "%i"])], (SRet (Some (VSym "%r"))).
      * intros b n Hb (body & fin & Es & Hs). assert (Hlast : list.last (b_stmts b) = Some fin) by (rewrite Es; apply last_snoc). clear Es.
        repeat (apply elem_of_cons in Hb as [-> |Hb]); [..|by apply elem_of_nil in Hb]; injection Hlast as <-; cbn in Hs; cbn;
          repeat match goal with H : _ ∨ _ |- _ => destruct H | H : False |- _ => destruct H end; subst; (split; [set_solver|done]).
      * cbn. repeat (apply list.Forall_cons; split; [spells|]). constructor.
      * cbn. by apply (bool_decide_unpack _).
      * intros n t Hn (a & i & t0 & H & _). apply elem_of_cons in H as [H|H%elem_of_list_singleton]; [|done]. injection H as -> -> ->.
        revert Hn. cbn. by apply (bool_decide_unpack _).
      * intros n a Hn. cbn in Hn. repeat (apply elem_of_cons in Hn as [[= -> ->]|Hn]); [constructor..|by apply elem_of_nil in Hn].
      * intros front b rest sts st after El Eb.
        assert (Hi : ∀ c, c ∈ [ll; lb; lx] → ∀ fr q, usable [("@n"%string, AInt)] [le; ll; lb; lx] fr c q "%i").
        { intros c Hc fr q. exists ll. split; [set_solver|]. split; [apply loop_reach; set_solver|]. left. cbn. by left. }
        assert (Hp : ∀ c, c ∈ [lb; lx] → ∀ q, usable [("@n"%string, AInt)] [le; ll; lb; lx] [le; ll] c q "%p").
        { intros c Hc q. exists ll. split; [set_solver|]. split; [apply loop_reach; set_solver|]. right. left. split; [set_solver|]. cbn. by left. }
        assert (Hown : ∀ c fr q n, c ∈ [le; ll; lb; lx] → n ∈ concat (map stmt_defs q) → usable [("@n"%string, AInt)] [le; ll; lb; lx] fr c q n).
        { intros c fr q n Hc Hn. exists c. split; [done|]. split; [exists 0; constructor|]. right. right. done. }
        destruct front as [|f1 [|f2 [|f3 [|f4 front]]]]; simpl in El; [..|by destruct front].
        -- injection El as <- <-. destruct sts as [|? [|? ?]]; simpl in Eb; [injection Eb as <- <-|done..].
           exists [TInt32]. split; [done|]. constructor; [|constructor]. right. split; [|done].
           exists le. split; [set_solver|]. split; [exists 0; constructor|]. left. cbn. by left.
        -- injection El as <- <- <-. destruct sts as [|? [|? [|? ?]]]; simpl in Eb; [injection Eb as <- <-|injection Eb as <- <- <-|done..].
           ++ split; [done|]. exists TInt32, 2%N. split; [done|]. split; [by left|]. right. split; [|done]. apply Hi. set_solver.
           ++ split; [right; split; [apply Hi; set_solver|done]|]. split; [by exists []|]. split; [by exists []|done].
        -- injection El as <- <- <- <-. destruct sts as [|? [|? [|? [|? [|? ?]]]]]; simpl in Eb;
             [injection Eb as <- <-|injection Eb as <- <- <-|injection Eb as <- <- <- <-|injection Eb as <- <- <- <- <-|done..].
           ++ split; [done|]. exists [TInt32]. split; [done|]. constructor; [|constructor]. right. split; [apply Hi; set_solver|done].
           ++ exists TInt32. split; [right; split; [apply Hp; set_solver|done]|]. right. split; [apply Hown; [set_solver|by left]|done].
           ++ split; [done|]. right. split; [apply Hp; set_solver|done].
           ++ exists [TInt32]. split; [done|]. constructor; [|constructor]. right. split; [apply Hown; [set_solver|cbn; by right; left]|done].
        -- injection El as <- <- <- <- <-. destruct sts as [|? [|? [|? ?]]]; simpl in Eb; [injection Eb as <- <-|injection Eb as <- <- <-|done..].
           ++ split; [done|]. exists [TInt32]. split; [done|]. constructor; [|constructor]. right. split; [apply Hi; set_solver|done].
           ++ split; [done|]. right. split; [apply Hown; [set_solver|by left]|done].
  - by destruct pre.
Qed.
Lemma accepted_clean r s ts s' p b : driver_new r = (Rok s, 0%N) → parses s ts s' → read_program r = (Rok p, 0%N, b) →
  ∃ s', parses s ts s' ∧ perrs s' = 0%N.
Proof.
  intros Hd Hp Hr. unfold read_program in Hr. rewrite Hd in Hr.
  destruct (generate_ok _ _ _ _ _ _ _ _ _ Hd Hr) as (_ & _ & s2 & ts2 & s2' & [= <-] & Hp2 & He & _).
  rewrite (parses_det _ _ _ Hp _ _ Hp2) in Hp2. by exists s2'.
Qed.
Example C49_example : ∃ s s', driver_new (RByte <$> String.list_ascii_of_string loop_text) = (Rok s, 0%N) ∧
  parses s (lpre ++ [lmain]) s' ∧ perrs s' = 0%N ∧ well_formed (lpre ++ [lmain]) ∧ small (lpre ++ [lmain]).
Proof.
  destruct (accepted_check loop_text (lpre ++ [lmain])) as (s & s' & p & b & Hd & Hp & Hr & _); [vm_compute; reflexivity|exact loop_trees|].
  destruct (accepted_clean _ _ _ _ _ _ Hd Hp Hr) as (s2 & Hp2 & He). clear Hr. exists s, s2. split; [exact Hd|]. split; [exact Hp2|]. split; [exact He|].
  split; [exact loop_well_formed|vm_compute; reflexivity].
Qed.
