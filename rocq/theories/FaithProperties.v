(** C48: the program built by the front end is the text. *)
From Coq Require Import Lia.
From Verif Require Import Base IdModel TypeModel IrModel WorldModel LexerModel ParserModel ParserSpec FrontModel
  LayoutModel DfgSpec FlowSpec DriverModel DriverSpec DriverProperties FrontProperties HistoryProperties FaithSpec FaithTopProofs.

(** C48: if the driver returns a program for a text, then the program has the global variables
    and the functions of the text, in this order, with their names, types and initializers; the
    blocks of each function are those of the text that can be reached from the first one, in the
    order in which the ends of blocks mention them; each block has the parameters and the
    instructions of the text, in this order; each operand is the constant of the text, or the
    global variable or a value of the function that the text gives this name; only surplus
    arguments are dropped.  See FaithSpec. *)
Theorem C48_program_is_text : ∀ r p n b s ts s',
  read_program r = (Rok p, n, b) → driver_new r = (Rok s, 0%N) → parses s ts s' →
  (foldr (λ t n, globals_in t + n) 0 ts < local_value_id_starts_from)%N →
  faithful p ts.
Proof. exact read_faithful. Qed.
Print Assumptions C48_program_is_text.

(** A loop with block parameters, calls, globals, blocks in another order than reached, an
    unreachable block, and names that are not kept. *)
Definition faith_text : string :=
  "global @g = alloc [[i32, 2], 2], {{1, 2}, zeroinit} decl @f(i32, *i32): i32
   fun @h(@n: i32): i32 {
   %entry: %0 = getelemptr @g, @n %1 = getelemptr %0, 1 jump %loop(0, @n)
   %end: store %s, %1 ret %s
   %dead: ret 0
   %body: %v = load %1 %r = call @f(%v, %1) %t = add %s, %r %j = add %i, 1 jump %loop(%j, %t)
   %loop(%i: i32, %s: i32): %c = lt %i, 10 br %c, %body, %end
   }".
Example C48_example : ∃ p b s ts s',
  read_program (RByte <$> String.list_ascii_of_string faith_text) = (Rok p, 0%N, b) ∧
  driver_new (RByte <$> String.list_ascii_of_string faith_text) = (Rok s, 0%N) ∧
  parses s ts s' ∧ length ts = 3 ∧
  (0 < foldr (λ t n, globals_in t + n) 0 ts < local_value_id_starts_from)%N.
Proof.
  destruct (trees_text faith_text) as [ts|] eqn:E; [|vm_compute in E; discriminate].
  assert (Hn : match trees_text faith_text with
    | Some ts => (length ts =? 3)%nat && (0 <? foldr (λ t n, globals_in t + n) 0 ts)%N &&
        (foldr (λ t n, globals_in t + n) 0 ts <? local_value_id_starts_from)%N
    | None => false end = true) by (vm_compute; reflexivity).
  rewrite E in Hn. apply andb_true_iff in Hn as [Hn1 Hn3]. apply andb_true_iff in Hn1 as [Hn1 Hn2].
  destruct (accepted_check faith_text ts) as (s & s' & p & b & H1 & H2 & H3 & _); [vm_compute; reflexivity|done|].
  exists p, b, s, ts, s'. split_and!; [done..|by apply Nat.eqb_eq|by apply N.ltb_lt|by apply N.ltb_lt].
Qed.

(** The specification tells programs apart: a function that returns 1 is not the text of a
    function that returns 2. *)
Definition returns_one (p : program) : bool :=
  match p_func_layout p with
  | [f] =>
      match p_funcs p !! f with
      | Some fd =>
          match l_bbs (f_layout fd) with
          | [(_, [v])] =>
              match vals fd !! v with
              | Some d =>
                  match v_kind d with
                  | KReturn (Some w) =>
                      match vals fd !! w with
                      | Some e => match v_kind e with KInteger z => (z =? 1)%Z | _ => false end
                      | None => false
                      end
                  | _ => false
                  end
              | None => false
              end
          | _ => false
          end
      | None => false
      end
  | _ => false
  end.
Definition one_text : string := "fun @f(): i32 { %e: ret 1 }".
Example C48_distinguishes : ∃ p b,
  read_program (RByte <$> String.list_ascii_of_string one_text) = (Rok p, 0%N, b) ∧
  ¬ faithful p [TFunDef "@f" [] (Some AInt) [ABlock "%e" [] [SRet (Some (VInt 2))]]].
Proof.
  assert (Hc : match read_program (RByte <$> String.list_ascii_of_string one_text) with
    | (Rok p, 0%N, _) => returns_one p | _ => false end = true) by (vm_compute; reflexivity).
  destruct (read_program (RByte <$> String.list_ascii_of_string one_text)) as [[[p| | |] [|]] b] eqn:Hr; try discriminate Hc.
  exists p, b. split; [reflexivity|]. clear Hr. intros (G & Fn & _ & HF & _). unfold returns_one in Hc.
  destruct (p_func_layout p) as [|f [|]]; try discriminate Hc.
  change (filter _ _) with [TFunDef "@f" [] (Some AInt) [ABlock "%e" [] [SRet (Some (VInt 2))]]] in HF.
  inversion HF as [|? ? ? ? (fd & Hfd & _ & His) _]; subst. clear HF.
  destruct His as (_ & _ & _ & L & B & l & _ & Ho & _ & _ & _ & _ & Hb).
  rewrite Hfd in Hc. destruct (l_bbs (f_layout fd)) as [|[h [|v [|]]] [|]]; try discriminate Hc.
  inversion Hb as [|? b0 ? l0 (_ & _ & Hs) Hl0]; subst. inversion Hl0; subst. clear Hb Hl0.
  destruct Ho as (entry & _ & Hin & _). assert (b0 ∈ [b0]) as Hb0 by by left. apply Hin in Hb0 as [Hb0 _].
  apply elem_of_list_singleton in Hb0 as ->. simpl in Hs.
  inversion Hs as [|? ? ? ? (t & k & Hk & Hx) _]; subst. clear Hs. simpl in Hx. destruct Hx as (w & -> & Hw).
  unfold datas in Hk. rewrite lookup_fmap in Hk. destruct (vals fd !! v) as [d|]; [|discriminate].
  injection Hk as _ Hk. rewrite Hk in Hc. simpl in Hw. inversion Hw as [? t2 z Hz| | |]; subst.
  unfold datas in Hz. rewrite lookup_fmap in Hz. destruct (vals fd !! w) as [e|]; [|discriminate].
  injection Hz as _ Hz. rewrite Hz in Hc. discriminate.
Qed.
