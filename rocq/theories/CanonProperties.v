(** C28: canonical texts are written back byte by byte. *)
From Coq Require Import Lia.
From Verif Require Import Base IdModel TypeModel IrModel WorldModel LexerModel ParserModel ParserSpec
  FrontModel DriverModel DriverSpec FlowSpec PrintSpec KoopaModel FaithSpec CanonSpec CanonReadProofs FrontProperties.

(** C28: if the text of canonical definitions is accepted, the text of the program is the
    same.  The bound on the number of values in initializers is where identifiers of global
    values run out. *)
Theorem C28_canonical_text : ∀ gs fs p n b,
  canonical gs fs →
  (foldr (λ t n, globals_in t + n) 0 (gs ++ fs) < local_value_id_starts_from)%N →
  read_program (RByte <$> String.list_ascii_of_string (text_program gs fs)) = (Rok p, n, b) →
  print_program p = Rok (text_program gs fs).
Proof. exact read_canonical. Qed.
Print Assumptions C28_canonical_text.

(** Global variables, a declaration, a loop with block parameters, calls with and without
    result, numbers that go on from one function to the next, and a global variable without a
    name of its own. *)
Definition canon_globals : list atop :=
  [TGlobal "@g" (AArr (AArr AInt 2) 2) (IAggr [IAggr [IInt 1; IInt (-2)]; IZero]);
   TGlobal "%0" (APtr AInt) IUndef]%string.
Definition canon_funcs : list atop :=
  [TFunDecl "@f" [AInt; APtr AInt] (Some AInt);
   TFunDef "@log" [("@n", AInt)] None
     [ABlock "%1" [] [SDef "%2" (ELoad "%0"); SStore (SvSym "@n") "%2"; SRet None]];
   TFunDef "@h" [("@n", AInt); ("%3", AInt)] (Some AInt)
     [ABlock "%entry" [] [SDef "%4" (EGetElemPtr "@g" (VSym "@n")); SDef "%5" (EGetElemPtr "%4" (VInt 1));
        SJump "%loop" [VInt 0; VSym "%3"]];
      ABlock "%loop" [("%i", AInt); ("%s", AInt)] [SDef "%c" (EBin Lt_ (VSym "%i") (VInt 10));
        SBr (VSym "%c") "%6" [] "%end" [VSym "%s"]];
      ABlock "%6" [] [SDef "%v" (ELoad "%5"); SDef "%r" (ECall "@f" [VSym "%v"; VSym "%5"]); SCall "@log" [VSym "%r"];
        SDef "%7" (EBin Add (VSym "%i") (VInt 1)); SJump "%loop" [VSym "%7"; VSym "%r"]];
      ABlock "%end" [("%x", AInt)] [SRet (Some (VSym "%x"))]]]%string.
Example C28_example : canonical canon_globals canon_funcs ∧
  (foldr (λ t n, globals_in t + n) 0 (canon_globals ++ canon_funcs) < local_value_id_starts_from)%N ∧
  ∃ p b, read_program (RByte <$> String.list_ascii_of_string (text_program canon_globals canon_funcs)) = (Rok p, 0%N, b).
Proof.
  split; [apply canonical_check_ok; vm_compute; reflexivity|]. split; [vm_compute; reflexivity|].
  destruct (accepted_check (text_program canon_globals canon_funcs) (canon_globals ++ canon_funcs)) as (s & s' & p & b & _ & _ & H & _);
    [vm_compute; reflexivity..|]. exists p, b. exact H.
Qed.

(** A text of the format that is not canonical need not come back: here the numbers do not
    start with 0. *)
Definition odd_funcs : list atop := [TFunDef "@f" [("%1", AInt)] None [ABlock "%e" [] [SRet None]]]%string.
Definition prints (t u : string) : bool :=
  match read_program (RByte <$> String.list_ascii_of_string t) with
  | (Rok p, _, _) => match print_program p with Rok s => String.eqb s u | _ => false end
  | _ => false
  end.
Lemma prints_ok t u : prints t u = true →
  ∃ p n b, read_program (RByte <$> String.list_ascii_of_string t) = (Rok p, n, b) ∧ print_program p = Rok u.
Proof.
  unfold prints. destruct (read_program _) as [[[p|f| |] n] b]; try discriminate. intros H. exists p, n, b. split; [reflexivity|].
  destruct (print_program p) as [s|f| |]; try discriminate H. apply String.eqb_eq in H as ->. reflexivity.
Qed.
Theorem C28_any_text_refuted : ∃ gs fs p n b,
  Forall wf_global gs ∧ Forall wf_func fs ∧
  read_program (RByte <$> String.list_ascii_of_string (text_program gs fs)) = (Rok p, n, b) ∧
  ∃ t, print_program p = Rok t ∧ t ≠ text_program gs fs.
Proof.
  destruct (prints_ok (text_program [] odd_funcs) "fun @f(%0: i32) {
%e:
  ret
}
") as (p & n & b & H1 & H2); [vm_compute; reflexivity|].
  exists [], odd_funcs, p, n, b. split; [constructor|].
  split; [apply (forallb_ok func_check); [exact func_check_ok|vm_compute; reflexivity]|].
  split; [exact H1|]. eexists. split; [exact H2|]. vm_compute. discriminate.
Qed.
Print Assumptions C28_any_text_refuted.
