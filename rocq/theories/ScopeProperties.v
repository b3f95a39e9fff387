(** C50, C51: where the operands of accepted programs come from and what functions return. *)
From Coq Require Import Lia.
From Verif Require Import Base IdModel TypeModel IrModel WorldModel LexerModel ParserModel ParserSpec FrontModel
  LayoutModel DfgSpec UsesSpec FlowSpec DriverModel DriverSpec DriverProperties FrontProperties FaithProperties
  ScopeSpec ScopeProofs.

(** C50: in the functions of a program that the driver returns, each operand of an instruction is
    a global variable, a constant, a parameter of the function, a parameter of a block other
    than the first or the result of an instruction, one with a result.  The block of the parameter or instruction
    is the block of the use or one from which control can get there, and the instruction is
    before the use in the order of the layout.  No branch or jump goes to the first block.
    See ScopeSpec. *)
Theorem C50_operands_available : ∀ r p n b s ts s',
  read_program r = (Rok p, n, b) → driver_new r = (Rok s, 0%N) → parses s ts s' →
  (foldr (λ t n, globals_in t + n) 0 ts < local_value_id_starts_from)%N →
  ∀ f fd, p_funcs p !! f = Some fd → scoped p fd.
Proof. exact read_scoped. Qed.
Print Assumptions C50_operands_available.

(** The text of the loop with block parameters of C48: it has a function, and instructions that
    use values of other blocks. *)
Definition has_blocks (p : program) (n : nat) : bool :=
  existsb (λ f, match p_funcs p !! f with Some fd => (length (l_bbs (f_layout fd)) =? n)%nat | None => false end) (p_func_layout p).
Example C50_example : ∃ p b s ts s' f fd,
  read_program (RByte <$> String.list_ascii_of_string faith_text) = (Rok p, 0%N, b) ∧
  driver_new (RByte <$> String.list_ascii_of_string faith_text) = (Rok s, 0%N) ∧
  parses s ts s' ∧ (foldr (λ t n, globals_in t + n) 0 ts < local_value_id_starts_from)%N ∧
  p_funcs p !! f = Some fd ∧ length (l_bbs (f_layout fd)) = 4.
Proof.
  assert (Hc : match read_program (RByte <$> String.list_ascii_of_string faith_text) with
    | (Rok p, _, _) => has_blocks p 4 | _ => false end = true) by (vm_compute; reflexivity).
  destruct C48_example as (p & b & s & ts & s' & H1 & H2 & H3 & _ & _ & H4).
  rewrite H1 in Hc. unfold has_blocks in Hc. apply existsb_exists in Hc as (f & _ & Hf).
  destruct (p_funcs p !! f) as [fd|] eqn:E; [|discriminate Hf].
  exists p, b, s, ts, s', f, fd. split; [exact H1|]. split; [exact H2|]. split; [exact H3|]. split; [exact H4|].
  split; [exact E|]. by apply Nat.eqb_eq.
Qed.

(** The specification excludes uses before definitions: a load from an [alloc] that comes after
    it in the block. *)
Definition use_first : fdata :=
  FData (TFun [] TUnit) "@f" []
    (Dfg {[ 1%N := VData (TPtr TInt32) None KAlloc ∅; 2%N := VData TInt32 None (KLoad 1%N) ∅ ]} {[ 1%N := BBData None [] ∅ ]})
    (Layout [(1%N, [2%N; 1%N])] ∅).
Example C50_distinguishes : ¬ scoped program0 use_first.
Proof.
  intros [H _]. destruct (H [] 1%N [] 2%N [1%N] [] (VData TInt32 None (KLoad 1%N) ∅) 1%N) as [[Hg|(e & He & Hk)]|Ha]; try done.
  - by left.
  - by apply elem_of_nil in Hg.
  - assert (e = VData (TPtr TInt32) None KAlloc ∅) as -> by (by injection He as <-). done.
  - destruct Ha as [Ha|c d _ Hf Hd Hu|c is _ Hi _|Ha]; try by apply elem_of_nil in Ha.
    + simpl in Hd. apply lookup_singleton_Some in Hd as [<- <-]. by apply elem_of_nil in Hu.
    + by apply elem_of_nil in Hi.
Qed.
(** The specification also excludes uses of instructions without a result: a jump cannot pass
    a store. *)
Definition use_store : fdata :=
  FData (TFun [] TUnit) "@f" []
    (Dfg {[ 1%N := VData (TPtr TInt32) None KAlloc ∅; 2%N := VData TInt32 None (KInteger 0) ∅;
            3%N := VData TUnit None (KStore 2%N 1%N) ∅; 4%N := VData TUnit None (KReturn (Some 3%N)) ∅ ]} {[ 1%N := BBData None [] ∅ ]})
    (Layout [(1%N, [1%N; 3%N; 4%N])] ∅).
Example C50_distinguishes_results : ¬ scoped program0 use_store.
Proof.
  assert (Hv : vals use_store !! 3%N = Some (VData TUnit None (KStore 2%N 1%N) ∅)) by reflexivity.
  intros [H _]. destruct (H [] 1%N [1%N; 3%N] 4%N [] [] (VData TUnit None (KReturn (Some 3%N)) ∅) 3%N) as [[Hg|(e & He & Hk)]|Ha]; try done.
  - by left.
  - by apply elem_of_nil in Hg.
  - rewrite Hv in He. injection He as <-. done.
  - destruct Ha as [Ha|c d _ Hf Hd Hu|c is _ Hi _|_ (d & Hd & Hu)]; try by apply elem_of_nil in Ha.
    + simpl in Hd. apply lookup_singleton_Some in Hd as [<- <-]. by apply elem_of_nil in Hu.
    + by apply elem_of_nil in Hi.
    + rewrite Hv in Hd. injection Hd as <-. by apply Hu.
Qed.

(** C51: in the functions of a program that the driver returns, what is returned has the type
    that the function was declared with, and nothing is returned exactly where the type is the
    unit type. *)
Theorem C51_returns_fit : ∀ r p n b s ts s',
  read_program r = (Rok p, n, b) → driver_new r = (Rok s, 0%N) → parses s ts s' →
  (foldr (λ t n, globals_in t + n) 0 ts < local_value_id_starts_from)%N →
  ∀ f fd, p_funcs p !! f = Some fd → returns_fit p fd.
Proof. exact read_returns. Qed.
Print Assumptions C51_returns_fit.

(** The text of C48 has a function that returns a value. *)
Definition returns_value (fd : fdata) : bool :=
  existsb (λ '(b, is), existsb (λ v, match v_kind <$> vals fd !! v with Some (KReturn (Some _)) => true | _ => false end) is) (l_bbs (f_layout fd)).
Definition some_returns (p : program) : bool :=
  existsb (λ f, match p_funcs p !! f with Some fd => returns_value fd | None => false end) (p_func_layout p).
Example C51_example : ∃ p b s ts s' f fd,
  read_program (RByte <$> String.list_ascii_of_string faith_text) = (Rok p, 0%N, b) ∧
  driver_new (RByte <$> String.list_ascii_of_string faith_text) = (Rok s, 0%N) ∧
  parses s ts s' ∧ (foldr (λ t n, globals_in t + n) 0 ts < local_value_id_starts_from)%N ∧
  p_funcs p !! f = Some fd ∧ ∃ b is v d u, (b, is) ∈ l_bbs (f_layout fd) ∧ v ∈ is ∧ vals fd !! v = Some d ∧ v_kind d = KReturn (Some u).
Proof.
  assert (Hc : match read_program (RByte <$> String.list_ascii_of_string faith_text) with
    | (Rok p, _, _) => some_returns p | _ => false end = true) by (vm_compute; reflexivity).
  destruct C48_example as (p & b & s & ts & s' & H1 & H2 & H3 & _ & _ & H4).
  rewrite H1 in Hc. unfold some_returns in Hc. apply existsb_exists in Hc as (f & _ & Hf).
  destruct (p_funcs p !! f) as [fd|] eqn:E; [|discriminate Hf].
  apply existsb_exists in Hf as ([b' is] & Hin & Hf). apply existsb_exists in Hf as (v & Hv & Hf).
  destruct (vals fd !! v) as [d|] eqn:Ed; [|discriminate Hf]. simpl in Hf. destruct (v_kind d) as [| | | | | | | | | | | | | | | |[u|]] eqn:Ek; try discriminate Hf.
  exists p, b, s, ts, s', f, fd. split; [exact H1|]. split; [exact H2|]. split; [exact H3|]. split; [exact H4|].
  split; [exact E|]. exists b', is, v, d, u. split; [by apply elem_of_list_In|]. split; [by apply elem_of_list_In|]. split; [exact Ed|exact Ek].
Qed.
(** Returning a pointer from a function that returns an integer does not fit. *)
Definition bad_return : fdata :=
  FData (TFun [] TInt32) "@f" []
    (Dfg {[ 1%N := VData (TPtr TInt32) None KAlloc ∅; 2%N := VData TUnit None (KReturn (Some 1%N)) ∅ ]} {[ 1%N := BBData None [] ∅ ]})
    (Layout [(1%N, [1%N; 2%N])] ∅).
Example C51_distinguishes : ¬ returns_fit program0 bad_return.
Proof.
  intros (ts & t & E & H). injection E as <- <-.
  specialize (H 1%N [1%N; 2%N] 2%N (VData TUnit None (KReturn (Some 1%N)) ∅)). simpl in H.
  destruct H as [_ H]; [by left|by right; left|reflexivity|]. discriminate H.
Qed.
