(** C37, C38, C46: the LLVM text of a program. *)
From Coq Require Import Lia.
From Verif Require Import Base IdModel TypeModel IrModel LayoutModel BuilderModel WorldModel LexerModel
  LexerProofs ParserModel ParserSpec FrontModel DriverModel UsesSpec DfgSpec LayoutSpec TypingSpec FlowSpec
  NameModel KoopaModel LlvmModel LlvmSpec PrintProofs LlvmProofs LlvmNameProofs LlvmSigilProofs
  HistoryProofs LayBuildProofs DriverProperties FrontProperties HistoryProperties.

Lemma typed_apart p : well_typed p → branches_apart p.
Proof.
  intros [_ H] f fd u d c t as1 as2 Hf Hu Hk. specialize (H f fd u d Hf Hu). rewrite Hk in H. simpl in H.
  inversion H; subst. auto.
Qed.

(** ** C37: the text, and its phis *)

(** C37: the LLVM text of a consistent, well-typed program is as described by [llvm_text],
    whatever the order [ord] in which use lists are read.  In particular each parameter of a
    block has a phi with exactly one entry for each instruction that jumps to the block, with
    the value that the instruction passes and the block the instruction is in. *)
Theorem C37_llvm_text : ∀ p ord txt,
  (∀ s, ord s ≡ₚ elements s) → use_lists_exact p → parents_exact p → well_typed p →
  llvm_program ord p = Rok txt → ∃ ν l, llvm_text ν p l txt.
Proof.
  intros p ord txt Ho Hu Hp Ht H.
  destruct (program_text p ord Ho Hu Hp (typed_apart _ Ht) txt H) as (l & Hl & _). by eexists _, l.
Qed.
Print Assumptions C37_llvm_text.

(** The programs of the front end are such programs. *)
Theorem C37_front_end : ∀ r p n b s ts s' ord txt,
  read_program r = (Rok p, n, b) → driver_new r = (Rok s, 0%N) → parses s ts s' →
  (foldr (λ t n, globals_in t + n) 0 ts < local_value_id_starts_from)%N →
  (∀ s, ord s ≡ₚ elements s) → llvm_program ord p = Rok txt → ∃ ν l, llvm_text ν p l txt.
Proof.
  intros r p n b s ts s' ord txt H1 H2 H3 H4 Ho H.
  destruct (read_consistent _ _ _ _ _ _ _ H1 H2 H3 H4) as (Hu & _ & Ht).
  eapply C37_llvm_text; [done|done|by eapply read_parents|done|done].
Qed.
Print Assumptions C37_front_end.

(** What the text says about a parameter: if the block [b] is in the function [f], the text of
    [f] contains the phi of each parameter of [b]. *)
Theorem C37_phis : ∀ p ord txt f fd b insts bd i q,
  (∀ s, ord s ≡ₚ elements s) → use_lists_exact p → parents_exact p → well_typed p →
  llvm_program ord p = Rok txt →
  f ∈ p_func_layout p → p_funcs p !! f = Some fd → (b, insts) ∈ l_bbs (f_layout fd) →
  blks fd !! b = Some bd → bb_params bd !! i = Some q →
  ∃ ν line before after, phi_line ν p fd b i q line ∧
    txt = (before ++ "  " ++ line ++ nl ++ after)%string.
Proof.
  intros p ord txt f fd b insts bd i q Ho Hu Hp Ht H Hin Hf Hb Hbd Hq.
  destruct (C37_llvm_text p ord txt Ho Hu Hp Ht H) as (ν & l & gs & _ & HF & _ & ->).
  apply elem_of_list_lookup in Hin as [k Hk].
  destruct (Forall2_lookup_l _ _ _ _ _ HF Hk) as ([[ν1 ts] s] & Hx & Hfun). simpl in Hfun.
  destruct Hfun as (fd' & ps & r & n & lr & args & Hf' & _ & _ & _ & Hs).
  rewrite Hf in Hf'. injection Hf' as <-.
  destruct (decide (blks fd = ∅)) as [E|_]. { by rewrite E, lookup_empty in Hbd. }
  destruct Hs as (_ & tss & bs & HB & Hlen & _ & ->).
  apply elem_of_list_lookup in Hb as [j Hj].
  destruct (Forall2_lookup_l _ _ _ _ _ HB Hj) as ([t1 s1] & Hz & Hblk).
  destruct Hblk as (bd' & label & phis & tss1 & body & Hbd' & _ & _ & Hphi & _ & _ & _ & Hs1). simpl in *.
  rewrite Hbd in Hbd'. injection Hbd' as <-.
  destruct (Hphi i q Hq) as (line & Hline & HL).
  assert (Hlines : ∃ x y, lines (phis ++ concat body) = (x ++ "  " ++ line ++ nl ++ y)%string).
  { clear -Hline. apply elem_of_list_lookup_2, elem_of_list_split in Hline as (l1 & l2 & ->).
    rewrite <- app_assoc. simpl. generalize (l2 ++ concat body) as l3. intros l3. clear.
    induction l1 as [|a l1 (x & y & IH)].
    - exists "", (lines l3). unfold lines. simpl. by rewrite !sapp_assoc.
    - exists ("  " ++ a ++ nl ++ x)%string, y. unfold lines in *. cbn [app map foldr]. rewrite IH.
      by rewrite !sapp_assoc. }
  destruct Hlines as (x1 & y1 & E1).
  assert (Hz2 : bs !! j = Some s1).
  { apply lookup_zip_with_Some in Hz as (a & a' & E & _ & Ha). by injection E as -> ->. }
  assert (Hbl : ∀ (bs : list string) j s1, bs !! j = Some s1 → ∃ x y, blank_between bs = (x ++ s1 ++ y)%string).
  { clear. intros bs. induction bs as [|a bs IH]; intros [|j] s1 Hj; [done|done|..]; cbn [lookup list_lookup] in Hj.
    - injection Hj as ->. destruct bs as [|c bs]; [exists "", ""; simpl; by rewrite sapp_nil|].
      exists "", (nl ++ blank_between (c :: bs))%string. done.
    - destruct (IH _ _ Hj) as (x & y & E). destruct bs as [|c bs]; [done|].
      exists (a ++ nl ++ x)%string, y. cbn [blank_between] in E |- *. rewrite E. by rewrite !sapp_assoc. }
  destruct (Hbl bs j s1 Hz2) as (x2 & y2 & E2).
  assert (Hx2 : map snd l !! k = Some (("define " ++ lr ++ " " ++ n ++ "(" ++ sep_comma args ++ ") {" ++ nl ++
             blank_between bs ++ "}" ++ nl)%string)).
  { change (map snd l) with (snd <$> l). by rewrite list_lookup_fmap, Hx. }
  destruct (Hbl _ _ _ Hx2) as (x3 & y3 & E3).
  exists ν1, line, (unlines gs ++ (if decide (p_inst_layout p = []) then "" else nl) ++ x3 ++
    "define " ++ lr ++ " " ++ n ++ "(" ++ sep_comma args ++ ") {" ++ nl ++ x2 ++ label ++ ":" ++ nl ++ x1)%string,
    (y1 ++ y2 ++ "}" ++ nl ++ y3)%string.
  split; [done|]. rewrite E3, E2, Hs1, E1. by rewrite !sapp_assoc.
Qed.
Print Assumptions C37_phis.

Definition llvm_of (t : string) : res string :=
  match (read_program (RByte <$> String.list_ascii_of_string t)).1.1 with
  | Rok p => llvm_program elements p
  | Rerr e => Rerr e | Rpanic => Rpanic | Rfuel => Rfuel
  end.
Lemma llvm_of_check t txt : llvm_of t = Rok txt → ∃ p b,
  read_program (RByte <$> String.list_ascii_of_string t) = (Rok p, 0%N, b) ∧ llvm_program elements p = Rok txt.
Proof.
  unfold llvm_of. destruct (read_program _) as [[[p|f| |] n] b] eqn:E; simpl; try done. intros H.
  pose proof E as Hr. unfold read_program in Hr. destruct (driver_new _) as [d e] eqn:Hd.
  destruct (DriverProofs.generate_ok _ _ _ _ _ _ _ _ _ Hd Hr) as (_ & -> & _). by exists p, b.
Qed.
Definition consistent_llvm : string :=
"@g = global [2 x [2 x i32]] [[2 x i32] [i32 1, i32 2], [2 x i32] zeroinitializer]

declare i32 @f(i32, i32*)

define i32 @h(i32 %n) {
$entry:
  %$0 = getelementptr inbounds [2 x [2 x i32]], [2 x [2 x i32]]* @g, i32 0, i32 %n
  %$1 = getelementptr inbounds [2 x i32], [2 x i32]* %$0, i32 0, i32 1
  br label %$loop

$loop:
  %$i = phi i32 [0, %$entry], [%$j, %$body]
  %$s = phi i32 [%n, %$entry], [%$t, %$body]
  %$2 = icmp slt i32 %$i, 10
  %$c = zext i1 %$2 to i32
  %$3 = icmp ne i32 %$c, 0
  br i1 %$3, label %$body, label %$end

$body:
  %$v = load i32, i32* %$1
  %$r = call i32 @f(i32 %$v, i32* %$1)
  %$t = add i32 %$s, %$r
  %$j = add i32 %$i, 1
  br label %$loop

$end:
  store i32 %$s, i32* %$1
  ret i32 %$s
}
".
(** The text of C44_example is accepted, so that C37_front_end applies to it. *)
Example C37_example : ∃ p b,
  read_program (RByte <$> String.list_ascii_of_string consistent_text) = (Rok p, 0%N, b) ∧
  use_lists_exact p ∧ parents_exact p ∧ well_typed p ∧
  llvm_program elements p = Rok consistent_llvm.
Proof.
  destruct (llvm_of_check consistent_text consistent_llvm) as (p & b & H1 & H2); [vm_compute; reflexivity|].
  destruct C44_example as (p' & b' & s & ts & s' & E1 & E2 & E3 & _ & E4).
  rewrite H1 in E1. injection E1 as <- <-. exists p, b. split; [exact H1|].
  destruct (read_consistent _ _ _ _ _ _ _ H1 E2 E3 (proj2 E4)) as (Hu & _ & Ht).
  split; [exact Hu|]. split; [exact (read_parents _ _ _ _ H1)|]. split; [exact Ht|exact H2].
Qed.

(** ** C38: names *)

(** C38, partly: in the text of a function, different functions, global variables, local
    values and temporaries have different names, and different blocks have different names,
    if no name of the program looks like a temporary name.  Missing: that values and blocks
    have different names (false), and names that look like temporary names. *)
Theorem C38_names_differ_partial : ∀ p ord txt,
  (∀ s, ord s ≡ₚ elements s) → use_lists_exact p → parents_exact p → well_typed p →
  (∀ n, named_in p n → plain n) → llvm_program ord p = Rok txt →
  ∃ ν l, llvm_text ν p l txt ∧ Forall (λ x, names_differ x.1.1 x.1.2) l.
Proof.
  intros p ord txt Ho Hu Hp Ht HN H.
  destruct (program_text p ord Ho Hu Hp (typed_apart _ Ht) txt H) as (l & Hl & HF).
  eexists _, l. split; [done|]. eapply list.Forall_impl; [exact HF|]. intros x. by apply function_names_differ.
Qed.
Print Assumptions C38_names_differ_partial.

(** C38 is false: a block and a value with the same name. *)
Theorem C38_block_value_refuted : ∃ t, llvm_of t = Rok
"define i32 @f() {
$entry:
  br label %$x

$x:
  %$x = add i32 1, 2
  ret i32 %$x
}
".
Proof.
  exists "fun @f(): i32 {
   %entry: jump %x
   %x: %x = add 1, 2 ret %x
   }"%string. vm_compute. reflexivity.
Qed.
Print Assumptions C38_block_value_refuted.

(** A check for [plain] names *)
Definition plainb (n : string) : bool :=
  existsb (λ i, match String.get i n with
                | Some c => negb (Ascii.eqb c "$") && negb ((48 <=? N_of_ascii c)%N && (N_of_ascii c <=? 57)%N)
                | None => false end) (seq 1 510).
Lemma plainb_sound n : plainb n = true → plain n.
Proof.
  unfold plainb. intros (i & Hi & H)%existsb_exists. apply in_seq in Hi.
  destruct (String.get i n) as [c|] eqn:E; [|done]. apply andb_true_iff in H as [H1 H2].
  exists c, i. split_and!; [lia|lia|done| |].
  - intros ->. by rewrite Ascii.eqb_refl in H1.
  - intros [H3 H4]. apply N.leb_le in H3, H4. by rewrite H3, H4 in H2.
Qed.
Definition optb (n : option string) : bool := match n with Some n => plainb n | None => true end.
Definition names_plainb (p : program) : bool :=
  forallb (λ x, optb (v_name x.2)) (map_to_list (p_values p)) &&
  forallb (λ x : N * fdata, plainb (f_name x.2) &&
    forallb (λ y, optb (v_name y.2)) (map_to_list (vals x.2)) &&
    forallb (λ y, optb (bb_name y.2)) (map_to_list (blks x.2))) (map_to_list (p_funcs p)).
Lemma map_check {A} (f : N * A → bool) (m : gmap N A) x y :
  forallb f (map_to_list m) = true → m !! x = Some y → f (x, y) = true.
Proof. intros H Hx. rewrite forallb_forall in H. apply H, elem_of_list_In. by apply elem_of_map_to_list. Qed.
Lemma names_plainb_sound p : names_plainb p = true → ∀ n, named_in p n → plain n.
Proof.
  unfold names_plainb. intros [H1 H2]%andb_true_iff n [(v & d & Hv & E)|(f & fd & Hf & H)].
  - apply (map_check _ _ _ _ H1) in Hv. simpl in Hv. rewrite E in Hv. by apply plainb_sound.
  - apply (map_check _ _ _ _ H2) in Hf. simpl in Hf. apply andb_true_iff in Hf as [Hf H4].
    apply andb_true_iff in Hf as [Hf H3]. apply plainb_sound.
    destruct H as [<-|[(v & d & Hv & E)|(b & bd & Hb & E)]]; [done|..].
    + apply (map_check _ _ _ _ H3) in Hv. simpl in Hv. by rewrite E in Hv.
    + apply (map_check _ _ _ _ H4) in Hb. simpl in Hb. by rewrite E in Hb.
Qed.
Example C38_example : ∃ p b,
  read_program (RByte <$> String.list_ascii_of_string consistent_text) = (Rok p, 0%N, b) ∧
  (∀ n, named_in p n → plain n) ∧ named_in p "%loop" ∧ llvm_program elements p = Rok consistent_llvm.
Proof.
  assert (Hc : match (read_program (RByte <$> String.list_ascii_of_string consistent_text)).1.1 with
    | Rok p => names_plainb p && existsb (λ x : N * fdata, existsb (λ y, bool_decide (bb_name y.2 = Some "%loop"))
        (map_to_list (blks x.2))) (map_to_list (p_funcs p)) | _ => false end = true) by (vm_compute; reflexivity).
  destruct C37_example as (p & b & H1 & _ & _ & _ & H2). rewrite H1 in Hc. simpl in Hc.
  apply andb_true_iff in Hc as [Hc1 Hc2]. exists p, b. split; [exact H1|]. split; [exact (names_plainb_sound _ Hc1)|].
  split; [|exact H2]. right. apply existsb_exists in Hc2 as ([f fd] & Hf & Hc2). apply existsb_exists in Hc2 as ([x bd] & Hx & Hc2).
  apply elem_of_list_In, elem_of_map_to_list in Hf. apply elem_of_list_In, elem_of_map_to_list in Hx.
  apply bool_decide_eq_true in Hc2. exists f, fd. split; [done|]. right; right.
  exists x, bd. exact (conj Hx Hc2).
Qed.

(** ** C46: global names *)

(** C46: if every function calls only itself and functions listed before it, and all global
    variables are listed, then functions and global variables have names that begin with
    [@] everywhere in the text. *)
Theorem C46_global_names : ∀ p ord txt,
  (∀ s, ord s ≡ₚ elements s) → use_lists_exact p → parents_exact p → well_typed p →
  callees_first p → globals_listed p → llvm_program ord p = Rok txt →
  ∃ ν l, llvm_text ν p l txt ∧ (∀ f n, nv_fun ν !! f = Some n → global_name n) ∧
    ∀ v n, nv_global ν !! v = Some n → global_name n.
Proof.
  intros p ord txt Ho Hu Hp Ht HC HG H.
  destruct (program_text p ord Ho Hu Hp (typed_apart _ Ht) txt H) as (l & Hl & _).
  destruct (program_names p ord HC HG txt H) as [N1 N2 _ _].
  by eexists _, l.
Qed.
Print Assumptions C46_global_names.
(** The programs of the front end are such programs. *)
Theorem C46_front_end : ∀ r p n b s ts s' ord txt,
  read_program r = (Rok p, n, b) → driver_new r = (Rok s, 0%N) → parses s ts s' →
  (foldr (λ t n, globals_in t + n) 0 ts < local_value_id_starts_from)%N →
  (∀ s, ord s ≡ₚ elements s) → llvm_program ord p = Rok txt →
  ∃ ν l, llvm_text ν p l txt ∧ (∀ f n, nv_fun ν !! f = Some n → global_name n) ∧
    ∀ v n, nv_global ν !! v = Some n → global_name n.
Proof.
  intros r p n b s ts s' ord txt H1 H2 H3 H4 Ho H.
  destruct (read_consistent _ _ _ _ _ _ _ H1 H2 H3 H4) as (Hu & _ & Ht).
  destruct (read_ordered _ _ _ _ H1) as [HC HG].
  eapply C46_global_names; [done|done|by eapply read_parents|done|done|done|done].
Qed.
Print Assumptions C46_front_end.
(** C46 is false of programs in which a function is called before it is listed: the function
    gets a local name. *)
Definition forward : option world :=
  w ← run [ONewFuncDef "@main" [] TInt32; ONewFuncDecl "@f" [] TInt32; ONewBB 1 (Some "%entry"%string) [];
       ONewLocal 1 (BCall 2 []); ONewLocal 1 (BRet (Some local_value_id_starts_from))]%N world0;
  w ← w_push_bb 1 1 w; w ← w_push_inst 1 1 local_value_id_starts_from w;
  w_push_inst 1 1 (local_value_id_starts_from + 1) w.
Theorem C46_forward_call_refuted : ∃ w, forward = Some w ∧ llvm_program elements (w_prog w) = Rok
"define i32 @main() {
$entry:
  %$0 = call i32 %f()
  ret i32 %$0
}

declare i32 %f()
".
Proof.
  assert (H : match forward with
    | Some w => match llvm_program elements (w_prog w) with Rok s => String.eqb s
"define i32 @main() {
$entry:
  %$0 = call i32 %f()
  ret i32 %$0
}

declare i32 %f()
"%string | _ => false end | None => false end = true) by (vm_compute; reflexivity).
  destruct forward as [w|]; [|discriminate H]. exists w. split; [reflexivity|].
  destruct (llvm_program elements (w_prog w)) as [s| | |]; try discriminate H.
  apply String.eqb_eq in H. by rewrite H.
Qed.
Print Assumptions C46_forward_call_refuted.
Example C46_example : ∃ p b,
  read_program (RByte <$> String.list_ascii_of_string consistent_text) = (Rok p, 0%N, b) ∧
  use_lists_exact p ∧ parents_exact p ∧ well_typed p ∧ callees_first p ∧ globals_listed p ∧
  llvm_program elements p = Rok consistent_llvm.
Proof.
  destruct C37_example as (p & b & H1 & H2 & H3 & H4 & H5). exists p, b.
  destruct (read_ordered _ _ _ _ H1) as [H6 H7].
  exact (conj H1 (conj H2 (conj H3 (conj H4 (conj H6 (conj H7 H5)))))).
Qed.
