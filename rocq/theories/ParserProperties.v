(** C25-C27: the parser. *)
From Coq Require Import Lia.
From Verif Require Import Base IdModel TypeModel IrModel LexerModel TextModel LexerSpec LexerProofs
  ParserModel ParserSpec ParserProofs PrintSpec PieceProofs RoundProofs BackProofs FrontModel
  FrontProofs DriverModel DriverProofs TypeTextProofs.

(** C25: whatever the input (including I/O errors) and however far parsing has got,
    every tree the parser returns has blocks that end with a terminator or a statement
    that was reported as erroneous, without terminators before that, and every function
    has a block. *)
Theorem C25_block_shape : ∀ r e s l ts s',
  parser_new (lex_new r e) = (Rok s, l) → parses s ts s' →
  Forall top_shape ts ∧ (¬ Forall no_err_top ts → e < errs (p_lex s'))%N.
Proof.
  intros r e s l ts s' Hs Hp. apply parser_new_spec in Hs as (_ & _ & H & _).
  destruct (H s eq_refl) as (_ & Hi & <-). apply parses_facts in Hp; tauto.
Qed.
Print Assumptions C25_block_shape.

(** C25: the same for the trees returned before a fatal error. *)
Theorem C25_next_shape : ∀ s t s',
  inv (p_lex s) → parse_next s = (Rok t, s') → top_shape t.
Proof. intros s t s' Hi H. by apply (parse_next_shape s t s' Hi H). Qed.
Print Assumptions C25_next_shape.

(** C25: so the builder's search of the blocks finds an end of every block; an
    [unwrap] or [panic!("invalid end statement")] (koopa/src/front/builder.rs:266,286,346)
    is never reached. *)
Theorem C25_block_targets : ∀ b, block_shape b → is_Some (targets b).
Proof.
  intros b (body & fin & Hb & _ & Hf). unfold targets. rewrite Hb, last_snoc. simpl.
  destruct fin; simpl in Hf; try by (destruct Hf as [[]|[=]]); eauto.
  all: by destruct Hf as [[]|?].
Qed.
Print Assumptions C25_block_targets.

(** Parsing a text until the end. *)
Fixpoint parse_loop (n : nat) (s : ps) : list atop * N :=
  match n with
  | O => ([], errs (p_lex s))
  | S n =>
      match parse_next s with
      | (Rok TEnd, s') => ([], errs (p_lex s'))
      | (Rok t, s') => let '(ts, e) := parse_loop n s' in (t :: ts, e)
      | (_, s') => ([TErr], errs (p_lex s'))
      end
  end.
Definition parse_text (t : string) : list atop * N :=
  match parser_new (lex_new (RByte <$> chars t) 0) with
  | (Rok s, _) => parse_loop 10 s
  | (_, l) => ([], errs l)
  end.

(** A block that ends with an erroneous statement, and one in which the parser recovers. *)
Example C25_example :
  parse_text "fun @f(%x: i32): i32 {
%0:
  %1 = add %x,
  ret %1
%2:
  jump 0
}
fun @g() {
%0:
  ret
}" =
  ([TFunDef "@f" [("%x", AInt)] (Some AInt)
     [ABlock "%0" [] [SErr; SRet (Some (VSym "%1"))]; ABlock "%2" [] [SErr]];
    TFunDef "@g" [] None [ABlock "%0" [] [SRet None]]]%string, 2%N).
Proof. vm_compute. reflexivity. Qed.

(** C26: the text of a type (followed by spaces and newlines) is read back as the same
    type, without errors. *)
Theorem C26_type_round_trip : ∀ t tr e,
  readable t → oktail tr →
  ∃ s l a s', parser_new (lex_new (RByte <$> (chars (show_ty t) ++ tr)) e) = (Rok s, l) ∧
    parse_type (p_fuel s) s = (Rok a, s') ∧ cur_kind s' = TkEnd ∧ errs (p_lex s') = e ∧
    gen_type a = Some t.
Proof. exact type_text_round_trip. Qed.
Print Assumptions C26_type_round_trip.

(** C26: so different types have different texts. *)
Theorem C26_show_injective : ∀ t t',
  readable t → readable t' → show_ty t = show_ty t' → t = t'.
Proof. exact show_ty_inj. Qed.
Print Assumptions C26_show_injective.

(** C26: no text at all denotes a type in which unit is more than a function result. *)
Theorem C26_no_unit : ∀ a t, gen_type a = Some t → no_unit t.
Proof. exact gen_type_no_unit. Qed.
Print Assumptions C26_no_unit.

Definition type_example : ty :=
  TFun [TPtr (TArray (TArray TInt32 3) 9223372036854775807); TFun [] TUnit] (TPtr TInt32).
Example C26_example :
  readable type_example ∧
  show_ty type_example = "(*[[i32, 3], 9223372036854775807], ()): *i32"%string ∧
  ¬ no_unit (TPtr TUnit) ∧ ¬ readable (TArray TInt32 (2 ^ 63)).
Proof.
  split_and!; [|vm_compute; reflexivity| |].
  - unfold type_example.
    apply rd_fun; [|right; repeat constructor].
    repeat apply Forall_cons; [|apply rd_fun; [constructor|by left]|constructor].
    repeat constructor; lia.
  - intros H. inversion H as [| |? H'|]. inversion H'.
  - intros H. inversion H. lia.
Qed.
(** A length of 2^63 is not a number for the lexer. *)
Example C26_too_long :
  match parser_new (lex_new (RByte <$> chars (show_ty (TArray TInt32 (2 ^ 63)))) 0) with
  | (Rok s, _) => match parse_type (p_fuel s) s with (Rerr false, s') => errs (p_lex s') | _ => 0 end
  | _ => 0
  end%N = 1%N.
Proof. vm_compute. reflexivity. Qed.

(** C27: for every well-formed list of definitions, reading the text in the generator's
    format gives back exactly those definitions, without errors. *)
Theorem C27_syntax_round_trip : ∀ gs fs e,
  Forall wf_global gs → Forall wf_func fs →
  ∃ s l s', parser_new (lex_new (RByte <$> chars (text_program gs fs)) e) = (Rok s, l) ∧
    parses s (gs ++ fs) s' ∧ errs (p_lex s') = e.
Proof. exact program_round_trip. Qed.
Print Assumptions C27_syntax_round_trip.

(** C27: so a text determines the definitions. *)
Theorem C27_text_injective : ∀ gs fs gs' fs',
  Forall wf_global gs → Forall wf_func fs → Forall wf_global gs' → Forall wf_func fs' →
  text_program gs fs = text_program gs' fs' → gs = gs' ∧ fs = fs'.
Proof.
  intros gs fs gs' fs' Hg Hf Hg' Hf' He.
  destruct (program_round_trip gs fs 0 Hg Hf) as (s & l & s1 & E1 & E2 & _).
  destruct (program_round_trip gs' fs' 0 Hg' Hf') as (s' & l' & s1' & F1 & F2 & _).
  rewrite He, F1 in E1. injection E1 as -> ->.
  assert (Hd : ∀ s ts s1, parses s ts s1 → ∀ ts' s1', parses s ts' s1' → ts = ts').
  { clear. intros s ts s1 H. induction H as [s s1 H|s t s1 ts s2 H Hne Hp IH]; intros ts' s1' H';
      inversion H' as [? ? G|? ? ? ? ? G Gne Gp]; subst; [done|congruence|congruence|].
    rewrite H in G. injection G as -> ->. f_equal. by eapply IH. }
  pose proof (Hd _ _ _ E2 _ _ F2) as Ha. clear -Ha Hg Hf Hg' Hf'.
  revert gs' Ha Hg'. induction Hg as [|x gs Hx Hg IH]; intros gs' Ha Hg'.
  - destruct Hg' as [|y gs' Hy Hg']; [done|]. simpl in Ha. subst.
    apply list.Forall_cons in Hf as [Hf _]. by destruct y.
  - destruct Hg' as [|y gs' Hy Hg']; simpl in Ha.
    + subst. apply list.Forall_cons in Hf' as [Hf' _]. by destruct x.
    + injection Ha as -> Ha. destruct (IH _ Ha Hg') as [-> ->]. done.
Qed.
Print Assumptions C27_text_injective.

Definition syntax_globals : list atop :=
  [TGlobal "@g" (AArr AInt 2) (IAggr [IInt (-1); IUndef])]%string.
Definition syntax_funcs : list atop :=
  [TFunDecl "@putint" [AInt; APtr AInt] None;
   TFunDef "@main" [("%x", AInt)] (Some AInt)
     [ABlock "%e" []
        [SDef "%0" (EBin Add (VSym "%x") (VInt (-2147483648)));
         SDef "@p" (EGetElemPtr "@g" (VSym "%0"));
         SStore (SvInit (IInt 3)) "@p";
         SCall "@putint" [VSym "%0"; VSym "@p"];
         SBr (VSym "%0") "%b" [VInt 1] "%c" []];
      ABlock "%b" [("%y", AInt)] [SRet (Some (VSym "%y"))];
      ABlock "%c" [] [SRet None]]]%string.
(** A boolean check of names, for the example. *)
Lemma wf_name_check s :
  match chars s with
  | tag :: c :: cs =>
      (Ascii.eqb tag "@" || Ascii.eqb tag "%") && negb (is_numeric c) &&
      forallb is_symbol_char (c :: cs)
  | _ => false
  end && forallb (λ c, (N_of_ascii c <? 128)%N) (chars s) = true → wf_name s.
Proof.
  intros H. apply andb_prop in H as [H1 H2]. split.
  - unfold ascii_only. apply list.Forall_forall. intros c Hc. rewrite forallb_forall in H2.
    specialize (H2 c ltac:(by apply elem_of_list_In)). by apply N.ltb_lt.
  - fold (chars s). destruct (chars s) as [|tag [|c cs]]; try done.
    apply andb_prop in H1 as [H1 H3]. apply andb_prop in H1 as [H1 H4].
    apply sym_named; [|by destruct (is_numeric c)|].
    + apply orb_prop in H1 as [H1|H1]; apply Ascii.eqb_eq in H1; auto.
    + apply list.Forall_forall. intros d Hd. rewrite forallb_forall in H3.
      apply H3. by apply elem_of_list_In.
Qed.
Lemma wf_temp_check : wf_name "%0".
Proof. split; [repeat constructor|constructor]. Qed.

Example C27_example :
  Forall wf_global syntax_globals ∧ Forall wf_func syntax_funcs ∧
  text_program syntax_globals syntax_funcs = "global @g = alloc [i32, 2], {-1, undef}

decl @putint(i32, *i32)

fun @main(%x: i32): i32 {
%e:
  %0 = add %x, -2147483648
  @p = getelemptr @g, %0
  store 3, @p
  call @putint(%0, @p)
  br %0, %b(1), %c

%b(%y: i32):
  ret %y

%c:
  ret
}
"%string.
Proof.
  assert (Hn : wf_name "@g" ∧ wf_name "@putint" ∧ wf_name "@main" ∧ wf_name "%x" ∧ wf_name "%e" ∧
    wf_name "@p" ∧ wf_name "%b" ∧ wf_name "%c" ∧ wf_name "%y").
  { split_and!; apply wf_name_check; vm_compute; reflexivity. }
  destruct Hn as (? & ? & ? & ? & ? & ? & ? & ? & ?). pose proof wf_temp_check.
  assert (Hi : ∀ z, (- 2147483648 ≤ z < 2147483648)%Z → wf_int z) by (intros; unfold wf_int; lia).
  split_and!; [| |vm_compute; reflexivity].
  - repeat constructor; simpl; try done; try (apply Hi; lia).
  - unfold syntax_funcs.
    assert (Hb : ∀ n ps sts body fin, sts = body ++ [fin] → wf_name n → Forall wf_param ps →
      Forall wf_stmt sts → Forall (λ st, ¬ terminator st) body → terminator fin →
      wf_block (ABlock n ps sts)).
    { intros n ps sts body fin -> ? ? ? ? ?. split_and!; [done|done|done|].
      exists body, fin. split_and!; [done|done|by left]. }
    apply Forall_cons; [|apply Forall_cons; [|constructor]].
    + split_and!; [done|repeat constructor|done].
    + split_and!; [done|repeat constructor; done|intros ? [= <-]; constructor|done|].
      repeat apply Forall_cons; [| | |constructor].
      * eapply (Hb _ _ _ [_; _; _; _] _ eq_refl); [done|constructor| |repeat (apply Forall_cons; [simpl; tauto|]); constructor|done].
        repeat first [ done | apply Hi; lia | constructor; apply Hi; lia | apply Forall_cons
                     | apply Forall_nil_2 | split | progress simpl ].
      * eapply (Hb _ _ _ [] _ eq_refl); [done|repeat constructor; done| |constructor|done].
        repeat constructor. intros ? [= <-]. done.
      * eapply (Hb _ _ _ [] _ eq_refl); [done|constructor| |constructor|done].
        repeat constructor. intros ? [=].
Qed.
