(** The text of a program is a C string in ASCII (C60). *)
From Coq Require Import Lia ZifyBool ZifyNat ZifyN.
From Verif Require Import Base IdModel TypeModel IrModel LayoutModel TextModel LexerModel LexerSpec LexerRunProofs ParserModel ParserSpec PrintSpec
  RawTotalSpec BuildableProofs.

(** ASCII without zero bytes *)
Definition plain (s : string) : Prop := Forall (λ c, (0 < Ascii.N_of_ascii c < 128)%N) (String.list_ascii_of_string s).
Lemma chars_app s t : String.list_ascii_of_string (s ++ t) = String.list_ascii_of_string s ++ String.list_ascii_of_string t.
Proof. induction s as [|c s IH]; [done|]. change (String c s ++ t)%string with (String c (s ++ t)). simpl. by rewrite IH. Qed.
Lemma plain_app s t : plain s → plain t → plain (s ++ t).
Proof. unfold plain. rewrite chars_app. intros. by apply Forall_app. Qed.
Definition plain_b (s : string) : bool :=
  forallb (λ c, (0 <? Ascii.N_of_ascii c)%N && (Ascii.N_of_ascii c <? 128)%N) (String.list_ascii_of_string s).
Lemma plain_check s : plain_b s = true → plain s.
Proof.
  intros H. unfold plain_b in H. rewrite forallb_forall in H. apply list.Forall_forall. intros c Hc.
  apply elem_of_list_In, H, andb_prop in Hc as [H1 H2]. by apply N.ltb_lt in H1, H2.
Qed.
Lemma plain_name n : wf_name n → plain n.
Proof.
  intros Hn. destruct (wf_c_name _ Hn) as [_ Hz]. destruct Hn as [Ha _]. unfold ascii_only, plain in *. rewrite list.Forall_forall in Ha |- *.
  intros c Hc. split; [|by apply Ha]. destruct (decide (Ascii.N_of_ascii c = 0%N)) as [E|E]; [|lia]. exfalso. apply Hz.
  replace Ascii.zero with c; [done|]. rewrite <- (Ascii.ascii_N_embedding c), E. reflexivity.
Qed.
Lemma plain_N n : plain (show_N n).
Proof.
  destruct (show_N_spec n) as [[_ H] _]. unfold plain. eapply list.Forall_impl; [exact H|]. intros c Hc. unfold is_ascii_digit in Hc. cbv zeta in Hc. lia.
Qed.
Lemma plain_Z z : plain (show_Z z).
Proof. unfold show_Z. destruct (z <? 0)%Z; [|apply plain_N]. apply list.Forall_cons. split; [done|apply plain_N]. Qed.
Lemma plain_sep l : Forall plain l → plain (sep_comma l).
Proof.
  induction 1 as [|s l Hs Hl IH]; [constructor|]. destruct l as [|t l]; [done|].
  change (sep_comma (s :: t :: l)) with (s ++ ", " ++ sep_comma (t :: l))%string. apply plain_app; [done|]. apply plain_app; [by apply plain_check|done].
Qed.
Lemma plain_cat l : Forall plain l → plain (cat l).
Proof. induction 1 as [|s l Hs Hl IH]; [constructor|]. simpl. by apply plain_app. Qed.
Lemma plain_cat_nl l : Forall plain l → plain (cat_nl l).
Proof.
  induction 1 as [|s l Hs Hl IH]; [constructor|]. destruct l as [|t l]; [done|].
  change (cat_nl (s :: t :: l)) with (s ++ nl ++ cat_nl (t :: l))%string. apply plain_app; [done|]. apply plain_app; [by apply plain_check|done].
Qed.
Lemma plain_map {A} (f : A → string) (P : A → Prop) l : (∀ x, P x → plain (f x)) → Forall P l → Forall plain (map f l).
Proof. intros Hf. induction 1; constructor; auto. Qed.
Ltac lit := apply plain_check; vm_compute; reflexivity.
Ltac pl := repeat (match goal with |- plain (_ ++ _)%string => idtac end; apply plain_app; [first [lit|idtac]|]); try lit.
Lemma plain_aty : ∀ t, plain (text_aty t).
Proof.
  fix IH 1. intros [|b n|b|ps r]; cbn [text_aty]; pl.
  - exact (IH b).
  - exact (plain_N n).
  - exact (IH b).
  - apply plain_sep. induction ps as [|p ps IHp]; constructor; [exact (IH p)|exact IHp].
  - destruct r as [r|]; [|lit]. apply plain_app; [lit|exact (IH r)].
Qed.
Lemma plain_init : ∀ i, plain (text_init i).
Proof.
  fix IH 1. intros [z| | |l]; cbn [text_init]; pl.
  - exact (plain_Z z).
  - apply plain_sep. induction l as [|i l IHl]; constructor; [exact (IH i)|exact IHl].
Qed.
Lemma plain_val v : wf_val v → plain (text_val v).
Proof. destruct v; simpl; intros H; [by apply plain_name|apply plain_Z|lit]. Qed.
Lemma plain_args l : Forall wf_val l → plain (text_args l).
Proof. intros H. unfold text_args. pl. apply plain_sep. eapply plain_map; [exact plain_val|done]. Qed.
Lemma plain_opt_args l : Forall wf_val l → plain (text_opt_args l).
Proof. intros H. unfold text_opt_args. destruct l; [lit|by apply plain_args]. Qed.
Lemma plain_params l : Forall wf_param l → plain (text_params l).
Proof.
  intros H. unfold text_params. pl. apply plain_sep. eapply plain_map; [|exact H]. intros [n t] [H1 H2]. unfold text_param. pl; [by apply plain_name|apply plain_aty].
Qed.
Lemma plain_opt_params l : Forall wf_param l → plain (text_opt_params l).
Proof. intros H. unfold text_opt_params. destruct l; [lit|by apply plain_params]. Qed.
Lemma plain_ret r : plain (text_ret r).
Proof. destruct r; simpl; [|lit]. pl. apply plain_aty. Qed.
Lemma plain_binop o : plain (show_binop o).
Proof. destruct o; lit. Qed.
Lemma plain_stmt st : wf_stmt st → plain (text_stmt st).
Proof.
  destruct st as [n e|[s|i] d|f args|c t ta f fa|t a|[v|]|]; cbn [wf_stmt text_stmt]; intros H; pl; repeat match goal with H : _ ∧ _ |- _ => destruct H end;
    try (by apply plain_name); try (by apply plain_val); try (by apply plain_args); try (by apply plain_opt_args); try apply plain_init; try (apply plain_sep; eapply plain_map; [exact plain_val|done]).
  - destruct e; cbn [wf_expr text_expr] in *; pl; repeat match goal with H : _ ∧ _ |- _ => destruct H end;
      try (by apply plain_name); try (by apply plain_val); try (by apply plain_args); try apply plain_aty; try apply plain_binop; try (apply plain_sep; eapply plain_map; [exact plain_val|done]).
  - apply plain_val. by apply H.
Qed.
Lemma plain_block b : wf_block b → plain (text_block b).
Proof.
  intros (H1 & H2 & H3 & _). unfold text_block. pl; [by apply plain_name|by apply plain_opt_params|]. apply plain_cat.
  eapply plain_map; [|exact H3]. intros st Hst. pl. by apply plain_stmt.
Qed.
Lemma plain_global t : wf_global t → plain (text_top t).
Proof. destruct t; try done. intros (H1 & H2 & H3). cbn [text_top]. pl; [by apply plain_name|apply plain_aty|apply plain_init]. Qed.
Lemma plain_func t : wf_func t → plain (text_top t).
Proof.
  destruct t as [|n ps r bbs|n ps r| |]; try done; cbn [wf_func text_top].
  - intros (H1 & H2 & H3 & _ & H4). pl; [by apply plain_name|by apply plain_params|apply plain_ret|]. apply plain_cat_nl. eapply plain_map; [exact plain_block|done].
  - intros (H1 & H2 & H3). pl; [by apply plain_name| |apply plain_ret]. apply plain_sep. eapply plain_map; [|exact H2]. intros; apply plain_aty.
Qed.
Lemma plain_program gs fs : Forall wf_global gs → Forall wf_func fs → plain (text_program gs fs).
Proof.
  intros H1 H2. unfold text_program. pl.
  - apply plain_cat. eapply plain_map; [exact plain_global|done].
  - destruct gs; lit.
  - apply plain_cat_nl. eapply plain_map; [exact plain_func|done].
Qed.
Lemma plain_no_zero s : plain s → Ascii.zero ∉ String.list_ascii_of_string s.
Proof. unfold plain. rewrite list.Forall_forall. intros H Hz. by destruct (H _ Hz). Qed.
