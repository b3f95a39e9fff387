(** Proofs about the text of types. *)
From Coq Require Import Lia ZifyBool ZifyNat ZifyN.
From Verif Require Import Base IdModel TypeModel IrModel LexerModel TextModel LexerSpec LexerProofs
  LexerRunProofs ParserModel ParserSpec ParserProofs PrintSpec PieceProofs RoundProofs BackProofs
  FrontModel.

Fixpoint to_aty (t : ty) : aty :=
  match t with
  | TInt32 | TUnit => AInt
  | TArray b n => AArr (to_aty b) n
  | TPtr b => APtr (to_aty b)
  | TFun ps r => AFun (map to_aty ps) (if is_unit r then None else Some (to_aty r))
  end.

Lemma to_aty_spec t : readable t →
  wf_aty (to_aty t) ∧ show_ty t = text_aty (to_aty t) ∧ gen_type (to_aty t) = Some t.
Proof.
  revert t. fix IH 1. intros [| |b n|b|ps r] Ht; simpl.
  - split_and!; [constructor|reflexivity|reflexivity].
  - inversion Ht.
  - assert (readable b ∧ (1 ≤ n < 2 ^ 63)%N) as [Hb Hn] by (inversion Ht; subst; auto).
    destruct (IH b Hb) as (H1 & -> & H2). split_and!; [constructor; [exact H1|lia]|reflexivity|].
    rewrite H2. simpl. unfold get_array. destruct (n =? 0)%N eqn:E; [lia|reflexivity].
  - assert (readable b) as Hb by (inversion Ht; subst; auto).
    destruct (IH b Hb) as (H1 & -> & H2). split_and!; [constructor; exact H1|reflexivity|].
    rewrite H2. reflexivity.
  - assert (Forall readable ps ∧ (r = TUnit ∨ readable r)) as [Hps Hr] by (inversion Ht; subst; auto).
    assert (Hl : Forall wf_aty (map to_aty ps) ∧ map show_ty ps = map text_aty (map to_aty ps) ∧
      ((fix go (l : list aty) : option (list ty) :=
               match l with
               | [] => Some []
               | x :: l' => y ← gen_type x; ys ← go l'; Some (y :: ys)
               end) (map to_aty ps) = Some ps)).
    { clear Ht Hr. induction ps as [|x l IHl]; simpl; [split_and!; [constructor|reflexivity|reflexivity]|].
      assert (readable x ∧ Forall readable l) as [Hx Hl] by (inversion Hps; subst; auto).
      destruct (IH x Hx) as (H1 & -> & H3).
      destruct (IHl Hl) as (I1 & -> & I3). split_and!; [constructor; [exact H1|exact I1]|reflexivity|].
      rewrite H3. simpl. rewrite I3. reflexivity. }
    destruct Hl as (L1 & L2 & L3). rewrite L3. simpl. clear L3.
    assert (Hr' : is_unit r = true ∧ r = TUnit ∨ is_unit r = false ∧ readable r).
    { destruct Hr as [-> |Hr]; [left; split; reflexivity|right]. split; [|exact Hr]. destruct Hr; reflexivity. }
    destruct Hr' as [[-> ->]|[-> Hr']]; simpl.
    + rewrite L2. split_and!; [constructor; [exact L1|discriminate]|reflexivity|reflexivity].
    + destruct (IH r Hr') as (H1 & -> & H3). rewrite L2, H3.
      split_and!; [constructor; [exact L1|]| |reflexivity].
      * intros ? [= <-]. exact H1.
      * reflexivity.
Qed.

Lemma type_text_round_trip t tr e : readable t → oktail tr →
  ∃ s l a s', parser_new (lex_new (RByte <$> (chars (show_ty t) ++ tr)) e) = (Rok s, l) ∧
    parse_type (p_fuel s) s = (Rok a, s') ∧ cur_kind s' = TkEnd ∧ perrs s' = e ∧
    gen_type a = Some t.
Proof.
  intros Ht Htr. destruct (to_aty_spec t Ht) as (H1 & -> & H2).
  destruct (type_round_trip (to_aty t) tr e H1 Htr) as (s & l & s' & E1 & E2 & E3 & E4).
  exists s, l, (to_aty t), s'. done.
Qed.

Lemma show_ty_inj t t' : readable t → readable t' → show_ty t = show_ty t' → t = t'.
Proof.
  intros H H' He.
  destruct (type_text_round_trip t [] 0 H ltac:(constructor)) as (s & l & a & s1 & E1 & E2 & _ & _ & E3).
  destruct (type_text_round_trip t' [] 0 H' ltac:(constructor)) as (s' & l' & a' & s1' & F1 & F2 & _ & _ & F3).
  rewrite He in E1. rewrite F1 in E1. injection E1 as -> ->. rewrite F2 in E2. injection E2 as -> ->.
  congruence.
Qed.

Lemma gen_type_no_unit a t : gen_type a = Some t → no_unit t.
Proof.
  revert a t. fix IH 1. intros [|b n|b|ps r] t; simpl.
  - intros [= <-]. constructor.
  - destruct (gen_type b) as [b'|] eqn:Hb; simpl; [|discriminate]. unfold get_array.
    destruct (n =? 0)%N; [discriminate|]. intros [= <-]. constructor. exact (IH b b' Hb).
  - destruct (gen_type b) as [b'|] eqn:Hb; simpl; [|discriminate]. intros [= <-]. constructor.
    exact (IH b b' Hb).
  - destruct ((fix go (l : list aty) : option (list ty) :=
               match l with
               | [] => Some []
               | x :: l' => y ← gen_type x; ys ← go l'; Some (y :: ys)
               end) ps) as [ps'|] eqn:Hps; simpl; [|discriminate].
    assert (Hr : ∀ r', (match r with None => Some TUnit | Some r => gen_type r end) = Some r' →
      r' = TUnit ∨ no_unit r').
    { destruct r as [r|]; intros r'; [intros Hr; right; exact (IH r r' Hr)|intros [= <-]; by left]. }
    destruct (match r with None => Some TUnit | Some r => gen_type r end) as [r'|]; simpl; [|discriminate].
    intros [= <-]. constructor; [|by apply Hr]. clear Hr. revert ps' Hps.
    induction ps as [|x l IHl]; intros ps'; [intros [= <-]; constructor|].
    destruct (gen_type x) as [x'|] eqn:Hx; simpl; [|discriminate].
    match goal with |- context [mbind _ ?e] => destruct e as [l'|] eqn:El end; simpl; [|discriminate].
    intros [= <-]. constructor; [exact (IH x x' Hx)|]. apply IHl. reflexivity.
Qed.
