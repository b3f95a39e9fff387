(** Printing a syntax tree and parsing the text. *)
From Coq Require Import Lia ZifyBool ZifyNat ZifyN.
From Verif Require Import Base IrModel TypeModel LexerModel TextModel LexerSpec LexerProofs
  LexerFwdProofs LexerRunProofs ParserModel ParserSpec ParserProofs PrintSpec PieceProofs.

(** ** Induction on nested trees *)
Lemma aty_ind' (P : aty → Prop) :
  P AInt → (∀ b n, P b → P (AArr b n)) → (∀ b, P b → P (APtr b)) →
  (∀ ps r, Forall P ps → (∀ t, r = Some t → P t) → P (AFun ps r)) → ∀ t, P t.
Proof.
  intros H1 H2 H3 H4. fix IH 1. intros [|b n|b|ps r].
  - exact H1. - exact (H2 _ _ (IH b)). - exact (H3 _ (IH b)).
  - apply H4.
    + induction ps as [|p ps IHps]; constructor; [apply IH|apply IHps].
    + destruct r as [r|]; [pose proof (IH r) as Hr; clear IH; intros t [= <-]; exact Hr|].
      clear IH. by intros t [=].
Qed.
Lemma ainit_ind' (P : ainit → Prop) :
  (∀ z, P (IInt z)) → P IUndef → P IZero → (∀ l, Forall P l → P (IAggr l)) → ∀ i, P i.
Proof.
  intros H1 H2 H3 H4. fix IH 1. intros [z| | |l]; [exact (H1 z)|exact H2|exact H3|].
  apply H4. induction l as [|p l IHl]; constructor; [apply IH|apply IHl].
Qed.

(** ** Pieces of trees *)
Notation oth c := (TkOther c%char).
Notation kw k := (TkKeyword k).
Definition seq {A} (p : string → A → list piece) (l : list A) : list piece :=
  match l with
  | [] => []
  | x :: l' => p ""%string x ++ concat (map (λ y, (""%string, oth ",") :: p " "%string y) l')
  end.

Fixpoint p_aty (g : string) (t : aty) : list piece :=
  match t with
  | AInt => [(g, kw KwI32)]
  | AArr b n => (g, oth "[") :: p_aty "" b ++ [("", oth ","); (" ", TkInt (Z.of_N n)); ("", oth "]")]
  | APtr b => (g, oth "*") :: p_aty "" b
  | AFun ps r => (g, oth "(") :: seq p_aty ps ++ ("", oth ")") ::
      match r with None => [] | Some r => ("", oth ":") :: p_aty " " r end
  end%string.

Definition k_val (v : aval) : tokkind :=
  match v with VSym s => TkSymbol s | VInt z => TkInt z | VUndef => kw KwUndef end.
Definition p_val (g : string) (v : aval) : list piece := [(g, k_val v)].

Fixpoint p_init (g : string) (i : ainit) : list piece :=
  match i with
  | IInt z => [(g, TkInt z)]
  | IUndef => [(g, kw KwUndef)]
  | IZero => [(g, kw KwZeroInit)]
  | IAggr l => (g, oth "{") :: seq p_init l ++ [(""%string, oth "}")]
  end.

Definition p_paren {A} (p : string → A → list piece) (l : list A) : list piece :=
  (""%string, oth "(") :: seq p l ++ [(""%string, oth ")")].
Definition p_opt {A} (p : string → A → list piece) (l : list A) : list piece :=
  match l with [] => [] | _ => p_paren p l end.
Definition p_param (g : string) (p : string * aty) : list piece :=
  (g, TkSymbol p.1) :: (""%string, oth ":") :: p_aty " " p.2.
Definition p_ret (r : option aty) : list piece :=
  match r with None => [] | Some t => (""%string, oth ":") :: p_aty " " t end.

Definition p_expr (e : aexpr) : list piece :=
  match e with
  | EMemDecl t => (" ", kw KwAlloc) :: p_aty " " t
  | ELoad s => [(" ", kw KwLoad); (" ", TkSymbol s)]
  | EGetPtr s v => [(" ", kw KwGetPtr); (" ", TkSymbol s); ("", oth ","); (" ", k_val v)]
  | EGetElemPtr s v => [(" ", kw KwGetElemPtr); (" ", TkSymbol s); ("", oth ","); (" ", k_val v)]
  | EBin op l r => [(" ", TkBinaryOp op); (" ", k_val l); ("", oth ","); (" ", k_val r)]
  | ECall f args => (" ", kw KwCall) :: (" ", TkSymbol f) :: p_paren p_val args
  end%string.
Definition p_stmt (g : string) (st : astmt) : list piece :=
  match st with
  | SDef n e => (g, TkSymbol n) :: (" ", oth "=") :: p_expr e
  | SStore (SvSym s) d => [(g, kw KwStore); (" ", TkSymbol s); ("", oth ","); (" ", TkSymbol d)]
  | SStore (SvInit i) d => (g, kw KwStore) :: p_init " " i ++ [("", oth ","); (" ", TkSymbol d)]
  | SCall f args => (g, kw KwCall) :: (" ", TkSymbol f) :: p_paren p_val args
  | SBr c t ta f fa =>
      (g, kw KwBr) :: (" ", k_val c) :: ("", oth ",") :: (" ", TkSymbol t) :: p_opt p_val ta ++
      ("", oth ",") :: (" ", TkSymbol f) :: p_opt p_val fa
  | SJump t a => (g, kw KwJump) :: (" ", TkSymbol t) :: p_opt p_val a
  | SRet None => [(g, kw KwRet)]
  | SRet (Some v) => [(g, kw KwRet); (" ", k_val v)]
  | SErr => []
  end%string.
Definition in_nl : string := String "010" "  ".
Definition p_block (g : string) (b : ablock) : list piece :=
  (g, TkSymbol (b_name b)) :: p_opt p_param (b_params b) ++ (""%string, oth ":") ::
  concat (map (p_stmt in_nl) (b_stmts b)).
(** blocks start on a new line; all but the first after an empty line *)
Definition p_blocks (l : list ablock) : list piece :=
  match l with
  | [] => []
  | b :: l' => p_block nl b ++ concat (map (p_block (nl ++ nl)) l')
  end.
Definition p_top (g : string) (t : atop) : list piece :=
  match t with
  | TGlobal n t i =>
      (g, kw KwGlobal) :: (" ", TkSymbol n) :: (" ", oth "=") :: (" ", kw KwAlloc) ::
      p_aty " " t ++ ("", oth ",") :: p_init " " i
  | TFunDef n ps r bbs =>
      (g, kw KwFun) :: (" ", TkSymbol n) :: p_paren p_param ps ++ p_ret r ++ (" ", oth "{") ::
      p_blocks bbs ++ [(nl, oth "}")]
  | TFunDecl n ps r =>
      (g, kw KwDecl) :: (" ", TkSymbol n) :: p_paren p_aty ps ++ p_ret r
  | TEnd | TErr => []
  end%string.

(** ** Their text *)
Lemma flat_seq {A} (p : string → A → list piece) (tx : A → string) l :
  Forall (λ x, ∀ g, flat (p g x) = chars g ++ chars (tx x)) l →
  flat (seq p l) = chars (sep_comma (map tx l)).
Proof.
  destruct l as [|x l]; [done|]. intros [Hx Hl]%list.Forall_cons. unfold seq.
  rewrite flat_app, Hx. simpl. revert x Hx. induction Hl as [|y l Hy Hl IH]; intros x Hx; simpl.
  - by rewrite app_nil_r.
  - rewrite !chars_app. f_equal. rewrite flat_cons. unfold piece_text. simpl.
    rewrite flat_app, Hy. simpl. do 2 f_equal. by apply (IH y).
Qed.
Ltac flat_go := repeat (rewrite ?flat_cons, ?flat_app, ?chars_app; unfold piece_text; cbn [fst snd show_token]).

Lemma flat_aty t : ∀ g, flat (p_aty g t) = chars g ++ chars (text_aty t).
Proof.
  induction t as [|b n IH|b IH|ps r IHp IHr] using aty_ind'; intros g; cbn [p_aty text_aty].
  - flat_go. simpl. by rewrite app_nil_r.
  - flat_go. rewrite IH. simpl. rewrite ?app_nil_r, <- ?app_assoc. simpl.
    assert (show_Z (Z.of_N n) = show_N n) as ->; [|done].
    unfold show_Z. destruct (Z.of_N n <? 0)%Z eqn:E; [lia|]. by rewrite N2Z.id.
  - flat_go. rewrite IH. simpl. by rewrite <- app_assoc.
  - flat_go. rewrite (flat_seq _ text_aty) by done. simpl. rewrite <- !app_assoc. do 3 f_equal.
    simpl. f_equal. destruct r as [r|]; [|done]. flat_go. by rewrite (IHr _ eq_refl).
Qed.
Lemma flat_init i : ∀ g, flat (p_init g i) = chars g ++ chars (text_init i).
Proof.
  induction i as [z| | |l IH] using ainit_ind'; intros g; cbn [p_init text_init]; flat_go; simpl;
    rewrite ?app_nil_r; try done.
  rewrite (flat_seq _ text_init) by done. by rewrite <- !app_assoc.
Qed.
Lemma show_k_val v : show_token (k_val v) = text_val v.
Proof. by destruct v. Qed.
Lemma flat_val v g : flat (p_val g v) = chars g ++ chars (text_val v).
Proof. unfold p_val. flat_go. simpl. by rewrite app_nil_r, show_k_val. Qed.
Lemma flat_param p g : flat (p_param g p) = chars g ++ chars (text_param p).
Proof.
  unfold p_param, text_param. flat_go. rewrite flat_aty. simpl. by rewrite <- !app_assoc.
Qed.
Lemma flat_paren {A} (p : string → A → list piece) (tx : A → string) l :
  (∀ x g, flat (p g x) = chars g ++ chars (tx x)) →
  flat (p_paren p l) = chars ("(" ++ sep_comma (map tx l) ++ ")").
Proof.
  intros H. unfold p_paren. flat_go. rewrite (flat_seq _ tx); [done|].
  apply Forall_true. intros x g. apply H.
Qed.
Lemma flat_opt_args l : flat (p_opt p_val l) = chars (text_opt_args l).
Proof.
  unfold p_opt, text_opt_args, text_args. destruct l; [done|].
  apply flat_paren. intros. apply flat_val.
Qed.
Lemma flat_opt_params l : flat (p_opt p_param l) = chars (text_opt_params l).
Proof.
  unfold p_opt, text_opt_params, text_params. destruct l; [done|].
  apply flat_paren. intros. apply flat_param.
Qed.
Lemma flat_args l : flat (p_paren p_val l) = chars (text_args l).
Proof. apply flat_paren. intros. apply flat_val. Qed.
Lemma flat_ret r : flat (p_ret r) = chars (text_ret r).
Proof. destruct r as [t|]; [|done]. simpl. flat_go. by rewrite flat_aty. Qed.
Lemma flat_expr e : flat (p_expr e) = " "%char :: chars (text_expr e).
Proof.
  destruct e; cbn [p_expr text_expr]; flat_go; rewrite ?flat_aty, ?flat_args, ?show_k_val; simpl;
    rewrite ?app_nil_r; done.
Qed.
Lemma flat_stmt st g : st ≠ SErr → flat (p_stmt g st) = chars g ++ chars (text_stmt st).
Proof.
  intros Hne. destruct st as [n e|[s|i] d|f args|c t ta f fa|t a|[v|]|]; cbn [p_stmt text_stmt]; [..|done];
    flat_go; rewrite ?flat_expr, ?flat_init, ?flat_args, ?flat_opt_args, ?show_k_val; simpl;
    rewrite <- ?app_assoc, ?app_nil_r; simpl; rewrite <- ?app_assoc; done.
Qed.

Lemma flat_stmts sts : Forall (λ st, st ≠ SErr) sts →
  chars nl ++ chars (cat (map (λ st, "  " ++ text_stmt st ++ nl)%string sts)) =
  flat (concat (map (p_stmt in_nl) sts)) ++ chars nl.
Proof.
  induction 1 as [|st sts H _ IH]; [done|]. cbn [map cat concat].
  rewrite flat_app, <- app_assoc, <- IH, flat_stmt by done. rewrite !chars_app. simpl.
  by rewrite <- !app_assoc.
Qed.
Lemma flat_block b g : no_err_block b →
  flat (p_block g b) ++ chars nl = chars g ++ chars (text_block b).
Proof.
  intros H. unfold p_block, text_block. rewrite !flat_cons, !flat_app, !flat_cons, flat_opt_params.
  unfold piece_text. cbn [fst snd show_token]. rewrite !chars_app. rewrite <- !app_assoc.
  rewrite <- flat_stmts by done. done.
Qed.
Lemma flat_cat_nl {A} (p : string → A → list piece) (tx : A → string) l :
  Forall (λ x, ∀ g, flat (p g x) ++ chars nl = chars g ++ chars (tx x)) l →
  ∀ x g, (∀ g, flat (p g x) ++ chars nl = chars g ++ chars (tx x)) →
  chars g ++ chars (cat_nl (map tx (x :: l))) =
  flat (p g x ++ concat (map (p (nl ++ nl)%string) l)) ++ chars nl.
Proof.
  induction 1 as [|y l Hy Hl IH]; intros x g Hx.
  - simpl. by rewrite app_nil_r, Hx.
  - change (cat_nl (map tx (x :: y :: l))) with (tx x ++ nl ++ cat_nl (map tx (y :: l)))%string.
    rewrite !chars_app, app_assoc, <- Hx, flat_app. cbn [map concat].
    rewrite <- !app_assoc. rewrite <- (IH y (nl ++ nl)%string Hy). by rewrite chars_app, <- app_assoc.
Qed.
Lemma flat_blocks b l : Forall no_err_block (b :: l) →
  chars nl ++ chars (cat_nl (map text_block (b :: l))) = flat (p_blocks (b :: l)) ++ chars nl.
Proof.
  intros [Hb Hl]%list.Forall_cons. apply flat_cat_nl; [|intros; by apply flat_block].
  revert Hl. apply Forall_impl. intros x Hx g. by apply flat_block.
Qed.

Ltac app_norm := repeat progress (simpl; rewrite <- ?app_assoc).
Lemma flat_top t g : wf_global t ∨ wf_func t →
  flat (p_top g t) ++ chars nl = chars g ++ chars (text_top t).
Proof.
  intros H. destruct t as [n t i|n ps r bbs|n ps r| |]; cbn [p_top text_top];
    [| | |simpl in H; tauto..].
  - flat_go. rewrite flat_aty, flat_init. app_norm. done.
  - destruct H as [[]|(_ & _ & _ & Hne & Hb)]. destruct bbs as [|b bbs]; [done|].
    assert (Hb' : Forall no_err_block (b :: bbs)).
    { revert Hb. apply Forall_impl. intros b' (_ & _ & Hs & _). revert Hs. apply Forall_impl.
      intros [] Hs He; done. }
    pose proof (flat_blocks b bbs Hb') as Hx. cbn [String.list_ascii_of_string app] in Hx.
    remember (p_blocks (b :: bbs)) as X. remember (cat_nl (map text_block (b :: bbs))) as Y.
    flat_go. rewrite (flat_paren _ text_param) by (intros; apply flat_param).
    rewrite flat_ret. fold (text_params ps). app_norm.
    assert (Hy : flat X ++ ["010"; "}"; "010"]%char = "010"%char :: chars Y ++ ["}"; "010"]%char).
    { change ["010"; "}"; "010"]%char with (["010"] ++ ["}"; "010"])%char.
      by rewrite app_assoc, <- Hx. }
    by rewrite Hy.
  - flat_go. rewrite (flat_paren _ text_aty) by (intros; apply flat_aty). rewrite flat_ret.
    rewrite !chars_app. app_norm. done.
Qed.

(** ** Their validity *)
Lemma okgap_nil : okgap "".
Proof. split; [constructor|done]. Qed.
Lemma okgap_sp : okgap " ".
Proof. split; [repeat constructor; by left|done]. Qed.
Lemma okgap_nl : okgap nl.
Proof. split; [repeat constructor; by right|done]. Qed.
Lemma okgap_nl2 : okgap (nl ++ nl).
Proof. split; [repeat constructor; by right|done]. Qed.
Lemma okgap_in : okgap in_nl.
Proof. split; [repeat constructor; (by left) || (by right)|done]. Qed.
#[local] Hint Resolve okgap_nil okgap_sp okgap_nl okgap_nl2 okgap_in : ok.

Lemma valid_cons_oth b g c l : okgap g → c ∈ punct → valid true l → valid b ((g, TkOther c) :: l).
Proof. intros Hg Hc Hl. simpl. split_and!; try done. by right; right. Qed.
Lemma valid_cons_gap b g k l : okgap g → okk k → g ≠ EmptyString → valid false l → valid b ((g, k) :: l).
Proof. intros Hg Hk Hn Hl. simpl. split_and!; try done; [by right; left|by apply valid_weak]. Qed.
Lemma valid_cons_tr g k l : okgap g → okk k → valid false l → valid true ((g, k) :: l).
Proof. intros Hg Hk Hl. simpl. split_and!; try done; [by left|by apply valid_weak]. Qed.

Definition vpiece {A} (p : string → A → list piece) (x : A) : Prop :=
  ∀ b g, okgap g → (b = true ∨ g ≠ EmptyString) → valid b (p g x).
Lemma punct_in c : bool_decide (c ∈ punct) = true → c ∈ punct.
Proof. apply bool_decide_eq_true. Qed.
Ltac pin := by apply punct_in; vm_compute.
Lemma valid_seq {A} (p : string → A → list piece) l :
  Forall (vpiece p) l → valid true (seq p l).
Proof.
  destruct 1 as [|x l Hx Hl]; [done|]. simpl. apply valid_app; [apply Hx; auto with ok|].
  induction Hl as [|y l Hy Hl IH]; [done|]. cbn [map concat].
  change (valid false ((""%string, TkOther ",") :: (p " "%string y ++ concat (map (λ y : A, (""%string, oth ",") :: p " "%string y) l)))).
  apply valid_cons_oth; [auto with ok|pin|]. apply valid_app; [|done].
  apply Hy; auto with ok.
Qed.
Lemma valid_one k b g l : okk k → okgap g → (b = true ∨ g ≠ EmptyString) → valid false l →
  valid b ((g, k) :: l).
Proof.
  intros Hk Hg Hb Hl. simpl. split_and!; try done; [tauto|by apply valid_weak].
Qed.
Lemma valid_true l : valid false l → valid true l.
Proof. apply valid_weak. Qed.

Ltac vgo :=
  match goal with
  | |- valid _ [] => exact I
  | |- valid _ ((_, TkOther _) :: _) => apply valid_cons_oth; [auto with ok|pin|]
  | |- valid _ ((_, _) :: _) => apply valid_one; [try done|auto with ok|auto|]
  | |- valid _ (_ ++ _) => apply valid_app
  end.

Lemma valid_aty t : wf_aty t → vpiece p_aty t.
Proof.
  induction t as [|b n IH|b IH|ps r IHp IHr] using aty_ind'; inversion 1; subst;
    intros b' g Hg Hb; cbn [p_aty].
  - by repeat vgo.
  - vgo. vgo; [apply IH; auto with ok|]. repeat vgo. simpl. unfold i64. lia.
  - vgo. apply IH; auto with ok.
  - vgo. vgo.
    + apply valid_seq. rewrite list.Forall_forall in *. eauto.
    + vgo. destruct r as [r|]; [|vgo]. vgo. apply (IHr r); auto with ok.
Qed.
Lemma okk_int z : wf_int z → okk (TkInt z).
Proof. unfold wf_int. simpl. unfold i64. lia. Qed.
Lemma valid_init i : wf_init i → vpiece p_init i.
Proof.
  induction i as [z| | |l IH] using ainit_ind'; inversion 1; subst;
    intros b' g Hg Hb; cbn [p_init].
  - repeat vgo. by apply okk_int.
  - by repeat vgo.
  - by repeat vgo.
  - vgo. vgo; [|by repeat vgo]. apply valid_seq. rewrite list.Forall_forall in *. eauto.
Qed.
Lemma okk_val v : wf_val v → okk (k_val v).
Proof. destruct v; simpl; try done. apply okk_int. Qed.
Lemma valid_val v : wf_val v → vpiece p_val v.
Proof. intros H b g Hg Hb. unfold p_val. repeat vgo. by apply okk_val. Qed.
Lemma valid_param p : wf_param p → vpiece p_param p.
Proof. intros [H1 H2] b g Hg Hb. unfold p_param. repeat vgo. apply valid_aty; auto with ok. Qed.
Lemma valid_paren {A} (p : string → A → list piece) l b :
  Forall (vpiece p) l → valid b (p_paren p l).
Proof. intros H. unfold p_paren. vgo. vgo; [by apply valid_seq|by repeat vgo]. Qed.
Lemma valid_opt {A} (p : string → A → list piece) l b :
  Forall (vpiece p) l → valid b (p_opt p l).
Proof. intros H. unfold p_opt. destruct l; [done|]. by apply valid_paren. Qed.
Lemma valid_vals l : Forall wf_val l → Forall (vpiece p_val) l.
Proof. apply Forall_impl. apply valid_val. Qed.
Lemma valid_ret r b : wf_ret r → valid b (p_ret r).
Proof.
  intros H. destruct r as [t|]; [|done]. simpl p_ret. vgo. apply valid_aty; auto with ok.
Qed.
Lemma valid_expr e b : wf_expr e → valid b (p_expr e).
Proof.
  destruct e; cbn [wf_expr p_expr]; intros H; destruct_and?; repeat (vgo || (by apply okk_val)).
  - apply valid_aty; auto with ok.
  - apply valid_paren. by apply valid_vals.
Qed.
Lemma valid_stmt st b g : wf_stmt st → okgap g → g ≠ EmptyString → valid b (p_stmt g st).
Proof.
  destruct st as [n e|[s|i] d|f args|c t ta f fa|t a|[v|]|]; cbn [wf_stmt p_stmt]; intros H Hg Hn;
    destruct_and?; repeat (vgo || (by apply okk_val)).
  - by apply valid_expr.
  - apply valid_init; auto with ok.
  - apply valid_paren. by apply valid_vals.
  - apply valid_opt. by apply valid_vals.
  - apply valid_opt. by apply valid_vals.
  - apply valid_opt. by apply valid_vals.
  - apply okk_val. auto.
Qed.
Lemma valid_concat {A} (p : string → A → list piece) g l :
  Forall (λ x, valid false (p g x)) l → valid false (concat (map (p g) l)).
Proof. induction 1; [done|]. simpl. by apply valid_app. Qed.
Lemma valid_block bl b g : wf_block bl → okgap g → g ≠ EmptyString → valid b (p_block g bl).
Proof.
  intros (H1 & H2 & H3 & _) Hg Hn. unfold p_block. vgo. vgo.
  - apply valid_opt. revert H2. apply Forall_impl. apply valid_param.
  - vgo. apply valid_true, valid_concat. revert H3. apply Forall_impl. intros st Hst.
    apply valid_stmt; auto with ok.
Qed.
Lemma valid_top t b g : wf_global t ∨ wf_func t → okgap g → (b = true ∨ g ≠ EmptyString) →
  valid b (p_top g t).
Proof.
  intros H Hg Hb. destruct t as [n t i|n ps r bbs|n ps r| |]; cbn [p_top]; [| | |done..].
  - destruct H as [(H1 & H2 & H3)|[]]. repeat vgo.
    + apply valid_aty; auto with ok. + apply valid_init; auto with ok.
  - destruct H as [[]|(H1 & H2 & H3 & _ & H4)]. repeat vgo.
    + apply valid_paren. revert H2. apply Forall_impl. apply valid_param.
    + by apply valid_ret.
    + destruct bbs as [|bl bbs]; [done|]. apply list.Forall_cons in H4 as [H4 H5]. unfold p_blocks.
      vgo; [apply valid_block; auto with ok|]. apply valid_concat. revert H5. apply Forall_impl.
      intros x Hx. apply valid_block; auto with ok.
  - destruct H as [[]|(H1 & H2 & H3)]. repeat vgo.
    + apply valid_paren. revert H2. apply Forall_impl. apply valid_aty.
    + by apply valid_ret.
Qed.
