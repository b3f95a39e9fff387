(** The names and integers of trees that are read from a text in ASCII. *)
From Coq Require Import Lia ZifyBool ZifyNat ZifyN.
From Verif Require Import Base IrModel TypeModel TextModel LexerModel LexerSpec ParserModel ParserSpec
  PrintSpec LexerProofs ParserProofs.

(** ** Trees without bad names and integers; array lengths are not looked at *)
Definition ok_expr (e : aexpr) : Prop :=
  match e with
  | EMemDecl t => True
  | ELoad s => wf_name s
  | EGetPtr s v | EGetElemPtr s v => wf_name s ∧ wf_val v
  | EBin _ l r => wf_val l ∧ wf_val r
  | ECall f args => wf_name f ∧ Forall wf_val args
  end.
Definition ok_stmt (st : astmt) : Prop :=
  match st with
  | SDef n e => wf_name n ∧ ok_expr e
  | SStore (SvSym s) d => wf_name s ∧ wf_name d
  | SStore (SvInit i) d => wf_init i ∧ wf_name d
  | SCall f args => wf_name f ∧ Forall wf_val args
  | SBr c t ta f fa =>
      wf_val c ∧ wf_name t ∧ Forall wf_val ta ∧ wf_name f ∧ Forall wf_val fa
  | SJump t a => wf_name t ∧ Forall wf_val a
  | SRet v => ∀ x, v = Some x → wf_val x
  | SErr => True
  end.
Definition ok_param (p : string * aty) : Prop := wf_name p.1.
Definition ok_block (b : ablock) : Prop :=
  wf_name (b_name b) ∧ Forall ok_param (b_params b) ∧ Forall ok_stmt (b_stmts b).
Definition ok_top (t : atop) : Prop :=
  match t with
  | TGlobal n t i => wf_name n ∧ wf_init i
  | TFunDef n ps r bbs => wf_name n ∧ Forall ok_param ps ∧ Forall ok_block bbs
  | TFunDecl n ps r => wf_name n
  | _ => True
  end.

(** ** The states of the parser *)
Definition is_ascii (c : ascii) : Prop := (N_of_ascii c < 128)%N.
Definition good_tok (k : tokkind) : Prop := ∀ n, k = TkSymbol n → wf_name n.
Definition good (s : ps) : Prop :=
  Forall is_ascii (rem (p_lex s)) ∧ inv (p_lex s) ∧ good_tok (cur_kind s).

Definition post {A} (P : A → Prop) (r : res A) : Prop :=
  match r with Rok a => P a | _ => True end.
Definition yields {A} (P : A → Prop) (m : M ps A) : Prop :=
  ∀ s r s', good s → m s = (r, s') → good s' ∧ post P r.

Lemma wf_symbol t : Forall is_ascii t → symbol_text t → wf_name (utf8s t).
Proof.
  intros Ha Ht. assert (String.list_ascii_of_string (utf8s t) = t) as E.
  { rewrite utf8s_ascii by done. apply String.list_ascii_of_string_of_list_ascii. }
  split; [unfold ascii_only|]; by rewrite E.
Qed.
Lemma moved_ascii l cs l' : moved l cs l' → Forall is_ascii (rem l) → Forall is_ascii cs ∧ Forall is_ascii (rem l').
Proof. intros [H _]. rewrite H. apply list.Forall_app. Qed.

Lemma y_next : yields (λ _, True) p_next.
Proof.
  intros s r s' (Ha & Hi & Ht). unfold p_next.
  destruct (lex_next_token (p_lex s)) as [r0 l0] eqn:E. unfold lex_next_token in E.
  apply next_token_f_spec in E as (Hp & _ & _ & Hr); [|done|lia].
  assert (Hi' : inv l0) by apply Hp.
  assert (H : Forall is_ascii (rem l0) ∧ ∀ t, r0 = Rok t → good_tok (tok_kind t)).
  { destruct Hr as [(gap & l1 & _ & Hm & _ & k & c & t & -> & Hm2 & _ & Hk & _)
      |[(_ & -> & Hm & _)|(cs & f & -> & Hm & _)]].
    - apply moved_ascii in Hm as [_ Hm]; [|done]. apply moved_ascii in Hm2 as [Hc Hm2]; [|done].
      split; [done|]. intros ? [= <-] n. simpl. intros ->.
      inversion Hk; subst. by apply wf_symbol.
    - apply moved_ascii in Hm as [_ Hm]; [|done]. split; [done|]. by intros ? [= <-] n.
    - apply moved_ascii in Hm as [_ Hm]; [|done]. split; [done|]. by intros ? [=]. }
  destruct H as [H1 H2].
  destruct r0 as [t|f| |]; intros [= <- <-]; (split; [split_and!|]; try done).
  by apply (H2 _ eq_refl).
Qed.
Lemma y_error {A} (P : A → Prop) : yields P p_error.
Proof. intros s r s' (Ha & Hi & Ht) [= <- <-]. split; [split_and!; done|done]. Qed.
Lemma y_fuel {A} (P : A → Prop) : yields P (λ s, (Rfuel, s)).
Proof. by intros s r s' Hg [= <- <-]. Qed.
Lemma y_ok {A} (P : A → Prop) a : P a → yields P (mok a).
Proof. by intros H s r s' Hg [= <- <-]. Qed.
Lemma y_then {A B} (P : A → Prop) (Q : B → Prop) m k :
  yields P m → (∀ a, P a → yields Q (k a)) → yields Q (mthen m k).
Proof.
  intros Hm Hk s r s' Hg. unfold mthen. destruct (m s) as [r0 s0] eqn:E.
  apply Hm in E as [Hg' Hp]; [|done].
  destruct r0 as [a|f| |]; [|by intros [= <- <-]..]. by apply Hk.
Qed.
Lemma y_get {B} (Q : B → Prop) (k : ps → M ps B) : (∀ x, yields Q (k x)) → yields Q (mthen mget k).
Proof. intros H s r s' Hg. by apply H. Qed.
Lemma y_impl {A} (P Q : A → Prop) m : yields P m → (∀ a, P a → Q a) → yields Q m.
Proof. intros H Hi s r s' Hg E. apply H in E as [? Hp]; [|done]. split; [done|]. destruct r; simpl in *; auto. Qed.
(** a function that looks at the current token *)
Lemma y_at {A} (P : A → Prop) (k : tokkind → M ps A) m : (∀ s, m s = k (cur_kind s) s) →
  (∀ t, good_tok t → yields P (k t)) → yields P m.
Proof. intros E H s r s' Hg. rewrite E. apply H; [apply Hg|done]. Qed.

Ltac ycase := let s0 := fresh in intros s0;
  unfold read_sym, read_int, read_op, expect_, parse_opt_list, opt_ret, parse_value, parse_expr,
    parse_store_value, parse_stmt, parse_top;
  destruct (cur_kind s0) as [| |[]| | |]; repeat case_match; reflexivity.
Ltac ynext := eapply y_then; [apply y_next|intros _ _].

Lemma y_sym : yields wf_name read_sym.
Proof.
  apply (y_at wf_name (λ k, match k with TkSymbol v => (p_next;; mok v) | _ => p_error end)); [ycase|].
  intros [] Ht; try apply y_error. ynext. apply y_ok. by apply Ht.
Qed.
Lemma y_int : yields (λ _, True) read_int.
Proof.
  apply (y_at _ (λ k, match k with TkInt v => (p_next;; mok v) | _ => p_error end)); [ycase|].
  intros [] Ht; try apply y_error. ynext. by apply y_ok.
Qed.
Lemma y_op : yields (λ _, True) read_op.
Proof.
  apply (y_at _ (λ k, match k with TkBinaryOp v => (p_next;; mok v) | _ => p_error end)); [ycase|].
  intros [] Ht; try apply y_error. ynext. by apply y_ok.
Qed.
Lemma y_expect_ f : yields (λ _, True) (expect_ f).
Proof.
  apply (y_at _ (λ k, if f k then p_next else p_error)); [ycase|].
  intros t _. destruct (f t); [apply y_next|apply y_error].
Qed.
Lemma y_expect c : yields (λ _, True) (expect c).
Proof. apply y_expect_. Qed.
Ltac yexp := eapply y_then; [first [apply y_expect|apply y_expect_]|intros _ _].
Ltac ybind H x Hx := eapply y_then; [apply H|intros x Hx].

Lemma y_loop {A} (P : A → Prop) fuel m : yields P m →
  yields (λ l, l ≠ [] ∧ Forall P l) (list_loop fuel m).
Proof.
  intros Hm. induction fuel as [|f IH]; cbn [list_loop]; [apply y_fuel|].
  ybind Hm x Hx. apply y_get. intros s. destruct (is_other _ _).
  - ynext. ybind IH xs Hxs. apply y_ok. split; [done|]. constructor; [done|]. apply Hxs.
  - apply y_ok. split; [done|]. by repeat constructor.
Qed.
Lemma y_list {A} (P : A → Prop) fuel m : yields P m → yields (Forall P) (parse_list fuel m).
Proof.
  intros Hm. unfold parse_list. yexp. apply y_get. intros s.
  eapply (y_then (Forall P)).
  - destruct (is_other _ _); [by apply y_ok|]. eapply y_impl; [by apply y_loop|]. by intros l [_ ?].
  - intros xs Hxs. yexp. by apply y_ok.
Qed.
Lemma y_opt_list {A} (P : A → Prop) fuel m : yields P m → yields (Forall P) (parse_opt_list fuel m).
Proof.
  intros Hm.
  apply (y_at _ (λ k, if is_other "(" k then parse_list fuel m else mok [])); [ycase|].
  intros t _. destruct (is_other _ _); [by apply y_list|by apply y_ok].
Qed.
Lemma y_true {A} (P : A → Prop) m : yields P m → yields (λ _, True) m.
Proof. intros H. by eapply y_impl. Qed.
Lemma y_ret m : yields (λ _, True) m → yields (λ _, True) (opt_ret m).
Proof.
  intros Hm. apply (y_at _ (λ k, if is_other ":" k then (p_next;; t <- m;; mok (Some t)) else mok None)); [ycase|].
  intros t _. destruct (is_other _ _); [|by apply y_ok]. ynext. ybind Hm a Ha. by apply y_ok.
Qed.
Lemma y_type fuel : yields (λ _, True) (parse_type fuel).
Proof.
  induction fuel as [|f IH]; cbn [parse_type]; [apply y_fuel|].
  apply (y_at _ (λ k, match k with
      | TkKeyword KwI32 => (p_next;; mok AInt)
      | TkOther c =>
          if Ascii.eqb c "[" then
            (p_next;;
             base <- parse_type f;;
             expect ",";;
             len <- read_int;;
             expect "]";;
             mok (AArr base (i64_as_usize len)))
          else if Ascii.eqb c "*" then
            (p_next;;
             base <- parse_type f;;
             mok (APtr base))
          else if Ascii.eqb c "(" then
            (params <- parse_list f (parse_type f);;
             ret <- opt_ret (parse_type f);;
             mok (AFun params ret))
          else p_error
      | _ => p_error
      end)); [ycase|].
  intros [z|n|[]|op|c|] _; try apply y_error.
  - ynext. by apply y_ok.
  - destruct (Ascii.eqb c "[").
    { ynext. ybind IH a Ha. yexp. ybind y_int z Hz. yexp. by apply y_ok. }
    destruct (Ascii.eqb c "*").
    { ynext. ybind IH a Ha. by apply y_ok. }
    destruct (Ascii.eqb c "("); [|apply y_error].
    eapply y_then; [apply y_list, IH|]. intros ps _.
    eapply y_then; [apply y_ret, IH|]. intros r _. by apply y_ok.
Qed.
Lemma y_param fuel : yields ok_param (parse_param fuel).
Proof. unfold parse_param. ybind y_sym n Hn. yexp. ybind y_type t Ht. by apply y_ok. Qed.
Lemma wf_i32 z : wf_int (i64_as_i32 z).
Proof. unfold wf_int, i64_as_i32. pose proof (Z.mod_pos_bound (z + 2147483648) 4294967296). lia. Qed.
Lemma y_value : yields wf_val parse_value.
Proof.
  apply (y_at _ (λ k, match k with
  | TkSymbol v => (p_next;; mok (VSym v))
  | TkInt i => (p_next;; mok (VInt (i64_as_i32 i)))
  | TkKeyword KwUndef => (p_next;; mok VUndef)
  | _ => p_error
  end)); [ycase|].
  intros [z|n|[]|op|c|] Ht; try apply y_error; ynext; apply y_ok; simpl; [apply wf_i32|by apply Ht|done].
Qed.
Lemma y_init fuel : yields wf_init (parse_init fuel).
Proof.
  induction fuel as [|f IH]; cbn [parse_init]; [apply y_fuel|].
  apply (y_at _ (λ k, match k with
      | TkInt i => (p_next;; mok (IInt (i64_as_i32 i)))
      | TkKeyword KwUndef => (p_next;; mok IUndef)
      | TkKeyword KwZeroInit => (p_next;; mok IZero)
      | TkOther c =>
          if Ascii.eqb c "{" then
            (expect "{";;
             elems <- elems_loop f (parse_init f);;
             expect "}";;
             mok (IAggr elems))
          else p_error
      | _ => p_error
      end)); [ycase|].
  intros [z|n|[]|op|c|] _; try apply y_error.
  1-3: ynext; apply y_ok; constructor; apply wf_i32.
  destruct (Ascii.eqb c "{"); [|apply y_error]. yexp.
  eapply y_then; [apply y_loop, IH|]. intros l [Hl1 Hl2]. yexp. apply y_ok. by constructor.
Qed.
Lemma y_call fuel : yields (λ fa, wf_name fa.1 ∧ Forall wf_val fa.2) (parse_fun_call fuel).
Proof.
  unfold parse_fun_call. ynext. ybind y_sym f Hf.
  eapply y_then; [apply y_list, y_value|]. intros a Ha. by apply y_ok.
Qed.
Lemma y_gep mk : (∀ s v, wf_name s → wf_val v → ok_expr (mk s v)) → yields ok_expr (parse_gep mk).
Proof.
  intros H. unfold parse_gep. ynext. ybind y_sym s Hs. yexp. ybind y_value v Hv. apply y_ok. by apply H.
Qed.
Lemma y_expr fuel : yields ok_expr (parse_expr fuel).
Proof.
  apply (y_at _ (λ k, match k with
  | TkKeyword KwAlloc => (p_next;; t <- parse_type fuel;; mok (EMemDecl t))
  | TkKeyword KwLoad => (p_next;; v <- read_sym;; mok (ELoad v))
  | TkKeyword KwGetPtr => parse_gep EGetPtr
  | TkKeyword KwGetElemPtr => parse_gep EGetElemPtr
  | TkBinaryOp _ =>
      (op <- read_op;;
       l <- parse_value;;
       expect ",";;
       r <- parse_value;;
       mok (EBin op l r))
  | TkKeyword KwCall => ('(f, args) <- parse_fun_call fuel;; mok (ECall f args))
  | _ => p_error
  end)); [ycase|].
  intros [z|n|[]|op|c|] _; try apply y_error.
  - ynext. ybind y_type t Ht. by apply y_ok.
  - ynext. ybind y_sym t Ht. by apply y_ok.
  - by apply y_gep.
  - by apply y_gep.
  - ybind y_call fa Hfa. destruct fa as [f a]. by apply y_ok.
  - ybind y_op o Ho. ybind y_value l Hl. yexp. ybind y_value r Hr. by apply y_ok.
Qed.
Lemma y_stmt fuel : yields ok_stmt (parse_stmt fuel).
Proof.
  apply (y_at _ (λ k, match k with
  | TkSymbol _ => parse_symbol_def fuel
  | TkKeyword KwStore => parse_store fuel
  | TkKeyword KwCall => ('(f, args) <- parse_fun_call fuel;; mok (SCall f args))
  | TkKeyword KwBr => parse_branch fuel
  | TkKeyword KwJump => parse_jump fuel
  | TkKeyword KwRet => parse_return
  | _ => p_error
  end)); [ycase|].
  intros [z|n|[]|op|c|] _; try apply y_error.
  - unfold parse_symbol_def. ybind y_sym n' Hn. yexp. ybind y_expr e He. by apply y_ok.
  - unfold parse_store. ynext.
    eapply (y_then (λ v, match v with SvSym s => wf_name s | SvInit i => wf_init i end)).
    + apply (y_at _ (λ k, match k with
        | TkSymbol v => (p_next;; mok (SvSym v))
        | _ => (i <- parse_init fuel;; mok (SvInit i)) end)); [ycase|].
      intros [] Ht; try (ybind y_init i Hi; by apply y_ok). ynext. apply y_ok. by apply Ht.
    + intros v Hv. yexp. ybind y_sym d Hd. apply y_ok. by destruct v.
  - unfold parse_branch. ynext. ybind y_value v Hv. yexp. ybind y_sym t Ht.
    eapply y_then; [apply y_opt_list, y_value|]. intros a Ha. yexp. ybind y_sym f Hf.
    eapply y_then; [apply y_opt_list, y_value|]. intros b Hb. by apply y_ok.
  - unfold parse_jump. ynext. ybind y_sym t Ht.
    eapply y_then; [apply y_opt_list, y_value|]. intros a Ha. by apply y_ok.
  - ybind y_call fa Hfa. destruct fa as [f a]. by apply y_ok.
  - unfold parse_return. apply y_get. intros s. ynext. apply y_get. intros s'.
    destruct (is_in_same_line_as _ _).
    + ybind y_value v Hv. apply y_ok. by intros ? [= <-].
    + by apply y_ok.
Qed.
Lemma y_recover fuel stop brk : yields (λ _, True) (recover fuel stop brk).
Proof.
  induction fuel as [|f IH]; cbn [recover]; [apply y_fuel|].
  intros s r s' Hg. destruct (stop _); [by intros [= <- <-]|]. destruct (brk _); [by intros [= <- <-]|].
  destruct (p_next s) as [r0 s0] eqn:E. apply y_next in E as [Hg' _]; [|done].
  destruct r0 as [?|[]| |]; try by intros [= <- <-]. all: intros E'; by eapply IH.
Qed.
Lemma y_block_stmt fuel : yields (λ x, ok_stmt x.1) (block_stmt fuel).
Proof.
  intros s r s' Hg. unfold block_stmt. destruct (stmt_start _) as [ex|]; [|by apply y_error].
  destruct (parse_stmt fuel s) as [r0 s0] eqn:E. apply y_stmt in E as [Hg' Hp]; [|done].
  destruct r0 as [st|[]| |]; try by intros [= <- <-].
  apply (y_then (λ _, True) (λ x : astmt * bool, ok_stmt x.1)); [apply y_recover| |done].
  intros b _. by apply y_ok.
Qed.
Lemma y_block_loop fuel g : yields (Forall ok_stmt) (block_loop_ fuel g).
Proof.
  induction fuel as [|f IH]; cbn [block_loop_]; [apply y_fuel|].
  ybind y_block_stmt x Hx. destruct x as [st []].
  - apply y_ok. by repeat constructor.
  - ybind IH sts Hs. apply y_ok. by constructor.
Qed.
Lemma y_block fuel : yields ok_block (parse_block fuel).
Proof.
  unfold parse_block. ybind y_sym n Hn. eapply y_then; [apply y_opt_list, y_param|]. intros ps Hps.
  yexp. ybind y_block_loop sts Hs. by apply y_ok.
Qed.
Lemma y_blocks fuel g : yields (Forall ok_block) (blocks_loop fuel g).
Proof.
  induction fuel as [|f IH]; cbn [blocks_loop]; [apply y_fuel|].
  apply (y_at _ (λ k, if is_other "}" k then mok [] else
     (b <- parse_block g;; bs <- blocks_loop f g;; mok (b :: bs)))); [ycase|].
  intros t _. destruct (is_other _ _); [by apply y_ok|].
  ybind y_block b Hb. ybind IH bs Hbs. apply y_ok. by constructor.
Qed.
Lemma y_top fuel : yields ok_top (parse_top fuel).
Proof.
  apply (y_at _ (λ k, match k with
  | TkEnd => mok TEnd
  | TkKeyword KwGlobal => parse_global_def fuel
  | TkKeyword KwFun => parse_fun_def fuel
  | TkKeyword KwDecl => parse_fun_decl fuel
  | _ => p_error
  end)); [ycase|].
  intros [z|n|[]|op|c|] _; try apply y_error; [..|by apply y_ok].
  - unfold parse_global_def. ynext. ybind y_sym n Hn. yexp. yexp. ybind y_type t Ht. yexp.
    ybind y_init i Hi. by apply y_ok.
  - unfold parse_fun_def. ynext. ybind y_sym n Hn.
    eapply y_then; [apply y_list, y_param|]. intros ps Hps.
    eapply y_then; [apply y_ret, y_type|]. intros r _. yexp.
    ybind y_blocks bbs Hbbs. ynext. destruct bbs; [apply y_error|by apply y_ok].
  - unfold parse_fun_decl. ynext. ybind y_sym n Hn.
    eapply y_then; [apply y_list, y_type|]. intros ps Hps.
    eapply y_then; [apply y_ret, y_type|]. intros r _. by apply y_ok.
Qed.
Lemma y_parse_next : yields ok_top parse_next.
Proof.
  intros s r s' Hg. unfold parse_next, parse_next_f. destruct (top_start _); [|by apply y_error].
  destruct (parse_top _ s) as [r0 s0] eqn:E. apply y_top in E as [Hg' Hp]; [|done].
  destruct r0 as [t|[]| |]; try by intros [= <- <-].
  apply (y_then (λ _, True) ok_top); [apply y_recover| |done]. intros b _. by apply y_ok.
Qed.
Lemma parses_good s ts s' : parses s ts s' → good s → Forall ok_top ts ∧ good s'.
Proof.
  induction 1 as [s s' E|s t s1 ts s' E Ht Hp IH]; intros Hg.
  - apply y_parse_next in E as [Hg' _]; [|done]. done.
  - apply y_parse_next in E as [Hg' Ho]; [|done]. apply IH in Hg' as [H1 H2]. split; [by constructor|done].
Qed.
Lemma new_good r s l : (∀ c, RByte c ∈ r → is_ascii c) → parser_new (lex_new r 0) = (Rok s, l) → good s.
Proof.
  intros Hr. unfold parser_new. destruct (p_next _) as [r0 s0] eqn:E. apply y_next in E as [Hg _].
  - destruct r0; [|done..]. by intros [= <- _].
  - split_and!; [|done|done]. cbn [rem lex_new p_lex last rd]. constructor; [by vm_compute|]. clear E r0 s0.
    induction r as [|[c|] r IH]; simpl; [constructor| |].
    + constructor; [apply Hr; by left|]. apply IH. intros ? H; apply Hr; by right.
    + apply IH. intros ? H; apply Hr; by right.
Qed.
