(** What the Koopa generator writes for a program that a syntax tree describes: the text of
    the tree, if the name manager answers with the names of the tree. *)
From Coq Require Import Lia ZifyBool ZifyNat ZifyN.
From Verif Require Import Base IdModel TypeModel IrModel LayoutModel TextModel NameModel LexerModel ParserModel ParserSpec
  DfgSpec FlowSpec PrintSpec FaithSpec FaithProofs RoundProofs LexerRunProofs KoopaModel CanonSpec.

Lemma sapp_assoc (a b c : string) : ((a ++ b) ++ c = a ++ (b ++ c))%string.
Proof. induction a as [|x a IH]; [done|]. change (String x ((a ++ b) ++ c) = String x (a ++ (b ++ c)))%string. by rewrite IH. Qed.
Lemma sapp_nil_r (a : string) : (a ++ "" = a)%string.
Proof. induction a as [|x a IH]; [done|]. change (String x (a ++ "") = String x a)%string. by rewrite IH. Qed.

Lemma mthen_ok {S A C} (c : M S A) (k : A → M S C) s a s' : c s = (Rok a, s') → mthen c k s = k a s'.
Proof. intros H. unfold mthen. by rewrite H. Qed.

(** ** Types *)
Lemma denotes_show a : ∀ t, denotes a t → show_ty t = text_aty a ∧ t ≠ TUnit.
Proof.
  induction a as [|a n IH|a IH|ps r IHp IHr] using aty_ind'; intros t H; inversion H as [|? ? u Hu|? u Hu|? ts Hp|? ts ? u Hp Hu]; subst; clear H; simpl; try done.
  - destruct (IH _ Hu) as [-> _]. done.
  - destruct (IH _ Hu) as [-> _]. done.
  - assert (E : map show_ty ts = map text_aty ps).
    { clear -Hp IHp. induction Hp as [|x y l k Hx Hl IH]; [done|]. apply list.Forall_cons in IHp as [Hh IHp].
      simpl. f_equal; [by apply Hh|by apply IH]. }
    rewrite E. done.
  - assert (E : map show_ty ts = map text_aty ps).
    { clear -Hp IHp. induction Hp as [|x y l k Hx Hl IH]; [done|]. apply list.Forall_cons in IHp as [Hh IHp].
      simpl. f_equal; [by apply Hh|by apply IH]. }
    rewrite E. destruct (IHr _ eq_refl _ Hu) as [-> Hn]. split; [|done]. by destruct u.
Qed.
Lemma denotes_shows l ts : Forall2 denotes l ts → map show_ty ts = map text_aty l.
Proof. induction 1 as [|a t l ts H _ IH]; [done|]. simpl. f_equal; [by apply denotes_show|done]. Qed.
Lemma denotes_ret_show r t : denotes_ret r t → (if is_unit t then "" else ": " ++ show_ty t)%string = text_ret r.
Proof.
  destruct r as [a|]; simpl; [|by intros ->]. intros H. apply denotes_show in H as [E Hu].
  rewrite E. by destruct t.
Qed.

(** ** Constants *)
Lemma const_fun D i : ∀ v j, const_is D v i → const_is D v j → i = j.
Proof.
  induction i as [z| | |l IH] using ainit_ind'; intros v j H1 H2;
    inversion H1 as [? t1 ? E1|? t1 E1|? t1 E1|? t1 vs ? E1 F1]; subst;
    inversion H2 as [? t2 ? E2|? t2 E2|? t2 E2|? t2 vs2 l2 E2 F2]; subst; rewrite E1 in E2; try discriminate; try congruence.
  injection E2 as _ <-. f_equal. clear H1 H2 E1. revert l2 F2. induction F1 as [|x y vs l H _ IHl]; intros l2 F2; inversion F2; subst; [done|].
  apply list.Forall_cons in IH as [Hy IH]. f_equal; [eapply Hy; eassumption|]. by apply IHl.
Qed.
Fixpoint depth (i : ainit) : nat :=
  match i with IAggr l => S (foldr Nat.max 0 (map depth l)) | _ => 0 end.
Lemma depth_elem i l : i ∈ l → depth i < depth (IAggr l).
Proof.
  intros H. simpl. apply Nat.lt_succ_r. induction H as [x l|x y l H IH]; simpl; lia.
Qed.
Lemma visit_const_text (m : gmap N vdata) i : ∀ fuel (seen : gset N) v d, const_is (datas m) v i → m !! v = Some d →
  (∀ u, u ∈ seen → ∃ j, const_is (datas m) u j ∧ depth i < depth j) → seen ⊆ dom m →
  base.size m < fuel + base.size seen → visit_const fuel m d = Rok (text_init i).
Proof.
  induction i as [z| | |l IH] using ainit_ind'; intros fuel seen v d Hc Hv Hseen Hsub Hf;
    inversion Hc as [? t1 ? E|? t1 E|? t1 E|? t1 vs ? E F]; subst; unfold datas in E; rewrite lookup_fmap, Hv in E; simpl in E; injection E as Ht Hk.
  - destruct fuel; simpl; by rewrite Hk.
  - destruct fuel; simpl; by rewrite Hk.
  - destruct fuel; simpl; by rewrite Hk.
  -
    assert (Hn : v ∉ seen).
    { intros Hin. destruct (Hseen _ Hin) as (j & Hj & Hlt). rewrite (const_fun _ _ _ _ Hc Hj) in Hlt. lia. }
    assert (Hsub' : {[v]} ∪ seen ⊆ dom m).
    { apply elem_of_dom_2 in Hv. set_solver. }
    assert (Hsz : base.size ({[v]} ∪ seen) = S (base.size seen)) by (rewrite size_union by set_solver; by rewrite size_singleton).
    assert (Hle : base.size ({[v]} ∪ seen) ≤ base.size m) by (rewrite <- size_dom; by apply subseteq_size).
    destruct fuel as [|fuel]; [lia|]. cbn [visit_const]. rewrite Hk.
    assert (E : res_map (λ v, match m !! v with Some e => visit_const fuel m e | None => Rpanic end) vs = Rok (map text_init l)).
    { assert (Hall : ∀ x, x ∈ l → ∀ u e, const_is (datas m) u x → m !! u = Some e → visit_const fuel m e = Rok (text_init x)).
      { intros x Hx u e Hu He. eapply list.Forall_forall in IH; [|exact Hx]. eapply (IH fuel ({[v]} ∪ seen)); [done..| |done|lia].
        intros w [->%elem_of_singleton|Hw]%elem_of_union.
        - eexists. split; [exact Hc|]. by apply depth_elem.
        - destruct (Hseen _ Hw) as (j & Hj & Hlt). exists j. split; [done|]. apply depth_elem in Hx. lia. }
      clear -F Hall. induction F as [|u x vs l Hu F IH]; [done|]. simpl.
      assert (is_Some (m !! u)) as [e He].
      { unfold datas in Hu. inversion Hu as [? ? ? E|? ? E|? ? E|? ? ? ? E]; rewrite lookup_fmap in E;
          apply fmap_Some in E as (e & ? & _); eauto. }
      rewrite He. rewrite (Hall x) with (u := u); [|by left|done|done]. rewrite IH; [done|]. intros y Hy. apply Hall. by right. }
    rewrite E. done.
Qed.
Lemma p_const_text (m : gmap N vdata) v i d s : const_is (datas m) v i → m !! v = Some d → p_const m d s = (Rok (text_init i), s).
Proof.
  intros H Hd. unfold p_const. rewrite (visit_const_text m i _ ∅ v d) by (done || set_solver || lia). done.
Qed.
Lemma const_is_const (m : gmap N vdata) v i d : const_is (datas m) v i → m !! v = Some d → is_const (v_kind d) = true.
Proof.
  intros H Hd. unfold datas in H. inversion H as [? ? ? E|? ? E|? ? E|? ? ? ? E]; rewrite lookup_fmap, Hd in E;
    simpl in E; injection E as _ ->; done.
Qed.

(** ** Names *)
Definition occ_name (o : occ) : string :=
  match o with OGlobal n | OFun n | OVal n | OBlk n => n end.

(** Values and blocks of the function that the printer names *)
Record nameable (fd : fdata) (L B : gmap N string) : Prop := {
  na_val : ∀ v n, L !! v = Some n → is_global_id v = false ∧ ∃ d, vals fd !! v = Some d ∧
    is_const (v_kind d) = false ∧ is_global_alloc (v_kind d) = false;
  na_blk : ∀ b n, B !! b = Some n → is_Some (blks fd !! b);
}.
Lemma names_nameable fd L B : names_of fd L B → nameable fd L B.
Proof.
  intros []. constructor.
  - intros v n Hv. destruct (no_val _ _ Hv) as (Hi & d & Hd & _ & Hk). eauto.
  - intros b n Hb. destruct (no_blk _ _ Hb) as (d & Hd & _). eauto.
Qed.

Section tree.
Context (p : program) (fd : fdata) (G Fn L B : gmap N string).
Notation D := (datas (vals fd)).

(** The requests of an occurrence of a name *)
Definition asks (o : occ) (r : nreq) : Prop :=
  match o with
  | OGlobal n => ∃ v d, p_values p !! v = Some d ∧ G !! v = Some n ∧ r = QGlobal v (v_name d)
  | OFun n => ∃ f fd', p_funcs p !! f = Some fd' ∧ Fn !! f = Some n ∧ r = QFunc f (f_name fd')
  | OBlk n => ∃ b bd, blks fd !! b = Some bd ∧ B !! b = Some n ∧ r = QBB b (bb_name bd)
  | OVal n => ∃ v d, is_called G L v n ∧
      if is_global_id v then p_values p !! v = Some d ∧ r = QGlobal v (v_name d)
      else vals fd !! v = Some d ∧ r = QLocal v (v_name d)
  end.
(** The name manager answers with the name. *)
Definition served (m : nm) (o : occ) (m' : nm) : Prop :=
  ∀ r, asks o r → serve_name r m = Some (Some (occ_name o), m').
Inductive served_all : nm → list occ → nm → Prop :=
  | sa_nil m : served_all m [] m
  | sa_cons m o m1 l m2 : served m o m1 → served_all m1 l m2 → served_all m (o :: l) m2.
Lemma served_app m l1 l2 m' : served_all m (l1 ++ l2) m' ↔ ∃ m1, served_all m l1 m1 ∧ served_all m1 l2 m'.
Proof.
  split.
  - revert m. induction l1 as [|o l1 IH]; intros m H; [eexists; split; [constructor|done]|].
    inversion H; subst. apply IH in H5 as (m2 & ? & ?). exists m2. split; [by econstructor|done].
  - intros (m1 & H1 & H2). induction H1; [done|]. simpl. econstructor; [done|]. by apply IHserved_all.
Qed.
Lemma served_cons m o l m' : served_all m (o :: l) m' → ∃ m1, served m o m1 ∧ served_all m1 l m'.
Proof. inversion 1; subst. eauto. Qed.
Lemma served_nil m m' : served_all m [] m' → m' = m.
Proof. by inversion 1. Qed.
Lemma served_one m o m' : served_all m [o] m' → served m o m'.
Proof. intros (m1 & H & H2)%served_cons. apply served_nil in H2 as ->. done. Qed.

(** The program is described by the names. *)
Record named : Prop := {
  nd_local : ∀ v, is_Some (vals fd !! v) → is_global_id v = false;
  nd_names : nameable fd L B;
  nd_globals : ∀ v n, G !! v = Some n → is_global_id v = true ∧ ∃ d i, p_values p !! v = Some d ∧ v_kind d = KGlobalAlloc i;
  nd_funs : ∀ f n, Fn !! f = Some n → is_Some (p_funcs p !! f);
}.
Context (N : named).

Lemma t_called v n m m' : is_called G L v n → served m (OVal n) m' → visit_value p fd v m = (Rok n, m').
Proof.
  intros Hc Hs. unfold visit_value. pose proof Hc as Hc'. unfold is_called in Hc'. destruct (is_global_id v) eqn:Eg.
  - destruct (nd_globals N _ _ Hc') as (_ & d & i & Hd & Hk). rewrite Hd. unfold mthen, p_some.
    rewrite Hk. cbn [is_const]. unfold p_value_name. rewrite Hk. cbn [is_const is_global_alloc]. unfold p_name.
    assert (A : serve_name (QGlobal v (v_name d)) m = Some (Some n, m')).
    { apply Hs. exists v, d. split; [done|]. rewrite Eg. done. }
    cbn [serve_name] in A. apply bind_Some in A as ([s m1] & A & E). rewrite A. by injection E as -> ->.
  - destruct (na_val _ _ _ (nd_names N) _ _ Hc') as (_ & d & Hd & Hk & Hg).
    change (d_values (f_dfg fd)) with (vals fd). rewrite Hd. unfold mthen, p_some. rewrite Hk.
    unfold p_value_name. rewrite Hk, Hg. unfold p_name.
    assert (A : serve_name (QLocal v (v_name d)) m = Some (Some n, m')).
    { apply Hs. exists v, d. split; [done|]. rewrite Eg. done. }
    cbn [serve_name] in A. apply bind_Some in A as ([s m1] & A & E). rewrite A. by injection E as -> ->.
Qed.
Lemma t_local v n d m m' : L !! v = Some n → vals fd !! v = Some d → served m (OVal n) m' → p_value_name v d m = (Rok n, m').
Proof.
  intros Hl Hv Hs. destruct (na_val _ _ _ (nd_names N) _ _ Hl) as (Hi & d' & Hd & Hk & Hg). rewrite Hv in Hd. injection Hd as <-.
  unfold p_value_name. rewrite Hk, Hg. unfold p_name.
  assert (A : serve_name (QLocal v (v_name d)) m = Some (Some n, m')).
  { apply Hs. exists v, d. unfold is_called. rewrite Hi. done. }
  cbn [serve_name] in A. apply bind_Some in A as ([s m1] & A & E). rewrite A. by injection E as -> ->.
Qed.
Lemma t_const v i m : const_is D v i → visit_value p fd v m = (Rok (text_init i), m).
Proof.
  intros Hc. assert (is_Some (vals fd !! v)) as [d Hd].
  { unfold datas in Hc. inversion Hc as [? ? ? E|? ? E|? ? E|? ? ? ? E]; rewrite lookup_fmap in E;
      apply fmap_Some in E as (e & ? & _); eauto. }
  unfold visit_value. rewrite (nd_local N) by eauto. change (d_values (f_dfg fd)) with (vals fd). rewrite Hd. unfold mthen, p_some.
  rewrite (const_is_const _ _ _ _ Hc Hd). by apply (p_const_text (vals fd) v).
Qed.
Lemma t_val v a m m' : is_val G L D v a → served_all m (occ_val a) m' → visit_value p fd v m = (Rok (text_val a), m').
Proof.
  destruct a; simpl; intros Hv Hs.
  - apply served_one in Hs. by apply t_called.
  - apply served_nil in Hs as ->. exact (t_const _ _ _ Hv).
  - apply served_nil in Hs as ->. exact (t_const _ _ _ Hv).
Qed.
Lemma t_vals vs l : Forall2 (is_val G L D) vs l → ∀ m m', served_all m (concat (map occ_val l)) m' →
  p_map (visit_value p fd) vs m = (Rok (map text_val l), m').
Proof.
  induction 1 as [|v a vs l Hv _ IH]; intros m m' Hs; simpl in Hs.
  - by apply served_nil in Hs as ->.
  - apply served_app in Hs as (m1 & H1 & H2). cbn [p_map]. unfold mthen.
    rewrite (t_val _ _ _ _ Hv H1), (IH _ _ H2). done.
Qed.
Lemma t_fun c n m m' : Fn !! c = Some n → served m (OFun n) m' → p_func_name p c m = (Rok n, m').
Proof.
  intros Hc Hs. destruct (nd_funs N _ _ Hc) as [fd' Hf]. unfold p_func_name. rewrite Hf. unfold mthen, p_some, p_name.
  assert (A : serve_name (QFunc c (f_name fd')) m = Some (Some n, m')) by (apply Hs; by exists c, fd').
  cbn [serve_name] in A. apply bind_Some in A as ([s m1] & A & E). rewrite A. by injection E as -> ->.
Qed.
Lemma t_blk b n bd m m' : B !! b = Some n → blks fd !! b = Some bd → served m (OBlk n) m' → p_name (bb_name_ b (bb_name bd)) m = (Rok n, m').
Proof.
  intros Hb Hd Hs. unfold p_name.
  assert (A : serve_name (QBB b (bb_name bd)) m = Some (Some n, m')) by (apply Hs; by exists b, bd).
  cbn [serve_name] in A. apply bind_Some in A as ([s m1] & A & E). rewrite A. by injection E as -> ->.
Qed.
Lemma t_target b n vs l m m' : B !! b = Some n → Forall2 (is_val G L D) vs l →
  served_all m (OBlk n :: concat (map occ_val l)) m' → visit_bb_target p fd b vs m = (Rok (n ++ text_opt_args l)%string, m').
Proof.
  intros Hb Hl Hs. apply served_cons in Hs as (m1 & H1 & H2). unfold visit_bb_target, p_bb_name.
  destruct (na_blk _ _ _ (nd_names N) _ _ Hb) as [bd Hd].
  change (d_bbs (f_dfg fd)) with (blks fd). rewrite Hd. unfold mthen at 1 2. unfold p_some. rewrite (t_blk _ _ _ _ _ Hb Hd H1).
  case_decide as Hdec.
  - subst vs. inversion Hl; subst. apply served_nil in H2 as ->. unfold mok. simpl. by rewrite sapp_nil_r.
  - unfold mthen. rewrite (t_vals _ _ Hl _ _ H2). destruct l as [|a l]; [by inversion Hl; subst|]. done.
Qed.

(** Arguments are as many as in the tree, only definitions have a type that is not unit. *)
Definition exact (t : ty) (k : vkind) (st : astmt) : Prop :=
  match st, k with
  | SDef _ (ECall _ args), KCall _ vs => length vs = length args
  | SCall _ args, KCall _ vs => length vs = length args
  | SBr _ _ ta _ fa, KBranch _ _ _ vs ws => length vs = length ta ∧ length ws = length fa
  | SJump _ a, KJump _ vs => length vs = length a
  | _, _ => True
  end ∧ (match st with SDef _ _ => True | _ => t = TUnit end).
Lemma exact_args vs args : is_args G L D vs args → length vs = length args → Forall2 (is_val G L D) vs args.
Proof.
  intros (l & rest & -> & F) E. rewrite app_length in E. apply Forall2_length in F as E2. destruct rest; [|simpl in E; lia].
  by rewrite app_nil_r.
Qed.
Lemma t_expr d e m m' : is_expr G Fn L D (v_ty d) (v_kind d) e → (∀ f args c vs, e = ECall f args → v_kind d = KCall c vs → length vs = length args) →
  served_all m (occ_expr e) m' → visit_content p fd d m = (Rok (text_expr e), m').
Proof.
  unfold visit_content. destruct e as [a|x|x i|x i|op l r|f args]; cbn [is_expr occ_expr text_expr].
  - intros (-> & b & -> & Hb) _ Hs. apply served_nil in Hs as ->. unfold mok. by destruct (denotes_show _ _ Hb) as [-> _].
  - intros (v & -> & Hv) _ Hs. apply served_one in Hs. unfold mthen. by rewrite (t_called _ _ _ _ Hv Hs).
  - intros (v & w & -> & Hv & Hw) _ Hs. apply served_cons in Hs as (m1 & H1 & H2). unfold mthen.
    by rewrite (t_called _ _ _ _ Hv H1), (t_val _ _ _ _ Hw H2).
  - intros (v & w & -> & Hv & Hw) _ Hs. apply served_cons in Hs as (m1 & H1 & H2). unfold mthen.
    by rewrite (t_called _ _ _ _ Hv H1), (t_val _ _ _ _ Hw H2).
  - intros (v & w & -> & Hv & Hw) _ Hs. apply served_app in Hs as (m1 & H1 & H2). unfold mthen.
    by rewrite (t_val _ _ _ _ Hv H1), (t_val _ _ _ _ Hw H2).
  - intros (c & vs & -> & Hc & Ha) Hx Hs. apply served_cons in Hs as (m1 & H1 & H2). unfold mthen.
    rewrite (t_fun _ _ _ _ Hc H1). erewrite t_vals; [|apply exact_args; [exact Ha|by eapply Hx]|exact H2]. done.
Qed.
Lemma t_stmt v d st m m' : is_stmt G Fn L B D v st → vals fd !! v = Some d → exact (v_ty d) (v_kind d) st →
  served_all m (occ_stmt st) m' → visit_local_inst p fd v d m = (Rok (text_stmt st ++ nl)%string, m').
Proof.
  intros (t & k & Ht & Hst) Hd [Hx Hu] Hs. unfold datas in Ht. rewrite lookup_fmap, Hd in Ht. simpl in Ht. injection Ht as Ht Hk.
  unfold visit_local_inst. destruct st as [n e|x dst|f args|c t1 ta t2 fa|t1 a|[a|]|]; cbn [text_stmt occ_stmt] in *.
  - destruct Hst as (Hn & Htu & He). apply served_cons in Hs as (m1 & H1 & H2).
    assert (is_unit (v_ty d) = false) as -> by (rewrite Ht; by destruct t). unfold mthen.
    rewrite (t_local _ _ _ _ _ Hn Hd H1). unfold mok. rewrite <- Ht, <- Hk in He. erewrite (t_expr d e); [|exact He| |exact H2].
    { by rewrite !sapp_assoc. }
    intros f args c vs -> E. by rewrite E in Hx.
  - rewrite Hu. destruct Hst as (a & b & -> & Ha & Hb). unfold visit_content. rewrite Hk. unfold mthen, mok. change (is_unit TUnit) with true; cbn iota beta.
    destruct x as [n|i]; simpl in Ha, Hs.
    + apply served_cons in Hs as (m1 & H1 & H2). apply served_one in H2.
      rewrite (t_called _ _ _ _ Ha H1), (t_called _ _ _ _ Hb H2). simpl. done.
    + apply served_one in Hs. rewrite (t_const _ _ _ Ha), (t_called _ _ _ _ Hb Hs). done.
  - rewrite Hu. destruct Hst as (c & vs & -> & Hc & Ha). rewrite Hk in Hx. apply served_cons in Hs as (m1 & H1 & H2).
    unfold visit_content. rewrite Hk. unfold mthen, mok. change (is_unit TUnit) with true; cbn iota beta.
    rewrite (t_fun _ _ _ _ Hc H1). erewrite t_vals; [|by apply exact_args|exact H2]. done.
  - rewrite Hu. destruct Hst as (v0 & b1 & b2 & vs1 & vs2 & -> & Hv & Hb1 & Ha1 & Hb2 & Ha2). rewrite Hk in Hx. destruct Hx as [Hx1 Hx2].
    apply served_app in Hs as (m1 & H1 & Hs). apply served_app in Hs as (m2 & H2 & H3).
    unfold visit_content. rewrite Hk. unfold mthen, mok. change (is_unit TUnit) with true; cbn iota beta. rewrite (t_val _ _ _ _ Hv H1).
    erewrite t_target; [|done|by apply exact_args|exact H2]. erewrite t_target; [|done|by apply exact_args|exact H3].
    simpl. by rewrite !sapp_assoc.
  - rewrite Hu. destruct Hst as (b & vs & -> & Hb & Ha). rewrite Hk in Hx.
    unfold visit_content. rewrite Hk. unfold mthen, mok. change (is_unit TUnit) with true; cbn iota beta.
    erewrite t_target; [|done|by apply exact_args|exact Hs]. done.
  - rewrite Hu. destruct Hst as (w & -> & Hw). unfold visit_content. rewrite Hk. unfold mthen, mok. change (is_unit TUnit) with true; cbn iota beta.
    by rewrite (t_val _ _ _ _ Hw Hs).
  - rewrite Hu. rewrite Hst in Hk. apply served_nil in Hs as ->. unfold visit_content. rewrite Hk. done.
  - done.
Qed.
Lemma t_param c v q m m' : is_param L D c v q → served m (OVal q.1) m' → visit_param fd v m = (Rok (text_param q), m').
Proof.
  intros (Hl & t & k & Ht & Hd) Hs. unfold datas in Ht. rewrite lookup_fmap in Ht. apply fmap_Some in Ht as (d & Hv & E). injection E as -> _.
  unfold visit_param. change (d_values (f_dfg fd)) with (vals fd). rewrite Hv. unfold mthen, p_some, mok.
  rewrite (t_local _ _ _ _ _ Hl Hv Hs). destruct (denotes_show _ _ Hd) as [-> _]. done.
Qed.
Lemma t_params c vs ps : Forall2 (is_param L D c) vs ps → ∀ m m', served_all m (occ_params ps) m' →
  p_map (visit_param fd) vs m = (Rok (map text_param ps), m').
Proof.
  induction 1 as [|v a vs l Hv _ IH]; intros m m' Hs; simpl in Hs.
  - by apply served_nil in Hs as ->.
  - apply served_cons in Hs as (m1 & H1 & H2). cbn [p_map]. unfold mthen.
    rewrite (t_param _ _ _ _ _ Hv H1), (IH _ _ H2). done.
Qed.
Definition exact_at (v : value) (st : astmt) : Prop := ∀ d, vals fd !! v = Some d → exact (v_ty d) (v_kind d) st.
Lemma t_stmts vs sts : Forall2 (is_stmt G Fn L B D) vs sts → Forall2 exact_at vs sts → ∀ m m', served_all m (concat (map occ_stmt sts)) m' →
  ∃ ss, p_map (λ v, d <- p_some (d_values (f_dfg fd) !! v);; s <- visit_local_inst p fd v d;; mok ("  " ++ s)%string) vs m = (Rok ss, m') ∧
    join ss = cat (map (λ st, "  " ++ text_stmt st ++ nl)%string sts).
Proof.
  induction 1 as [|v st vs sts Hv _ IH]; intros Hx m m' Hs; simpl in Hs.
  - exists []. by apply served_nil in Hs as ->.
  - inversion Hx as [|? ? ? ? Hx1 Hx2]; subst. apply served_app in Hs as (m1 & H1 & H2). destruct (IH Hx2 _ _ H2) as (ss & E & Ej).
    pose proof Hv as (t & k & Ht & _). unfold datas in Ht. rewrite lookup_fmap in Ht. apply fmap_Some in Ht as (d & Hd & _).
    match goal with |- context [p_map ?g _ _] => set (f := g) in * end.
    assert (A : f v m = (Rok ("  " ++ text_stmt st ++ nl)%string, m1)).
    { unfold f. change (d_values (f_dfg fd)) with (vals fd). rewrite Hd. unfold mthen, p_some.
      rewrite (t_stmt _ _ _ _ _ Hv Hd (Hx1 _ Hd) H1). done. }
    cbn [p_map]. unfold mthen. rewrite A, E. eexists. split; [done|].
    simpl. rewrite Ej. by rewrite !sapp_assoc.
Qed.
Lemma t_block x b m m' : is_block G Fn L B D (bb_params <$> blks fd) x b → Forall2 exact_at x.2 (b_stmts b) →
  served_all m (occ_block b) m' → visit_bb p fd x.1 x.2 m = (Rok (text_block b), m').
Proof.
  intros (Hb & (ps & Hps & Hpar) & Hst) Hx Hs. rewrite lookup_fmap in Hps. apply fmap_Some in Hps as (bd & Hbd & ->).
  unfold occ_block in Hs. apply served_cons in Hs as (m1 & H1 & Hs). apply served_app in Hs as (m2 & H2 & H3).
  destruct (t_stmts _ _ Hst Hx _ _ H3) as (ss & Es & Ej).
  unfold visit_bb. change (d_bbs (f_dfg fd)) with (blks fd). rewrite Hbd. unfold mthen at 1 2. unfold p_some at 1.
  rewrite (t_blk _ _ _ _ _ Hb Hbd H1). unfold mthen at 1.
  assert (A : (if decide (bb_params bd = []) then mok ""%string
         else ss <- p_map (visit_param fd) (bb_params bd);; mok ("(" ++ sep_comma ss ++ ")")%string) m1 =
     (Rok (text_opt_params (b_params b)), m2)).
  { case_decide as Hdec.
    - rewrite Hdec in Hpar. inversion Hpar. apply eq_sym in H. rewrite H in H2. apply served_nil in H2 as ->. done.
    - unfold mthen. rewrite (t_params _ _ _ Hpar _ _ H2). destruct (b_params b); [by inversion Hpar; congruence|]. done. }
  rewrite A. rewrite (mthen_ok _ _ _ _ _ Es). unfold mok. unfold text_block. rewrite Ej. done.
Qed.
Lemma t_blocks xs bs : Forall2 (is_block G Fn L B D (bb_params <$> blks fd)) xs bs → Forall2 (λ (x : bblock * list value) b, Forall2 exact_at x.2 (b_stmts b)) xs bs →
  ∀ m m', served_all m (concat (map occ_block bs)) m' →
  p_map (λ x : bblock * list value, visit_bb p fd x.1 x.2) xs m = (Rok (map text_block bs), m').
Proof.
  induction 1 as [|x b xs bs Hb _ IH]; intros Hx m m' Hs; cbn [map concat] in Hs.
  - by apply served_nil in Hs as ->.
  - inversion Hx as [|? ? ? ? Hx1 Hx2]; subst. apply served_app in Hs as (m1 & H1 & H2). cbn [p_map]. unfold mthen.
    rewrite (t_block _ _ _ _ Hb Hx1 H1), (IH Hx2 _ _ H2). done.
Qed.
Lemma join_blank_cat l : join_blank l = cat_nl l.
Proof. induction l as [|s [|s' l] IH]; [done..|]. simpl in *. by rewrite IH. Qed.
Lemma t_fun_def f n ps r bbs m m' :
  p_funcs p !! f = Some fd → Fn !! f = Some n → blks fd ≠ ∅ →
  (∃ ts t, f_ty fd = TFun ts t ∧ denotes_ret r t) →
  Forall2 (is_param L D KFuncArg) (f_params fd) ps →
  Forall2 (is_block G Fn L B D (bb_params <$> blks fd)) (l_bbs (f_layout fd)) bbs →
  Forall2 (λ (x : bblock * list value) b, Forall2 exact_at x.2 (b_stmts b)) (l_bbs (f_layout fd)) bbs →
  served_all m (occ_top (TFunDef n ps r bbs)) m' →
  visit_func p f fd m = (Rok (text_top (TFunDef n ps r bbs)), m').
Proof.
  intros Hf Hn Hne (ts & t & Hty & Hr) Hps Hbs Hx Hs. cbn [occ_top] in Hs. apply served_cons in Hs as (m1 & H1 & Hs). apply served_app in Hs as (m2 & H2 & H3).
  unfold visit_func. change (d_bbs (f_dfg fd)) with (blks fd). rewrite bool_decide_eq_false_2 by done. unfold mthen at 1.
  assert (A : p_name (func_name f (f_name fd)) m = (Rok n, m1)).
  { pose proof (t_fun f n m m1 Hn H1) as A. unfold p_func_name in A. rewrite Hf in A. exact A. }
  rewrite A, Hty. unfold mthen at 1. rewrite (t_params _ _ _ Hps _ _ H2). unfold mthen at 1.
  rewrite (t_blocks _ _ Hbs Hx _ _ H3). unfold mok. cbn [text_top]. rewrite join_blank_cat. f_equal. f_equal.
  rewrite (denotes_ret_show _ _ Hr). unfold text_params. by rewrite !sapp_assoc.
Qed.
Lemma t_fun_decl f n ps r m m' :
  p_funcs p !! f = Some fd → Fn !! f = Some n → blks fd = ∅ →
  (∃ ts t, f_ty fd = TFun ts t ∧ Forall2 denotes ps ts ∧ denotes_ret r t) →
  served_all m (occ_top (TFunDecl n ps r)) m' →
  visit_func p f fd m = (Rok (text_top (TFunDecl n ps r)), m').
Proof.
  intros Hf Hn Hne (ts & t & Hty & Hps & Hr) Hs. cbn [occ_top] in Hs. apply served_one in Hs.
  unfold visit_func. change (d_bbs (f_dfg fd)) with (blks fd). rewrite bool_decide_eq_true_2 by done. unfold mthen at 1.
  assert (A : p_name (func_name f (f_name fd)) m = (Rok n, m')).
  { pose proof (t_fun f n m m' Hn Hs) as A. unfold p_func_name in A. rewrite Hf in A. exact A. }
  rewrite A, Hty. unfold mthen, mok. cbn [text_top]. f_equal. f_equal.
  rewrite (denotes_ret_show _ _ Hr), (denotes_shows _ _ Hps). by rewrite !sapp_assoc.
Qed.
End tree.
