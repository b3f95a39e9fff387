(** The tree that is printed for a function is canonical. *)
From Coq Require Import Lia ZifyBool ZifyNat ZifyN.
From Verif Require Import Base IdModel TypeModel IrModel LayoutModel BuilderModel WorldModel TextModel NameModel LexerModel LexerSpec ParserModel ParserSpec
  DfgSpec FlowSpec FaithFunProofs LayoutSpec LayoutProofs CanonReadProofs PrintSpec TypingSpec FaithSpec FaithProofs RoundProofs LexerRunProofs KoopaModel CanonSpec TreeTextProofs CanonNameProofs CanonProofs TreeWfProofs
  RetreeNameProofs RetreeProofs.

Lemma map_at {A B} (g : A → B) l i x : l !! i = Some x → map g l !! i = Some (g x).
Proof. intros E. change (map g l) with (g <$> l). by rewrite list_lookup_fmap, E. Qed.

(** ** The order of blocks with other names *)
Section order.
Context (R : string → string → Prop) (HR : ∀ a b a' b', R a b → R a' b' → (a = a' ↔ b = b')).
Lemma like_in l l' n n' : Forall2 R l l' → R n n' → n ∈ l → n' ∈ l'.
Proof.
  intros H Hn. induction H as [|x x' l l' Hx _ IH]; [by intros ?%elem_of_nil|]. intros [-> |Hi]%elem_of_cons; [|right; by apply IH].
  apply elem_of_cons. left. exact (proj1 (HR _ _ _ _ Hn Hx) eq_refl).
Qed.
Lemma like_in' l l' n n' : Forall2 R l l' → R n n' → n' ∈ l' → n ∈ l.
Proof.
  intros H Hn. induction H as [|x x' l l' Hx _ IH]; [by intros ?%elem_of_nil|]. intros [-> |Hi]%elem_of_cons; [|right; by apply IH].
  apply elem_of_cons. left. exact (proj2 (HR _ _ _ _ Hn Hx) eq_refl).
Qed.
Lemma firsts_like l l' : Forall2 R l l' → ∀ seen seen', Forall2 R seen seen' → Forall2 R (firsts seen l) (firsts seen' l').
Proof.
  induction 1 as [|n n' l l' Hn _ IH]; intros seen seen' Hs; [constructor|]. simpl.
  case_decide as H1; case_decide as H2.
  - by apply IH.
  - destruct H2. by eapply like_in.
  - destruct H1. by eapply like_in'.
  - constructor; [done|]. apply IH. by constructor.
Qed.
Lemma like_fun l l1 l2 : Forall2 R l l1 → Forall2 R l l2 → l1 = l2.
Proof.
  intros H. revert l2. induction H as [|n n' l l' Hn _ IH]; intros l2 H2; inversion H2 as [|? n2 ? k Hn2 H3]; subst; [done|].
  f_equal; [exact (proj1 (HR _ _ _ _ Hn Hn2) eq_refl)|by apply IH].
Qed.
Lemma order_like bbs l bbs' : in_order bbs l → NoDup (map b_name l) →
  Forall2 (λ b b', R (b_name b) (b_name b') ∧ Forall2 R (ends_to b) (ends_to b')) l bbs' → in_order bbs' bbs'.
Proof.
  intros (e & He & Hin & Hn) Hnd F.
  assert (Hnames : Forall2 R (map b_name l) (map b_name bbs')).
  { clear -F. induction F as [|b b' l l' [H _] _ IH]; simpl; by constructor. }
  assert (Hends : Forall2 R (concat (map ends_to l)) (concat (map ends_to bbs'))).
  { clear -F. induction F as [|b b' l l' [_ H] _ IH]; simpl; [constructor|]. by apply Forall2_app. }
  assert (Heb : e ∈ bbs) by (destruct bbs; [done|]; injection He as ->; by left).
  assert (Hel : e ∈ l) by (apply Hin; split; [done|]; exists 0; constructor).
  assert (Huniq : ∀ i j b c, l !! i = Some b → l !! j = Some c → b_name b = b_name c → i = j).
  { intros i j b c Hi Hj E. eapply NoDup_lookup; [exact Hnd|apply map_at, Hi|]. rewrite E. apply map_at, Hj. }
  assert (Hhead : l !! 0 = Some e).
  { apply elem_of_list_lookup in Hel as [i Hi]. destruct l as [|e0 l0]; [done|].
    assert (b_name e0 = b_name e).
    { simpl in Hn. by injection Hn. }
    assert (i = 0) as -> by (by eapply (Huniq i 0)). done. }
  destruct (Forall2_lookup_l _ _ _ _ _ F Hhead) as (e' & He' & Hee & _).
  exists e'. split; [|split].
  - destruct bbs' as [|x bbs']; [done|]. simpl in He'. by injection He' as ->.
  - intros b'. split; [|naive_solver]. intros Hb'. split; [done|]. apply elem_of_list_lookup in Hb' as [j Hj].
    destruct (Forall2_lookup_r _ _ _ _ _ F Hj) as (b & Hb & _).
    apply elem_of_list_lookup_2 in Hb as Hbl. apply Hin in Hbl as [_ [n Hp]].
    assert (Hgo : ∀ n a c, bpath bbs n a c → ∀ i j a' c', reachable bbs e a → l !! i = Some a → l !! j = Some c → bbs' !! i = Some a' → bbs' !! j = Some c' →
      reachable bbs' a' c').
    { clear -F HR Hin Huniq Heb. intros n a c Hp. induction Hp as [a|n a b c Hs Hb Hp IH]; intros i j a' c' Hra Hi Hj Hi' Hj'.
      - assert (i = j) as -> by (by eapply Huniq). rewrite Hi' in Hj'. injection Hj' as ->. exists 0. constructor.
      - assert (Hrb : reachable bbs e b) by (destruct Hra as [k Hra]; exists (S k); by eapply bpath_snoc).
        assert (Hbl : b ∈ l) by (by apply Hin). apply elem_of_list_lookup in Hbl as [k Hk].
        destruct (Forall2_lookup_l _ _ _ _ _ F Hk) as (b' & Hk' & Hbb & _).
        destruct (IH k j b' c' Hrb Hk Hj Hk' Hj') as [m Hm]. exists (S m). econstructor; [|by eapply elem_of_list_lookup_2|exact Hm].
        destruct (Forall2_lookup_lr _ _ _ _ _ _ F Hi Hi') as [_ HE].
        apply succ_ends. apply ends_succ in Hs. by eapply like_in. }
    eapply (Hgo n e b Hp 0 j); try done. exists 0. constructor.
  - apply (like_fun (map b_name l)); [done|]. rewrite Hn. apply firsts_like; [|constructor]. constructor; done.
Qed.
End order.

(** ** The targets of a block *)
Definition h_ends (D : gmap N (ty * vkind)) (x : bblock * list value) : list bblock :=
  match list.last x.2 with
  | Some v => match D !! v with
              | Some (_, KBranch _ t e _ _) => [t; e]
              | Some (_, KJump t _) => [t]
              | _ => []
              end
  | None => []
  end.
Lemma ends_named G Fn L B D P x b : is_block G Fn L B D P x b → Forall2 (λ h n, B !! h = Some n) (h_ends D x) (ends_to b).
Proof.
  intros (_ & _ & H). unfold h_ends, ends_to. destruct (list.last x.2) as [v|] eqn:Ev.
  - apply last_Some in Ev as [vs Ev]. rewrite Ev in H. apply Forall2_app_inv_l in H as (l1 & l2 & _ & H & Es).
    inversion H as [|? st ? ? (t & k & Hk & Hst) H2]; subst. inversion H2; subst. rewrite Es, last_snoc, Hk.
    destruct st as [n e|x0 dst|g args|c t1 ta t2 fa|t1 a|[a|]|]; simpl in Hst.
    + destruct Hst as (_ & _ & He). destruct e; simpl in He; destruct_and?; repeat match goal with A : ∃ _, _ |- _ => destruct A as [? A] end; destruct_and?; subst k; constructor.
    + destruct Hst as (? & ? & -> & _). constructor.
    + destruct Hst as (? & ? & -> & _). constructor.
    + destruct Hst as (? & ? & ? & ? & ? & -> & _ & ? & _ & ? & _). by repeat constructor.
    + destruct Hst as (? & ? & -> & ? & _). by repeat constructor.
    + destruct Hst as (? & -> & _). constructor.
    + subst k. constructor.
    + done.
  - apply last_None in Ev. rewrite Ev in H. inversion H as [E|]. constructor.
Qed.

(** ** Different values have different names *)
Lemma nodup_named (L : gmap N string) hs ns : inj_names L → Forall2 (λ h n, L !! h = Some n) hs ns → NoDup hs → NoDup ns.
Proof.
  intros HL F Hnd. apply NoDup_alt. intros i j n Hi Hj.
  destruct (Forall2_lookup_r _ _ _ _ _ F Hi) as (h & Hh & E). destruct (Forall2_lookup_r _ _ _ _ _ F Hj) as (h' & Hh' & E').
  assert (h = h') as -> by (by eapply HL). by eapply NoDup_lookup.
Qed.
Lemma nodup_names (L : gmap N string) hs ns : Forall2 (λ h n, L !! h = Some n) hs ns → NoDup ns → NoDup hs.
Proof.
  intros F Hnd. apply NoDup_alt. intros i j n Hi Hj.
  destruct (Forall2_lookup_l _ _ _ _ _ F Hi) as (h & Hh & E). destruct (Forall2_lookup_l _ _ _ _ _ F Hj) as (h' & Hh' & E').
  assert (h = h') as -> by congruence. by eapply NoDup_lookup.
Qed.
Lemma nodup_concat {A B} (g : A → list B) l : NoDup l → (∀ x, x ∈ l → NoDup (g x)) → (∀ x y z, x ∈ l → y ∈ l → z ∈ g x → z ∈ g y → x = y) → NoDup (concat (map g l)).
Proof.
  induction 1 as [|x l Hx _ IH]; intros H1 H2; simpl; [constructor|]. apply list.NoDup_app. split; [apply H1; by left|]. split.
  - intros z Hz Hc. apply elem_of_list_In, in_concat in Hc as (k & Hk & Hzk). apply in_map_iff in Hk as (y & <- & Hy).
    apply elem_of_list_In in Hy, Hzk. destruct Hx. rewrite (H2 x y z); [done|by left|by right|done|done].
  - apply IH; [intros y Hy; apply H1; by right|]. intros y w z Hy Hw. apply H2; by right.
Qed.

(** What is known of the functions that the front end builds *)
Record tidy (fd : fdata) : Prop := {
  td_params : NoDup (f_params fd);
  td_once : ∀ b d, blks fd !! b = Some d → NoDup (bb_params d);
  td_apart : ∀ b d c e v, blks fd !! b = Some d → blks fd !! c = Some e → v ∈ bb_params d → v ∈ bb_params e → b = c;
  td_lay : linv (f_layout fd);
}.
Definition named_inst (D : gmap N (ty * vkind)) (v : value) : list value :=
  match D !! v with Some (t, _) => if is_unit t then [] else [v] | None => [] end.
Section nodup.
Context (p : program) (fd : fdata) (G Fn L B : gmap N string) (ps : list (string * aty)) (bbs : list ablock).
Notation D := (datas (vals fd)).
Context (HT : tidy fd) (HL : inj_names L)
  (Hps : Forall2 (FaithSpec.is_param L D KFuncArg) (f_params fd) ps)
  (Hbs : Forall2 (is_block G Fn L B D (bb_params <$> blks fd)) (l_bbs (f_layout fd)) bbs)
  (Hex : Forall2 (λ (x : bblock * list value) b, Forall2 (exact_at fd) x.2 (b_stmts b)) (l_bbs (f_layout fd)) bbs).
Notation params x := (default [] ((bb_params <$> blks fd) !! (x : bblock * list value).1)).

Lemma param_named c vs qs : Forall2 (FaithSpec.is_param L D c) vs qs → Forall2 (λ h n, L !! h = Some n) vs (map fst qs).
Proof. induction 1 as [|v q vs qs [H _] _ IH]; simpl; by constructor. Qed.
Lemma inst_named vs sts : Forall2 (is_stmt G Fn L B D) vs sts → Forall2 (exact_at fd) vs sts →
  Forall2 (λ h n, L !! h = Some n) (concat (map (named_inst D) vs)) (concat (map stmt_defs sts)).
Proof.
  induction 1 as [|v st vs sts (t & k & Ht & Hst) _ IH]; intros Hx; [constructor|]. inversion Hx as [|? ? ? ? Hx1 Hx2]; subst. simpl.
  apply Forall2_app; [|by apply IH]. unfold named_inst. rewrite Ht.
  pose proof Ht as Hd. unfold datas in Hd. rewrite lookup_fmap in Hd. apply fmap_Some in Hd as (d & Hd & E). injection E as -> ->.
  destruct (Hx1 _ Hd) as [_ Hu]. destruct st; simpl; try (rewrite Hu; constructor).
  destruct Hst as (Hn & Hnu & _). destruct (v_ty d); try done; by repeat constructor.
Qed.
Lemma inst_kind x v : x ∈ l_bbs (f_layout fd) → v ∈ x.2 → ∃ t k, D !! v = Some (t, k) ∧ is_local_inst k = true.
Proof.
  intros Hx Hv. apply elem_of_list_lookup in Hx as [i Hi]. destruct (Forall2_lookup_l _ _ _ _ _ Hbs Hi) as (b & _ & (_ & _ & Hst)).
  apply elem_of_list_lookup in Hv as [j Hj]. destruct (Forall2_lookup_l _ _ _ _ _ Hst Hj) as (st & _ & (t & k & Hk & H)).
  exists t, k. split; [done|]. destruct st as [n e|x0 dst|g args|c t1 ta t2 fa|t1 a|[a|]|]; simpl in H.
  - destruct H as (_ & _ & He). destruct e; simpl in He; destruct_and?; repeat match goal with A : ∃ _, _ |- _ => destruct A as [? A] end; destruct_and?; by subst k.
  - by destruct H as (? & ? & -> & _).
  - by destruct H as (? & ? & -> & _).
  - by destruct H as (? & ? & ? & ? & ? & -> & _).
  - by destruct H as (? & ? & -> & _).
  - by destruct H as (? & -> & _).
  - by subst k.
  - done.
Qed.
Lemma named_inst_in v u : u ∈ named_inst D v → u = v.
Proof. unfold named_inst. destruct (D !! v) as [[t k]|]; [|by intros ?%elem_of_nil]. destruct (is_unit t); [by intros ?%elem_of_nil|]. by intros ?%elem_of_list_singleton. Qed.
Lemma block_params x : x ∈ l_bbs (f_layout fd) → ∃ d, blks fd !! x.1 = Some d ∧ params x = bb_params d ∧ ∀ v, v ∈ bb_params d → ∃ t i, D !! v = Some (t, KBlockArg i).
Proof.
  intros Hx. apply elem_of_list_lookup in Hx as [i Hi]. destruct (Forall2_lookup_l _ _ _ _ _ Hbs Hi) as (b & _ & (_ & (qs & Hqs & Hq) & _)).
  rewrite lookup_fmap in *. apply fmap_Some in Hqs as (d & Hd & ->). exists d. rewrite Hd. split_and!; [done|done|].
  intros v Hv. apply elem_of_list_lookup in Hv as [j Hj]. destruct (Forall2_lookup_l _ _ _ _ _ Hq Hj) as (q & _ & (_ & t & k & ? & _)). eauto.
Qed.
Definition named_handles : list value :=
  f_params fd ++ concat (map (λ x, params x) (l_bbs (f_layout fd))) ++ concat (map (λ x : bblock * list value, concat (map (named_inst D) x.2)) (l_bbs (f_layout fd))).
Lemma fun_named : Forall2 (λ h n, L !! h = Some n) named_handles (fun_names ps bbs).
Proof.
  unfold fun_names, named_handles. apply Forall2_app; [by eapply param_named|]. apply Forall2_app.
  - clear -Hbs. induction Hbs as [|x b l l' (_ & (qs & Hqs & Hq) & _) Hl IH]; simpl; [constructor|].
    apply Forall2_app; [|by apply IH]. rewrite Hqs. simpl. by eapply param_named.
  - clear -Hbs Hex. induction Hbs as [|x b l l' (_ & _ & Hst) Hl IH]; simpl; [constructor|]. inversion Hex; subst.
    apply Forall2_app; [by apply inst_named|by apply IH].
Qed.
Lemma names_once : NoDup (fun_names ps bbs).
Proof.
  eapply nodup_named; [exact HL|exact fun_named|]. unfold named_handles. set (lay := l_bbs (f_layout fd)) in *.
  destruct HT as [T1 T2 T3 [[T4 T5] T6]].
  assert (T7 : NoDup lay) by (by apply NoDup_fmap_1 in T4).
  assert (Hsame : ∀ x y : bblock * list value, x ∈ lay → y ∈ lay → x.1 = y.1 → x = y).
  { intros x y Hx Hy E. apply elem_of_list_lookup in Hx as [i Hi], Hy as [j Hj].
    assert (i = j) as ->; [|congruence]. eapply NoDup_lookup; [exact T4| |]; unfold blocks.
    - apply map_at, Hi.
    - rewrite E. apply map_at, Hj. }
  assert (KF : ∀ v, v ∈ f_params fd → ∃ t i, D !! v = Some (t, KFuncArg i)).
  { intros v Hv. apply elem_of_list_lookup in Hv as [j Hj]. destruct (Forall2_lookup_l _ _ _ _ _ Hps Hj) as (q & _ & (_ & t & k & ? & _)). eauto. }
  assert (KP : ∀ v, v ∈ concat (map (λ x, params x) lay) → ∃ t i, D !! v = Some (t, KBlockArg i)).
  { intros v Hv. apply elem_of_list_In, in_concat in Hv as (k & Hk & Hz). apply in_map_iff in Hk as (y & <- & Hy). apply elem_of_list_In in Hy, Hz.
    destruct (block_params _ Hy) as (d & _ & E & H). apply H. by rewrite <- E. }
  assert (KI : ∀ v, v ∈ concat (map (λ x : bblock * list value, concat (map (named_inst D) x.2)) lay) → ∃ t k, D !! v = Some (t, k) ∧ is_local_inst k = true).
  { intros v Hv. apply elem_of_list_In, in_concat in Hv as (k & Hk & Hz). apply in_map_iff in Hk as (y & <- & Hy). apply elem_of_list_In in Hy.
    apply in_concat in Hz as (k & Hk & Hz). apply in_map_iff in Hk as (u & <- & Hu). apply elem_of_list_In in Hz, Hu. apply named_inst_in in Hz as ->.
    by apply (inst_kind y). }
  apply list.NoDup_app. split; [done|]. split.
  { intros v Hv [Hx|Hx]%elem_of_app; destruct (KF _ Hv) as (t & i & E).
    - destruct (KP _ Hx) as (? & ? & E'). congruence.
    - destruct (KI _ Hx) as (? & ? & E' & Hk). rewrite E in E'. by injection E' as <- <-. }
  apply list.NoDup_app. split; [|split].
  - apply nodup_concat; [done|..].
    + intros x Hx. destruct (block_params _ Hx) as (d & Hd & -> & _). by eapply T2.
    + intros x y z Hx Hy. destruct (block_params _ Hx) as (d & Hd & -> & _), (block_params _ Hy) as (e & He & -> & _). intros Hzx Hzy.
      apply Hsame; [done|done|]. by eapply T3.
  - intros v Hv Hx. destruct (KP _ Hv) as (t & i & E). destruct (KI _ Hx) as (? & ? & E' & Hk). rewrite E in E'. by injection E' as <- <-.
  - assert (Hin : ∀ (x : bblock * list value) z, z ∈ concat (map (named_inst D) x.2) → z ∈ x.2).
    { intros x z Hz. apply elem_of_list_In, in_concat in Hz as (k & Hk & Hz). apply in_map_iff in Hk as (u & <- & Hu). apply elem_of_list_In in Hz, Hu.
      by apply named_inst_in in Hz as ->. }
    apply nodup_concat; [done|..].
    + intros x Hx. apply nodup_concat; [apply (T5 x.1); by destruct x|..].
      * intros u _. unfold named_inst. destruct (D !! u) as [[t k]|]; [|constructor]. destruct (is_unit t); [constructor|]. apply NoDup_singleton.
      * intros u w z _ _ ->%named_inst_in ->%named_inst_in. done.
    + intros x y z Hx Hy Hzx%Hin Hzy%Hin. apply Hsame; [done|done|].
      assert (A : in_block (f_layout fd) z x.1) by (exists x.2; split; [by destruct x|done]).
      assert (C : in_block (f_layout fd) z y.1) by (exists y.2; split; [by destruct y|done]).
      apply T6 in A, C. congruence.
Qed.
End nodup.
