(** Walks through regular programs: nothing is met twice. *)
From Verif Require Import Base IdModel TypeModel IrModel BuilderModel WorldModel UsesSpec DfgSpec TypingSpec RawModel RawSpec.

Lemma elem_refs_val k u : TVal u ∈ refs k ↔ u ∈ operands k.
Proof.
  assert (Hf : ∀ l : list value, TVal u ∈ TVal <$> l ↔ u ∈ l).
  { intros l. rewrite elem_of_list_fmap. split; [by intros (y & [= ->] & ?)|intros ?; by exists u]. }
  destruct k as [z| | |l|i|i| |v|v|v d|x i|x i|op l r|c t f ta fa|t a|f a|[v|]]; cbn [refs operands]; try (apply (Hf _)).
  - rewrite !elem_of_cons, Hf. split; [intros [[= ->]|[?|[?|?]]]; [by left|done|done|by right]|intros [->|?]; [by left|by do 3 right]].
  - rewrite elem_of_cons, Hf. split; [by intros [?|?]|by right].
  - rewrite elem_of_cons, Hf. split; [by intros [?|?]|by right].
Qed.
Lemma no_fmap_blk b (l : list value) : TBlk b ∉ TVal <$> l.
Proof. rewrite elem_of_list_fmap. by intros (y & ? & _). Qed.
Lemma no_fmap_fun f (l : list value) : TFunc f ∉ TVal <$> l.
Proof. rewrite elem_of_list_fmap. by intros (y & ? & _). Qed.
Lemma elem_refs_blk k b : TBlk b ∈ refs k ↔ b ∈ targets k.
Proof.
  destruct k as [z| | |l|i|i| |v|v|v d|x i|x i|op l r|c t f ta fa|t a|f a|[v|]]; cbn [refs targets operands];
    try (split; [intros H; by apply no_fmap_blk in H|intros H; by apply elem_of_nil in H]).
  - rewrite !elem_of_cons, elem_of_nil. split; [intros [?|[[= ->]|[[= ->]|H]]]; [done|by left|by right; left|by apply no_fmap_blk in H]|].
    intros [->|[->|[]]]; [by right; left|by right; right; left].
  - rewrite !elem_of_cons, elem_of_nil. split; [intros [[= ->]|H]; [by left|by apply no_fmap_blk in H]|intros [->|[]]; by left].
  - rewrite elem_of_cons, elem_of_nil. split; [intros [?|H]; [done|by apply no_fmap_blk in H]|done].
Qed.
Lemma elem_refs_fun k f : TFunc f ∈ refs k ↔ ∃ a, k = KCall f a.
Proof.
  destruct k as [z| | |l|i|i| |v|v|v d|x i|x i|op l r|c t g ta fa|t a|g a|[v|]]; cbn [refs operands];
    try (split; [intros H; by apply no_fmap_fun in H|by intros (? & ?)]).
  - rewrite !elem_of_cons. split; [intros [?|[?|[?|H]]]; [done..|by apply no_fmap_fun in H]|by intros (? & ?)].
  - rewrite !elem_of_cons. split; [intros [?|H]; [done|by apply no_fmap_fun in H]|by intros (? & ?)].
  - rewrite !elem_of_cons. split; [intros [[= ->]|H]; [by eexists|by apply no_fmap_fun in H]|].
    intros (? & [= -> ->]). by left.
Qed.

(** ** Shape *)
Lemma walk_cons p S t l o1 o2 : walk p S [t] o1 → walk p (S ++ o1) l o2 → walk p S (t :: l) (o1 ++ o2).
Proof.
  intros H1 H2. inversion H1 as [|? ? ? ? Ht Hw|? ? ? ? ? ? Hn Hv Hp Hr Hw|? ? ? ? ? ? ? Hn Hb Hr Hw|? ? ? ? ? ? Hn Hf Hr Hw]; subst;
    inversion Hw; subst; rewrite ?app_nil_r in *.
  - by apply W_known.
  - by eapply W_value.
  - by eapply W_block.
  - by eapply W_func.
Qed.
Lemma walk_step p S t o : walk p S [t] o → ∀ l o2, walk p (S ++ o) l o2 → walk p S (t :: l) (o ++ o2).
Proof. intros H l o2. by apply walk_cons. Qed.
Lemma walk_app p S l1 l2 o1 o2 : walk p S l1 o1 → walk p (S ++ o1) l2 o2 → walk p S (l1 ++ l2) (o1 ++ o2).
Proof.
  intros H1. revert l2 o2. induction H1 as [S|S t l o Ht Hw IH|S v d l o o' Hn Hv Hp Hr _ Hw IH|S b d is l o o' Hn Hb Hr _ Hw IH|S f fd l o o' Hn Hf Hr _ Hw IH];
    intros l2 o2 H2.
  - by rewrite app_nil_r in H2.
  - simpl. apply W_known; [done|]. by apply IH.
  - rewrite <- (app_assoc _ o' o2). cbn [app]. eapply W_value; [done|done|done|exact Hr|]. apply IH.
    by rewrite <- !app_assoc in *.
  - rewrite <- (app_assoc _ o' o2). rewrite <- app_comm_cons. eapply W_block; [done|done|exact Hr|]. apply IH.
    by rewrite <- !app_assoc in *.
  - rewrite <- (app_assoc _ o' o2). rewrite <- app_comm_cons. eapply W_func; [done|done|exact Hr|]. apply IH.
    by rewrite <- !app_assoc in *.
Qed.

(** ** Regular programs *)
Section regular.
Context (p : program) (HR : regular p).
Lemma value_of_det v d d' : value_of p v d → value_of p v d' → d = d'.
Proof.
  intros [H|(f & fd & Hf & H)] [H'|(f' & fd' & Hf' & H')].
  - congruence.
  - pose proof (rg_global _ HR v ltac:(by eexists)) as E1. pose proof (rg_local _ HR _ _ v Hf' ltac:(by eexists)) as E2. congruence.
  - pose proof (rg_global _ HR v ltac:(by eexists)) as E1. pose proof (rg_local _ HR _ _ v Hf ltac:(by eexists)) as E2. congruence.
  - assert (f = f') as -> by (eapply (rg_own _ HR); [exact Hf|exact Hf'|by eexists|by eexists]). congruence.
Qed.
Lemma block_of_det b d d' is is' : block_of p b d is → block_of p b d' is' → d = d' ∧ is = is'.
Proof.
  intros (f & fd & Hf & H & Hi) (f' & fd' & Hf' & H' & Hi').
  assert (f = f') as -> by (eapply (rg_own_bb _ HR); [exact Hf|exact Hf'|by eexists|by eexists]).
  rewrite Hf in Hf'. injection Hf' as ->. rewrite H in H'. injection H' as ->. split; [done|].
  pose proof (rg_bbs_once _ HR _ _ Hf) as Hnd. revert Hnd Hi Hi'. generalize (l_bbs (f_layout fd')). clear.
  intros l. induction l as [|[b0 is0] l IH]; intros Hnd H1 H2; [by apply elem_of_nil in H1|].
  cbn [fmap list_fmap fst] in Hnd. apply list.NoDup_cons in Hnd as [Hn Hnd].
  apply elem_of_cons in H1, H2. destruct H1 as [[= <- <-]|H1], H2 as [E2|H2].
  - by injection E2.
  - destruct Hn. apply elem_of_list_fmap. by exists (b, is').
  - injection E2 as <- <-. destruct Hn. apply elem_of_list_fmap. by exists (b, is).
  - by apply IH.
Qed.

(** Walks are deterministic. *)
Lemma walk_det S l o : walk p S l o → ∀ o', walk p S l o' → o = o'.
Proof.
  induction 1 as [S|S t l o Ht Hw IH|S v d l o o' Hn Hv Hp Hr IHr Hw IH|S b d is l o o' Hn Hb Hr IHr Hw IH|S f fd l o o' Hn Hf Hr IHr Hw IH]; intros o2 H2.
  - by inversion H2.
  - inversion H2; subst; try done. by apply IH.
  - inversion H2 as [|? ? ? ? Ht' Hw'|? ? d' ? o1 o1' Hn' Hv' Hp' Hr' Hw'| |]; subst; [done|].
    rewrite (value_of_det _ _ _ Hv' Hv) in Hr'. apply IHr in Hr' as <-. by rewrite (IH _ Hw').
  - inversion H2 as [|? ? ? ? Ht' Hw'| |? ? d' is' ? o1 o1' Hn' Hb' Hr' Hw'|]; subst; [done|].
    destruct (block_of_det _ _ _ _ _ Hb' Hb) as [-> ->]. apply IHr in Hr' as <-. by rewrite (IH _ Hw').
  - inversion H2 as [|? ? ? ? Ht' Hw'| | |? ? fd' ? o1 o1' Hn' Hf' Hr' Hw']; subst; [done|].
    rewrite Hf in Hf'. injection Hf' as <-. apply IHr in Hr' as <-. by rewrite (IH _ Hw').
Qed.

(** Blocks and functions are met once. *)
Lemma walk_fresh S l o : walk p S l o → ∀ t, t ∈ o → (∀ v, t ≠ TVal v) → t ∉ S.
Proof.
  induction 1 as [S|S t l o Ht Hw IH|S v d l o o' Hn Hv Hp Hr IHr Hw IH|S b d is l o o' Hn Hb Hr IHr Hw IH|S f fd l o o' Hn Hf Hr IHr Hw IH]; intros x Hx Hnv.
  - by apply elem_of_nil in Hx.
  - by apply IH.
  - apply elem_of_app in Hx as [Hx|Hx].
    + apply elem_of_app in Hx as [Hx|Hx]; [by apply IHr|]. apply elem_of_list_singleton in Hx. by destruct (Hnv v).
    + intros Hs. eapply IH; [exact Hx|done|]. apply elem_of_app. by left.
  - apply elem_of_app in Hx as [Hx|Hx].
    + apply elem_of_cons in Hx as [->|Hx]; [done|]. apply elem_of_app in Hx as [Hx|Hx].
      * apply elem_of_list_fmap in Hx as (y & -> & _). by destruct (Hnv y).
      * intros Hs. eapply IHr; [exact Hx|done|]. apply elem_of_app. by left.
    + intros Hs. eapply IH; [exact Hx|done|]. apply elem_of_app. by left.
  - apply elem_of_app in Hx as [Hx|Hx].
    + apply elem_of_cons in Hx as [->|Hx]; [done|]. apply elem_of_app in Hx as [Hx|Hx].
      * apply elem_of_list_fmap in Hx as (y & -> & _). by destruct (Hnv y).
      * intros Hs. eapply IHr; [exact Hx|done|]. apply elem_of_app. by left.
    + intros Hs. eapply IH; [exact Hx|done|]. apply elem_of_app. by left.
Qed.

(** Operands. *)
Definition opnd (v u : value) : Prop := ∃ d, value_of p u d ∧ v ∈ operands (v_kind d).
Lemma params_kind f fd v : p_funcs p !! f = Some fd → v ∈ f_params fd → ∃ d j, vals fd !! v = Some d ∧ v_kind d = KFuncArg j.
Proof.
  intros Hf Hv. destruct (rg_params _ HR _ _ Hf) as (ts & r & _ & H). destruct (decide _) as [_|_].
  { rewrite H in Hv. by apply elem_of_nil in Hv. }
  destruct H as [Hl H]. apply elem_of_list_lookup in Hv as [j Hj].
  destruct (lookup_lt_is_Some_2 ts j) as [t Ht]. { rewrite <- Hl. by eapply lookup_lt_Some. }
  destruct (H _ _ _ Hj Ht) as (d & Hd & Hk & _). by eexists d, _.
Qed.
Lemma bb_params_kind f fd b bd v : p_funcs p !! f = Some fd → blks fd !! b = Some bd → v ∈ bb_params bd →
  ∃ d j, vals fd !! v = Some d ∧ v_kind d = KBlockArg j.
Proof.
  intros Hf Hb Hv. destruct (rg_bb_params _ HR _ _ _ _ Hf Hb) as (ts & Hl & H).
  apply elem_of_list_lookup in Hv as [j Hj].
  destruct (lookup_lt_is_Some_2 ts j) as [t Ht]. { rewrite <- Hl. by eapply lookup_lt_Some. }
  destruct (H _ _ _ Hj Ht) as (d & Hd & Hk & _). by eexists d, _.
Qed.
Lemma param_acc v d : value_of p v d → is_param (v_kind d) = true → Acc opnd v.
Proof.
  intros Hv Hk. constructor. intros u (d' & Hv' & Hu). rewrite (value_of_det _ _ _ Hv' Hv) in Hu.
  destruct (v_kind d); try discriminate Hk; inversion Hu.
Qed.
Lemma walk_acc S l o : walk p S l o → (∀ v, TVal v ∈ S → Acc opnd v) →
  (∀ v, TVal v ∈ o → Acc opnd v) ∧ (∀ v, TVal v ∈ l → Acc opnd v).
Proof.
  assert (Happ : ∀ S o, (∀ v, TVal v ∈ S → Acc opnd v) → (∀ v, TVal v ∈ o → Acc opnd v) → ∀ v, TVal v ∈ S ++ o → Acc opnd v).
  { intros S' o' H1 H2 v Hv. apply elem_of_app in Hv as [?|?]; auto. }
  induction 1 as [S|S t l o Ht Hw IH|S v d l o o' Hn Hv Hp Hr IHr Hw IH|S b d is l o o' Hn Hb Hr IHr Hw IH|S f fd l o o' Hn Hf Hr IHr Hw IH]; intros HS.
  - split; intros v Hx; by apply elem_of_nil in Hx.
  - destruct (IH HS) as [I1 I2]. split; [done|]. intros v Hv. apply elem_of_cons in Hv as [E|Hv]; [subst t|]; auto.
  - destruct (IHr HS) as [I1 I2].
    assert (Hv' : Acc opnd v).
    { constructor. intros u (d' & Hd' & Hu). apply I2, elem_refs_val. by rewrite (value_of_det _ _ _ Hv Hd'). }
    assert (Ho : ∀ u, TVal u ∈ o ++ [TVal v] → Acc opnd u).
    { apply Happ; [done|]. intros u Hu. apply elem_of_list_singleton in Hu. injection Hu as ->. done. }
    destruct (IH (Happ _ _ HS Ho)) as [J1 J2]. split; [by apply Happ|].
    intros u Hu. apply elem_of_cons in Hu as [[= ->]|Hu]; auto.
  - assert (Hps : ∀ u, TVal u ∈ TBlk b :: (TVal <$> bb_params d) → Acc opnd u).
    { intros u Hu. apply elem_of_cons in Hu as [?|Hu]; [done|]. apply elem_of_list_fmap in Hu as (y & [= ->] & Hu).
      destruct Hb as (f & fd & Hf & Hb & _). destruct (bb_params_kind _ _ _ _ _ Hf Hb Hu) as (dd & j & Hd & Hk).
      eapply param_acc; [right; by exists f, fd|]. by rewrite Hk. }
    destruct (IHr (Happ _ _ HS Hps)) as [I1 I2].
    assert (Ho := Happ _ _ Hps I1). destruct (IH (Happ _ _ HS Ho)) as [J1 J2]. split; [by apply Happ|].
    intros u Hu. apply elem_of_cons in Hu as [?|Hu]; [done|auto].
  - assert (Hps : ∀ u, TVal u ∈ TFunc f :: (TVal <$> f_params fd) → Acc opnd u).
    { intros u Hu. apply elem_of_cons in Hu as [?|Hu]; [done|]. apply elem_of_list_fmap in Hu as (y & [= ->] & Hu).
      destruct (params_kind _ _ _ Hf Hu) as (dd & j & Hd & Hk).
      eapply param_acc; [right; by exists f, fd|]. by rewrite Hk. }
    destruct (IHr (Happ _ _ HS Hps)) as [I1 I2].
    assert (Ho := Happ _ _ Hps I1). destruct (IH (Happ _ _ HS Ho)) as [J1 J2]. split; [by apply Happ|].
    intros u Hu. apply elem_of_cons in Hu as [?|Hu]; [done|auto].
Qed.

(** Where values come from.  [rtc (flip opnd) u v]: [v] is [u] or an operand of an operand ... *)
Lemma walk_origin S l o : walk p S l o → ∀ v, TVal v ∈ o →
  (∃ u, TVal u ∈ l ∧ rtc (flip opnd) u v) ∨
  (∃ b d is, TBlk b ∈ o ∧ block_of p b d is ∧ (v ∈ bb_params d ∨ ∃ w, w ∈ is ∧ rtc (flip opnd) w v)) ∨
  (∃ f fd, TFunc f ∈ o ∧ p_funcs p !! f = Some fd ∧ v ∈ f_params fd).
Proof.
  induction 1 as [S|S t l o Ht Hw IH|S v d l o o' Hn Hv Hp Hr IHr Hw IH|S b d is l o o' Hn Hb Hr IHr Hw IH|S f fd l o o' Hn Hf Hr IHr Hw IH]; intros x Hx.
  - by apply elem_of_nil in Hx.
  - destruct (IH _ Hx) as [(u & Hu & Ho)|H]; [left; exists u; split; [by right|done]|by right].
  - apply elem_of_app in Hx as [Hx|Hx].
    + apply elem_of_app in Hx as [Hx|Hx].
      * destruct (IHr _ Hx) as [(u & Hu & Ho)|[(b & d' & is & Hb & H)|(f & fd & Hf & H)]].
        { left. exists v. split; [by left|]. eapply rtc_l; [|exact Ho]. exists d. split; [done|]. by apply elem_refs_val. }
        { right. left. exists b, d', is. split; [|done]. apply elem_of_app. left. apply elem_of_app. by left. }
        { right. right. exists f, fd. split; [|done]. apply elem_of_app. left. apply elem_of_app. by left. }
      * apply elem_of_list_singleton in Hx. injection Hx as ->. left. exists v. split; [by left|done].
    + destruct (IH _ Hx) as [(u & Hu & Ho)|[(b & d' & is & Hb & H)|(f & fd & Hf & H)]].
      * left. exists u. split; [by right|done].
      * right. left. exists b, d', is. split; [|done]. apply elem_of_app. by right.
      * right. right. exists f, fd. split; [|done]. apply elem_of_app. by right.
  - assert (HB : TBlk b ∈ ((TBlk b :: (TVal <$> bb_params d)) ++ o) ++ o') by (by left).
    apply elem_of_app in Hx as [Hx|Hx].
    + apply elem_of_cons in Hx as [?|Hx]; [done|]. apply elem_of_app in Hx as [Hx|Hx].
      * apply elem_of_list_fmap in Hx as (y & [= ->] & Hx). right. left. exists b, d, is. split; [done|]. split; [done|]. by left.
      * destruct (IHr _ Hx) as [(u & Hu & Ho)|[(b' & d' & is' & Hb' & H)|(f & fd & Hf & H)]].
        { apply elem_of_list_fmap in Hu as (y & [= ->] & Hu). right. left. exists b, d, is. split; [done|]. split; [done|].
          right. by exists y. }
        { right. left. exists b', d', is'. split; [|done]. apply elem_of_app. left. apply elem_of_cons. right. apply elem_of_app. by right. }
        { right. right. exists f, fd. split; [|done]. apply elem_of_app. left. apply elem_of_cons. right. apply elem_of_app. by right. }
    + destruct (IH _ Hx) as [(u & Hu & Ho)|[(b' & d' & is' & Hb' & H)|(f & fd & Hf & H)]].
      * left. exists u. split; [by right|done].
      * right. left. exists b', d', is'. split; [|done]. apply elem_of_app. by right.
      * right. right. exists f, fd. split; [|done]. apply elem_of_app. by right.
  - assert (HB : TFunc f ∈ ((TFunc f :: (TVal <$> f_params fd)) ++ o) ++ o') by (by left).
    apply elem_of_app in Hx as [Hx|Hx].
    + apply elem_of_cons in Hx as [?|Hx]; [done|]. apply elem_of_app in Hx as [Hx|Hx].
      * apply elem_of_list_fmap in Hx as (y & [= ->] & Hx). right. right. by exists f, fd.
      * destruct (IHr _ Hx) as [(u & Hu & Ho)|[(b' & d' & is' & Hb' & H)|(f' & fd' & Hf' & H)]].
        { apply elem_of_list_fmap in Hu as (y & ? & Hu). done. }
        { right. left. exists b', d', is'. split; [|done]. apply elem_of_app. left. apply elem_of_cons. right. apply elem_of_app. by right. }
        { right. right. exists f', fd'. split; [|done]. apply elem_of_app. left. apply elem_of_cons. right. apply elem_of_app. by right. }
    + destruct (IH _ Hx) as [(u & Hu & Ho)|[(b' & d' & is' & Hb' & H)|(f' & fd' & Hf' & H)]].
      * left. exists u. split; [by right|done].
      * right. left. exists b', d', is'. split; [|done]. apply elem_of_app. by right.
      * right. right. exists f', fd'. split; [|done]. apply elem_of_app. by right.
Qed.

(** *** Where things belong *)
Lemma local_not_global f fd v : p_funcs p !! f = Some fd → is_Some (vals fd !! v) → is_Some (p_values p !! v) → False.
Proof.
  intros Hf Hv Hg. pose proof (rg_local _ HR _ _ _ Hf Hv) as E. rewrite (rg_global _ HR _ Hg) in E. discriminate E.
Qed.
Lemma global_data v d : value_of p v d → is_Some (p_values p !! v) → p_values p !! v = Some d.
Proof.
  intros [H|(f & fd & Hf & H)] Hg; [done|]. exfalso. eapply local_not_global; [exact Hf| |exact Hg]. by eexists.
Qed.
Lemma local_data f fd v d : value_of p v d → p_funcs p !! f = Some fd → is_Some (vals fd !! v) → vals fd !! v = Some d.
Proof.
  intros Hv Hf [d' Hd']. rewrite Hd'. f_equal. eapply value_of_det; [|exact Hv]. right. by exists f, fd.
Qed.
Lemma opnd_global u v : opnd v u → is_Some (p_values p !! u) → is_Some (p_values p !! v).
Proof.
  intros (d & Hd & Hv) Hu. apply (proj1 (rg_closed _ HR) u v). exists d. split; [by apply global_data|done].
Qed.
Lemma opnd_local f fd u v : p_funcs p !! f = Some fd → opnd v u → is_Some (vals fd !! u) →
  is_Some (p_values p !! v) ∨ is_Some (vals fd !! v).
Proof.
  intros Hf (d & Hd & Hv) Hu. apply (proj1 (proj2 (rg_closed _ HR)) f fd u v Hf). exists d. split; [|done]. by eapply local_data.
Qed.
Lemma opnds_global u v : rtc (flip opnd) u v → is_Some (p_values p !! u) → is_Some (p_values p !! v).
Proof. induction 1 as [|u u1 v Ho _ IH]; [done|]. intros Hu. apply IH. by eapply opnd_global. Qed.
Lemma opnds_local f fd u v : p_funcs p !! f = Some fd → rtc (flip opnd) u v → is_Some (vals fd !! u) →
  is_Some (p_values p !! v) ∨ is_Some (vals fd !! v).
Proof.
  intros Hf. induction 1 as [|u u1 v Ho Hr IH]; [by right|]. intros Hu.
  destruct (opnd_local _ _ _ _ Hf Ho Hu) as [Hg|Hl]; [left; by eapply opnds_global|by apply IH].
Qed.
Lemma global_kind v d : p_values p !! v = Some d → targets (v_kind d) = [] ∧ is_control (v_kind d) = false ∧ ∀ f a, v_kind d ≠ KCall f a.
Proof.
  intros Hd. pose proof (proj1 (rg_typed _ HR) _ _ Hd) as Ht. clear -Ht. destruct (v_kind d); try done; exfalso.
  - inversion Ht as [| | | | | | | | | | |? ? ? ? ? ? Ha| | | |]; subst. by destruct Ha as (? & ? & _).
  - inversion Ht as [| | | | | | | | | | | |? ? Ha| | |]; subst. by destruct Ha as (? & ? & _).
  - inversion Ht; subst. done.
Qed.
Lemma global_refs v d : p_values p !! v = Some d → ∀ t, t ∈ refs (v_kind d) → ∃ u, t = TVal u ∧ is_Some (p_values p !! u).
Proof.
  intros Hd t Ht. destruct (global_kind _ _ Hd) as (K1 & K2 & K3). destruct t as [u|b|f].
  - exists u. split; [done|]. apply elem_refs_val in Ht. apply (proj1 (rg_closed _ HR) v u). by exists d.
  - apply elem_refs_blk in Ht. rewrite K1 in Ht. by inversion Ht.
  - apply elem_refs_fun in Ht as [a Ha]. exfalso. exact (K3 _ _ Ha).
Qed.
(** A walk from global values meets global values only. *)
Definition global_task (t : task) : Prop := ∃ v, t = TVal v ∧ is_Some (p_values p !! v).
Lemma walk_global S l o : walk p S l o → (∀ t, t ∈ l → global_task t) → ∀ t, t ∈ o → global_task t.
Proof.
  induction 1 as [S|S t l o Ht Hw IH|S v d l o o' Hn Hv Hp Hr IHr Hw IH|S b d is l o o' Hn Hb Hr IHr Hw IH|S f fd l o o' Hn Hf Hr IHr Hw IH]; intros Hl x Hx.
  - by inversion Hx.
  - apply IH; [|done]. intros y Hy. apply Hl. by right.
  - destruct (Hl (TVal v) ltac:(by left)) as (v' & [= <-] & Hg).
    apply elem_of_app in Hx as [Hx|Hx].
    + apply elem_of_app in Hx as [Hx|Hx].
      * apply IHr; [|done]. eapply global_refs. by apply global_data.
      * apply elem_of_list_singleton in Hx as ->. by exists v.
    + apply IH; [|done]. intros y Hy. apply Hl. by right.
  - by destruct (Hl (TBlk b) ltac:(by left)) as (v' & ? & _).
  - by destruct (Hl (TFunc f) ltac:(by left)) as (v' & ? & _).
Qed.

(** *** The values of one function *)
Lemma listed_exists f fd b : p_funcs p !! f = Some fd → b ∈ (l_bbs (f_layout fd)).*1 → is_Some (blks fd !! b).
Proof. intros Hf Hb. by apply (rg_bbs _ HR _ _ _ Hf). Qed.
Definition own_task (fd : fdata) (t : task) : Prop :=
  match t with TVal v => is_Some (vals fd !! v) | TBlk b => is_Some (blks fd !! b) | TFunc _ => False end.
Definition plain (t : task) : Prop :=
  match t with TVal v => ∀ d, value_of p v d → is_control (v_kind d) = false | TBlk _ => False | TFunc _ => True end.
Lemma own_refs f g fd gd v d t : p_funcs p !! f = Some fd → p_funcs p !! g = Some gd → vals gd !! v = Some d →
  t ∈ refs (v_kind d) → own_task fd t → f = g.
Proof.
  intros Hf Hg Hd Ht Ho. destruct t as [u|b|]; [| |done].
  - apply elem_refs_val in Ht. destruct (proj1 (proj2 (rg_closed _ HR)) g gd v u Hg ltac:(by exists d)) as [H|H].
    + exfalso. eapply local_not_global; [exact Hf|exact Ho|exact H].
    + eapply (rg_own _ HR); [exact Hf|exact Hg|exact Ho|exact H].
  - apply elem_refs_blk in Ht. pose proof (proj2 (proj2 (rg_closed _ HR)) g gd v b Hg ltac:(by exists d)) as H.
    eapply (rg_own_bb _ HR); [exact Hf|exact Hg|exact Ho|exact H].
Qed.
Lemma control_targets k : is_control k = false → targets k = [].
Proof. by destruct k. Qed.
Lemma opnd_plain f fd u v d d' : p_funcs p !! f = Some fd → vals fd !! u = Some d → v ∈ operands (v_kind d) →
  value_of p v d' → is_control (v_kind d') = false.
Proof.
  intros Hf Hd Hv Hd'. assert (Hu : uses (vals fd) u v) by (by exists d).
  destruct (proj1 (proj2 (rg_closed _ HR)) f fd u v Hf Hu) as [H|H].
  - apply (global_kind v). by apply global_data.
  - eapply (rg_control _ HR); [exact Hf|exact Hu|]. by eapply local_data.
Qed.
Lemma plain_refs f fd v d t : p_funcs p !! f = Some fd → vals fd !! v = Some d → is_control (v_kind d) = false →
  t ∈ refs (v_kind d) → plain t.
Proof.
  intros Hf Hd Hc Ht. destruct t as [u|b|]; simpl; [| |done].
  - intros d' Hd'. apply elem_refs_val in Ht. by eapply opnd_plain.
  - apply elem_refs_blk in Ht. rewrite (control_targets _ Hc) in Ht. inversion Ht.
Qed.
Lemma walk_foreign S l o : walk p S l o → ∀ f fd, p_funcs p !! f = Some fd → TFunc f ∉ o →
  (∀ t, t ∈ l → own_task fd t → plain t) → ∀ t, t ∈ o → own_task fd t → plain t.
Proof.
  induction 1 as [S|S t l o Ht Hw IH|S v d l o o' Hn Hv Hp Hr IHr Hw IH|S b d is l o o' Hn Hb Hr IHr Hw IH|S g gd l o o' Hn Hg Hr IHr Hw IH]; intros f fd Hf Hno Hl x Hx Hown.
  - by inversion Hx.
  - eapply IH; [exact Hf|done| |exact Hx|done]. intros y Hy. apply Hl. by right.
  - assert (Hno1 : TFunc f ∉ o). { intros H. apply Hno. apply elem_of_app. left. apply elem_of_app. by left. }
    assert (Hno2 : TFunc f ∉ o'). { intros H. apply Hno. apply elem_of_app. by right. }
    apply elem_of_app in Hx as [Hx|Hx].
    + apply elem_of_app in Hx as [Hx|Hx].
      * eapply IHr; [exact Hf|done| |exact Hx|done]. intros y Hy Hoy.
        destruct Hv as [Hv|(g & gd & Hg & Hv)].
        { destruct (global_refs _ _ Hv _ Hy) as (u & -> & Hu). exfalso. eapply local_not_global; [exact Hf|exact Hoy|exact Hu]. }
        assert (f = g) as <- by (eapply own_refs; [exact Hf|exact Hg|exact Hv|exact Hy|done]).
        rewrite Hf in Hg. injection Hg as <-. eapply plain_refs; [exact Hf|exact Hv| |exact Hy].
        refine (Hl (TVal v) ltac:(by left) _ d _); [by eexists|]. right. by exists f, fd.
      * apply elem_of_list_singleton in Hx as ->. apply Hl; [by left|done].
    + eapply IH; [exact Hf|done| |exact Hx|done]. intros y Hy. apply Hl. by right.
  - destruct Hb as (g & gd & Hg & Hb & Hi).
    assert (Hne : f ≠ g). { intros <-. rewrite Hf in Hg. injection Hg as <-. destruct (Hl (TBlk b) ltac:(by left)). by eexists. }
    assert (Hvs : ∀ v, is_Some (vals gd !! v) → own_task fd (TVal v) → False).
    { intros v Hv Ho. apply Hne. eapply (rg_own _ HR); [exact Hf|exact Hg|exact Ho|exact Hv]. }
    assert (Hno1 : TFunc f ∉ o). { intros H. apply Hno. apply elem_of_app. left. apply elem_of_cons. right. apply elem_of_app. by right. }
    assert (Hno2 : TFunc f ∉ o'). { intros H. apply Hno. apply elem_of_app. by right. }
    apply elem_of_app in Hx as [Hx|Hx].
    + apply elem_of_cons in Hx as [->|Hx]; [|apply elem_of_app in Hx as [Hx|Hx]].
      * apply Hl; [by left|done].
      * apply elem_of_list_fmap in Hx as (y & -> & Hy). destruct (bb_params_kind _ _ _ _ _ Hg Hb Hy) as (dd & j & Hd & _).
        exfalso. eapply Hvs; [|exact Hown]. by eexists.
      * eapply IHr; [exact Hf|done| |exact Hx|done]. intros y Hy Hoy. apply elem_of_list_fmap in Hy as (z & -> & Hz).
        exfalso. eapply Hvs; [|exact Hoy]. eapply (rg_insts _ HR); [exact Hg|exact Hi|done].
    + eapply IH; [exact Hf|done| |exact Hx|done]. intros y Hy. apply Hl. by right.
  - assert (Hne : f ≠ g). { intros <-. apply Hno. by left. }
    assert (Hno1 : TFunc f ∉ o). { intros H. apply Hno. apply elem_of_app. left. apply elem_of_cons. right. apply elem_of_app. by right. }
    assert (Hno2 : TFunc f ∉ o'). { intros H. apply Hno. apply elem_of_app. by right. }
    apply elem_of_app in Hx as [Hx|Hx].
    + apply elem_of_cons in Hx as [->|Hx]; [done|apply elem_of_app in Hx as [Hx|Hx]].
      * apply elem_of_list_fmap in Hx as (y & -> & Hy). destruct (params_kind _ _ _ Hg Hy) as (dd & j & Hd & _).
        exfalso. apply Hne. eapply (rg_own _ HR); [exact Hf|exact Hg|exact Hown|by eexists].
      * eapply IHr; [exact Hf|done| |exact Hx|done]. intros y Hy Hoy. apply elem_of_list_fmap in Hy as (z & -> & Hz).
        exfalso. apply Hne. eapply (rg_own_bb _ HR); [exact Hf|exact Hg|exact Hoy|]. by apply (listed_exists _ _ _ Hg).
    + eapply IH; [exact Hf|done| |exact Hx|done]. intros y Hy. apply Hl. by right.
Qed.

(** *** A value is not met on the way through its operands *)
Lemma acc_irr v w : Acc opnd v → tc (flip opnd) v w → v ≠ w.
Proof.
  intros Ha Ht. assert (Hw : ∀ x, Acc opnd x → ¬ tc (flip opnd) x x).
  { clear. induction 1 as [x _ IH]. intros Ht. apply tc_inv_r in Ht || idtac.
    inversion Ht as [? y Hy|? y ? Hy Hr]; subst.
    - by apply (IH x Hy).
    - apply (IH y Hy). eapply tc_r; [exact Hr|exact Hy]. }
  intros <-. by eapply Hw.
Qed.
Lemma no_reentry_global v d S o : p_values p !! v = Some d → (∀ u, TVal u ∈ S → Acc opnd u) →
  walk p S (refs (v_kind d)) o → TVal v ∉ o.
Proof.
  intros Hd HS Hw Hin. pose proof (walk_global _ _ _ Hw (global_refs _ _ Hd)) as Hg.
  assert (Ho : value_of p v d) by (by left).
  destruct (walk_origin _ _ _ Hw _ Hin) as [(u & Hu & Hr)|[(b & d' & is & Hb & _)|(f & fd & Hf & _)]].
  - assert (Ha : Acc opnd v).
    { constructor. intros x (d' & Hd' & Hx). rewrite (value_of_det _ _ _ Hd' Ho) in Hx.
      apply (proj2 (walk_acc _ _ _ Hw HS)). by apply elem_refs_val. }
    eapply (acc_irr v v Ha); [|done]. eapply tc_rtc_r; [|exact Hr]. apply tc_once. exists d. split; [done|].
    by apply elem_refs_val.
  - by destruct (Hg _ Hb) as (? & ? & _).
  - by destruct (Hg _ Hf) as (? & ? & _).
Qed.
Lemma no_reentry_local f fd v d S o : p_funcs p !! f = Some fd → vals fd !! v = Some d → is_param (v_kind d) = false →
  TFunc f ∈ S → (∀ u, TVal u ∈ S → Acc opnd u) →
  (is_control (v_kind d) = true → ∃ b is, TBlk b ∈ S ∧ (b, is) ∈ l_bbs (f_layout fd) ∧ v ∈ is) →
  walk p S (refs (v_kind d)) o → TVal v ∉ o.
Proof.
  intros Hf Hd Hk Hfs HS Hc Hw Hin.
  assert (Ho : value_of p v d) by (right; by exists f, fd).
  assert (Hvl : is_Some (vals fd !! v)) by (by eexists).
  assert (Hnf : TFunc f ∉ o). { intros H. by eapply (walk_fresh _ _ _ Hw). }
  destruct (walk_origin _ _ _ Hw _ Hin) as [(u & Hu & Hr)|[(b & d' & is & Hb & Hbo & H)|(g & gd & Hg & Hgd & H)]].
  - assert (Ha : Acc opnd v).
    { constructor. intros x (d' & Hd' & Hx). rewrite (value_of_det _ _ _ Hd' Ho) in Hx.
      apply (proj2 (walk_acc _ _ _ Hw HS)). by apply elem_refs_val. }
    eapply (acc_irr v v Ha); [|done]. eapply tc_rtc_r; [|exact Hr]. apply tc_once. exists d. split; [done|].
    by apply elem_refs_val.
  - destruct Hbo as (g & gd & Hg & Hb' & Hi). destruct H as [H|(w & Hw' & Hr)].
    + destruct (bb_params_kind _ _ _ _ _ Hg Hb' H) as (dd & j & Hdd & Hj).
      assert (dd = d) as -> by (eapply value_of_det; [right; by exists g, gd|done]). by rewrite Hj in Hk.
    + assert (Hwl : is_Some (vals gd !! w)) by (eapply (rg_insts _ HR); [exact Hg|exact Hi|done]).
      destruct (opnds_local _ _ _ _ Hg Hr Hwl) as [H|H]; [eapply local_not_global; [exact Hf|exact Hvl|exact H]|].
      assert (g = f) as -> by (eapply (rg_own _ HR); [exact Hg|exact Hf|exact H|exact Hvl]).
      rewrite Hf in Hg. injection Hg as <-.
      destruct (is_control (v_kind d)) eqn:Ec.
      * destruct (Hc eq_refl) as (b0 & is0 & Hb0 & Hi0 & Hv0).
        assert (w = v) as ->.
        { apply rtc_inv_r in Hr as [->|(y & Hy1 & Hy2)]; [done|]. exfalso.
          destruct Hy2 as (dy & Hdy & Hvy). destruct (opnds_local _ _ _ _ Hf Hy1 Hwl) as [Hyg|Hyl].
          - eapply local_not_global; [exact Hf|exact Hvl|]. eapply opnd_global; [|exact Hyg]. by exists dy.
          - pose proof (opnd_plain f fd y v dy d Hf (local_data _ _ _ _ Hdy Hf Hyl) Hvy Ho) as E. rewrite E in Ec. discriminate Ec. }
        assert (b = b0) as -> by (eapply (rg_insts_once _ HR); [exact Hf|exact Hi|exact Hi0|done|done]).
        by eapply (walk_fresh _ _ _ Hw (TBlk b0)).
      * refine (walk_foreign _ _ _ Hw f fd Hf Hnf _ (TBlk b) Hb _); [|by eexists].
        intros t Ht _. by eapply plain_refs.
  - destruct (params_kind _ _ _ Hgd H) as (dd & j & Hdd & Hj).
    assert (dd = d) as -> by (eapply value_of_det; [right; by exists g, gd|done]). by rewrite Hj in Hk.
Qed.
End regular.
