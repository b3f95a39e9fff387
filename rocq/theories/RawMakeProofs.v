(** The raw form of a program can be made (C40). *)
From Coq Require Import Lia ZifyBool ZifyNat ZifyN.
From Verif Require Import Base IdModel TypeModel IrModel LayoutModel BuilderModel WorldModel UsesSpec DfgSpec TypingSpec
  RawModel RawSpec RawBuildProofs RawWalkProofs RawTotalSpec.

Section walk.
Context (p : program) (HR : regular p).
(** ** What a task leads to *)
Definition child (t u : task) : Prop :=
  match t with
  | TVal v => ∃ d, value_of p v d ∧ u ∈ refs (v_kind d)
  | TBlk b => ∃ d is, block_of p b d is ∧ (u ∈ TVal <$> bb_params d ∨ u ∈ TVal <$> is)
  | TFunc f => ∃ fd, p_funcs p !! f = Some fd ∧ (u ∈ TVal <$> f_params fd ∨ u ∈ TBlk <$> (l_bbs (f_layout fd)).*1)
  end.
Definition task_in (t : task) : Prop :=
  match t with
  | TVal v => ∃ d, value_of p v d
  | TBlk b => ∃ d is, block_of p b d is
  | TFunc f => is_Some (p_funcs p !! f)
  end.
Lemma walk_covers' S l o : walk p S l o → ∀ t, t ∈ l → t ∈ S ++ o.
Proof.
  intros H. induction H as [S|S t l o Ht Hw IH|S v d l o o' Hn Hv Hp Hr IHr Hw IH|S b d is l o o' Hn Hb Hr IHr Hw IH|S f fd l o o' Hn Hf Hr IHr Hw IH];
    intros u Hu.
  - by apply elem_of_nil in Hu.
  - apply elem_of_cons in Hu as [E|Hu]; [subst u; apply elem_of_app; by left|by apply IH].
  - apply elem_of_cons in Hu as [E|Hu]; [subst u; rewrite !elem_of_app; right; left; right; by left|].
    apply IH in Hu. rewrite !elem_of_app in *. tauto.
  - apply elem_of_cons in Hu as [E|Hu]; [subst u; rewrite !elem_of_app; right; left; left; by left|].
    apply IH in Hu. rewrite !elem_of_app in *. tauto.
  - apply elem_of_cons in Hu as [E|Hu]; [subst u; rewrite !elem_of_app; right; left; left; by left|].
    apply IH in Hu. rewrite !elem_of_app in *. tauto.
Qed.
Lemma param_value f fd v d : p_funcs p !! f = Some fd → vals fd !! v = Some d → is_param (v_kind d) = true →
  task_in (TVal v) ∧ ∀ u, ¬ child (TVal v) u.
Proof.
  intros Hf Hd Hk. assert (Hv : value_of p v d) by (right; by exists f, fd). split; [by exists d|].
  intros u (d' & Hd' & Hu). rewrite (value_of_det p HR _ _ _ Hd' Hv) in Hu. destruct (v_kind d); try discriminate Hk; inversion Hu.
Qed.
Lemma walk_closed S l o : walk p S l o → ∀ t, t ∈ o → task_in t ∧ ∀ u, child t u → u ∈ S ++ o.
Proof.
  intros H. induction H as [S|S t l o Ht Hw IH|S v d l o o' Hn Hv Hp Hr IHr Hw IH|S b d is l o o' Hn Hb Hr IHr Hw IH|S f fd l o o' Hn Hf Hr IHr Hw IH];
    intros x Hx.
  - by inversion Hx.
  - by apply IH.
  - apply elem_of_app in Hx as [Hx|Hx].
    + apply elem_of_app in Hx as [Hx|Hx].
      * destruct (IHr _ Hx) as [A B]. split; [done|]. intros u Hu. specialize (B u Hu). rewrite !elem_of_app in *. tauto.
      * apply elem_of_list_singleton in Hx as ->. split; [by exists d|]. intros u (d' & Hd' & Hu).
        rewrite (value_of_det p HR _ _ _ Hd' Hv) in Hu. pose proof (walk_covers' _ _ _ Hr u Hu) as Hc. rewrite !elem_of_app in *. tauto.
    + destruct (IH _ Hx) as [A B]. split; [done|]. intros u Hu. specialize (B u Hu). rewrite !elem_of_app in *. tauto.
  - apply elem_of_app in Hx as [Hx|Hx].
    + apply elem_of_app in Hx as [Hx|Hx].
      * apply elem_of_cons in Hx as [->|Hx].
        { split; [by exists d, is|]. intros u (d' & is' & Hd' & Hu). destruct (block_of_det p HR _ _ _ _ _ Hd' Hb) as [-> ->].
          destruct Hu as [Hu|Hu].
          - rewrite !elem_of_app, elem_of_cons. tauto.
          - pose proof (walk_covers' _ _ _ Hr u Hu) as Hc. rewrite !elem_of_app in *. tauto. }
        apply elem_of_list_fmap in Hx as (y & -> & Hy). destruct Hb as (f & fd & Hf & Hb & _).
        destruct (bb_params_kind p HR _ _ _ _ _ Hf Hb Hy) as (dd & j & Hdd & Hk).
        destruct (param_value f fd y dd Hf Hdd) as [A B]; [by rewrite Hk|]. split; [done|]. intros u Hu. by destruct (B u).
      * destruct (IHr _ Hx) as [A B]. split; [done|]. intros u Hu. specialize (B u Hu). rewrite !elem_of_app in *. tauto.
    + destruct (IH _ Hx) as [A B]. split; [done|]. intros u Hu. specialize (B u Hu). rewrite !elem_of_app in *. tauto.
  - apply elem_of_app in Hx as [Hx|Hx].
    + apply elem_of_app in Hx as [Hx|Hx].
      * apply elem_of_cons in Hx as [->|Hx].
        { split; [by exists fd|]. intros u (d' & Hd' & Hu). rewrite Hf in Hd'. injection Hd' as <-.
          destruct Hu as [Hu|Hu].
          - rewrite !elem_of_app, elem_of_cons. tauto.
          - pose proof (walk_covers' _ _ _ Hr u Hu) as Hc. rewrite !elem_of_app in *. tauto. }
        apply elem_of_list_fmap in Hx as (y & -> & Hy).
        destruct (params_kind p HR _ _ _ Hf Hy) as (dd & j & Hdd & Hk).
        destruct (param_value f fd y dd Hf Hdd) as [A B]; [by rewrite Hk|]. split; [done|]. intros u Hu. by destruct (B u).
      * destruct (IHr _ Hx) as [A B]. split; [done|]. intros u Hu. specialize (B u Hu). rewrite !elem_of_app in *. tauto.
    + destruct (IH _ Hx) as [A B]. split; [done|]. intros u Hu. specialize (B u Hu). rewrite !elem_of_app in *. tauto.
Qed.
(** What a walk meets is in every closed set. *)
Lemma walk_least (P : task → Prop) S l o : walk p S l o → (∀ t u, P t → child t u → P u) →
  (∀ t, t ∈ l → P t) → ∀ t, t ∈ o → P t.
Proof.
  intros H HP. induction H as [S|S t l o Ht Hw IH|S v d l o o' Hn Hv Hp Hr IHr Hw IH|S b d is l o o' Hn Hb Hr IHr Hw IH|S f fd l o o' Hn Hf Hr IHr Hw IH];
    intros Hl x Hx.
  - by inversion Hx.
  - apply IH; [|done]. intros; apply Hl; by right.
  - assert (Pv : P (TVal v)) by (apply Hl; by left). rewrite !elem_of_app in Hx. destruct Hx as [[Hx|Hx]|Hx].
    + apply IHr; [|done]. intros t Ht. apply (HP (TVal v)); [done|]. by exists d.
    + by apply elem_of_list_singleton in Hx as ->.
    + apply IH; [|done]. intros; apply Hl; by right.
  - assert (Pv : P (TBlk b)) by (apply Hl; by left). rewrite !elem_of_app, elem_of_cons in Hx. destruct Hx as [[[->|Hx]|Hx]|Hx].
    + done.
    + apply (HP (TBlk b)); [done|]. exists d, is. split; [done|]. by left.
    + apply IHr; [|done]. intros t Ht. apply (HP (TBlk b)); [done|]. exists d, is. split; [done|]. by right.
    + apply IH; [|done]. intros; apply Hl; by right.
  - assert (Pv : P (TFunc f)) by (apply Hl; by left). rewrite !elem_of_app, elem_of_cons in Hx. destruct Hx as [[[->|Hx]|Hx]|Hx].
    + done.
    + apply (HP (TFunc f)); [done|]. exists fd. split; [done|]. by left.
    + apply IHr; [|done]. intros t Ht. apply (HP (TFunc f)); [done|]. exists fd. split; [done|]. by right.
    + apply IH; [|done]. intros; apply Hl; by right.
Qed.
End walk.

(** ** What is in the tables *)
Global Instance task_eq_dec : EqDecision task.
Proof. solve_decision. Defined.
Definition hasb (s : bst) (t : task) : bool :=
  match t with
  | TVal v => match h_vals s.1 !! v with Some _ => true | None => false end
  | TBlk b => match h_bbs s.1 !! b with Some _ => true | None => false end
  | TFunc f => match h_funcs s.1 !! f with Some _ => true | None => false end
  end.
Definition filled (h : heap) (t : task) : Prop :=
  match t with
  | TVal v => ∃ x, h_vals h !! v = Some (Some x)
  | TBlk b => ∃ x, h_bbs h !! b = Some (Some x)
  | TFunc f => ∃ x, h_funcs h !! f = Some (Some x)
  end.
Definition same_at (s s' : bst) (t : task) : Prop :=
  match t with
  | TVal v => h_vals s'.1 !! v = h_vals s.1 !! v ∧ s'.2 !! v = s.2 !! v
  | TBlk b => h_bbs s'.1 !! b = h_bbs s.1 !! b
  | TFunc f => h_funcs s'.1 !! f = h_funcs s.1 !! f
  end.
Definition todo (o : list task) (s : bst) : nat := length (List.filter (λ t, negb (hasb s t)) o).
Lemma todo_mono o s s' : (∀ t, hasb s t = true → hasb s' t = true) → todo o s' ≤ todo o s.
Proof.
  intros H. unfold todo. induction o as [|t o IH]; [done|]. simpl. specialize (H t).
  destruct (hasb s t); [rewrite (H eq_refl)|destruct (hasb s' t)]; simpl; lia.
Qed.
Lemma todo_less o s s' t : (∀ t, hasb s t = true → hasb s' t = true) → t ∈ o → hasb s t = false → hasb s' t = true →
  todo o s' < todo o s.
Proof.
  intros H Ht H1 H2. induction o as [|u o IH]; [by inversion Ht|]. unfold todo in *. simpl.
  apply elem_of_cons in Ht as [<-|Ht].
  - rewrite H1, H2. simpl. pose proof (todo_mono o s s' H). unfold todo in *. lia.
  - specialize (IH Ht). specialize (H u). destruct (hasb s u); [rewrite (H eq_refl)|destruct (hasb s' u)]; simpl; lia.
Qed.
Lemma kind_tasks_refs k : kind_tasks k = refs k.
Proof. destruct k as [| | | | | | | | | | | | |c t f ta fa| | |[v|]]; try done. simpl. by rewrite fmap_app. Qed.

Section make.
Context (ord : gset N → list N) (p : program) (o : list task) (HR : regular p) (HB : buildable p o)
  (Ho : discovered p o) (Hord : lists_sets ord).
Lemma o_in t : t ∈ o → task_in p t.
Proof. intros H. by apply (walk_closed p HR _ _ _ Ho t H). Qed.
Lemma o_child t u : t ∈ o → child p t u → u ∈ o.
Proof. intros H Hu. by apply (proj2 (walk_closed p HR _ _ _ Ho t H)) in Hu. Qed.

Definition closes (s s' : bst) (t : task) : Prop :=
  filled s'.1 t ∧ (∀ u, child p t u → hasb s' u = true) ∧
  match t with TVal v => ∃ d, value_of p v d ∧ s'.2 !! v = Some (ord (v_used_by d)) | _ => True end.
Definition grown (s s' : bst) : Prop :=
  (∀ t, hasb s t = true → hasb s' t = true ∧ same_at s s' t) ∧
  (∀ t, hasb s t = false → hasb s' t = true → closes s s' t).
Lemma grown_refl s : grown s s.
Proof. split; [by intros []|]. intros t H H'. congruence. Qed.
Lemma grown_trans s s1 s2 : grown s s1 → grown s1 s2 → grown s s2.
Proof.
  intros [A1 A2] [B1 B2]. split.
  - intros t Ht. destruct (A1 t Ht) as [H1 E1]. destruct (B1 t H1) as [H2 E2]. split; [done|].
    destruct t; simpl in *; [destruct E1, E2; split; congruence|congruence..].
  - intros t Ht Ht2. destruct (hasb s1 t) eqn:E.
    + destruct (A2 t Ht E) as (C1 & C2 & C3). destruct (B1 t E) as [_ Hs]. split_and!.
      * destruct t; simpl in *; destruct C1 as [x Hx]; exists x; [destruct Hs|..]; congruence.
      * intros u Hu. apply B1. by apply C2.
      * destruct t as [v| |]; [|done..]. destruct C3 as (d & Hd & E'). exists d. split; [done|]. simpl in Hs. destruct Hs. congruence.
    + exact (B2 t E Ht2).
Qed.
Lemma grown_mono s s' t : grown s s' → hasb s t = true → hasb s' t = true.
Proof. intros [H _] Ht. by apply H. Qed.
(** Where a task belongs. *)
Definition in_fun (cf : option fdata) (t : task) : Prop :=
  match t with
  | TVal v => is_Some (p_values p !! v) ∨ ∃ fd, cf = Some fd ∧ is_Some (vals fd !! v)
  | TBlk b => ∃ fd, cf = Some fd ∧ is_Some (blks fd !! b)
  | TFunc _ => True
  end.
Definition makes (n : nat) : Prop := ∀ cf t s, fun_of p cf → t ∈ o → in_fun cf t → todo o s < n →
  ∃ s', raw_build ord p n cf t s = Done s' ∧ grown s s' ∧ hasb s' t = true.
Lemma makes_each n cf : makes n → fun_of p cf → ∀ l s, (∀ t, t ∈ l → t ∈ o ∧ in_fun cf t) → todo o s < n →
  ∃ s', each (raw_build ord p n cf) l s = Done s' ∧ grown s s' ∧ ∀ t, t ∈ l → hasb s' t = true.
Proof.
  intros Hm Hf. induction l as [|t l IH]; intros s Hl Hn; simpl.
  - exists s. split; [done|]. split; [apply grown_refl|]. intros t Ht. inversion Ht.
  - destruct (Hl t) as [H1 H2]; [by left|]. destruct (Hm cf t s Hf H1 H2 Hn) as (s1 & E1 & G1 & T1).
    destruct (IH s1) as (s2 & E2 & G2 & T2).
    + intros u Hu. apply Hl. by right.
    + pose proof (todo_mono o s s1 (λ t, grown_mono s s1 t G1)). lia.
    + exists s2. rewrite E1. simpl. split; [done|]. split; [by eapply grown_trans|].
      intros u Hu. apply elem_of_cons in Hu as [->|Hu]; [by eapply grown_mono|by apply T2].
Qed.
Lemma name_go n : (∀ s, n = Some s → c_name_ok s) → c_name n = Done tt.
Proof.
  intros H. destruct n as [s|]; [|done]. simpl. unfold c_string. rewrite bool_decide_false; [done|]. by apply (H s).
Qed.
Lemma find_bb_go b l : b ∈ (l : list (bblock * list value)).*1 → ∃ is, find_bb b l = Some is.
Proof.
  induction l as [|[b' is] l IH]; simpl; [by inversion 1|]. intros H. destruct (N.eqb_spec b' b) as [->|Hne]; [by eexists|].
  apply elem_of_cons in H as [->|H]; [done|]. by apply IH.
Qed.
Lemma refs_in_fun cf v d t : fun_of p cf → in_fun cf (TVal v) → value_of p v d → t ∈ refs (v_kind d) → in_fun cf t.
Proof.
  intros Hcf Hv Hd Ht. destruct Hv as [Hv|(fd & -> & Hv)].
  - destruct (global_refs p HR v d (global_data p HR v d Hd Hv) t Ht) as (u & -> & Hu). by left.
  - destruct (Hcf fd eq_refl) as [f Hf]. pose proof (local_data p HR f fd v d Hd Hf Hv) as Hdv. destruct t as [u|b|]; simpl; [| |done].
    + apply elem_refs_val in Ht. destruct (proj1 (proj2 (rg_closed _ HR)) f fd v u Hf ltac:(by exists d)) as [?|?]; [by left|right; by exists fd].
    + apply elem_refs_blk in Ht. exists fd. split; [done|]. eapply (proj2 (proj2 (rg_closed _ HR)) f fd v b Hf). by exists d.
Qed.
Lemma grown_put_val s h1 us1 v d l : hasb s (TVal v) = false → value_of p v d →
  grown (put_val s.1 v None, s.2) (h1, us1) → (∀ t, t ∈ refs (v_kind d) → hasb (h1, us1) t = true) →
  l = ord (v_used_by d) →
  ∀ x, grown s (put_val h1 v (Some x), <[v := l]> us1) ∧ hasb (put_val h1 v (Some x), <[v := l]> us1) (TVal v) = true.
Proof.
  intros Hn Hd [G1 G2] Hr -> x. set (s2 := (put_val h1 v (Some x), _)).
  assert (Hup : ∀ t, hasb (h1, us1) t = true → hasb s2 t = true).
  { intros [u|b|f]; simpl; [|done..]. destruct (decide (u = v)) as [->|Hne]; [by rewrite lookup_insert|by rewrite lookup_insert_ne]. }
  assert (Hv : hasb s2 (TVal v) = true) by (simpl; by rewrite lookup_insert).
  assert (Hother : ∀ t, t ≠ TVal v → hasb s2 t = hasb (h1, us1) t ∧ same_at (h1, us1) s2 t ∧
     hasb (put_val s.1 v None, s.2) t = hasb s t ∧ same_at s (put_val s.1 v None, s.2) t).
  { intros [u|b|f] Hne; simpl; [|done..]. rewrite !lookup_insert_ne by congruence. done. }
  split; [|done]. split.
  - intros t Ht. destruct (decide (t = TVal v)) as [->|Hne]; [congruence|]. destruct (Hother t Hne) as (E1 & E2 & E3 & E4).
    destruct (G1 t) as [K1 K2]; [congruence|]. split; [congruence|]. clear -E2 E4 K2.
    destruct t; simpl in *; [destruct E2, E4, K2; split; congruence|congruence..].
  - intros t Ht Ht2. destruct (decide (t = TVal v)) as [->|Hne].
    + split_and!.
      * exists x. simpl. apply lookup_insert.
      * intros u (d' & Hd' & Hu). apply Hup, Hr. by rewrite <- (value_of_det p HR _ _ _ Hd' Hd).
      * exists d. split; [done|]. simpl. apply lookup_insert.
    + destruct (Hother t Hne) as (E1 & E2 & E3 & E4). destruct (G2 t) as (C1 & C2 & C3); [congruence..|]. split_and!.
      * clear -E2 C1. destruct t; simpl in *; destruct C1 as [y Hy]; exists y; [destruct E2|..]; congruence.
      * intros u Hu. by apply Hup, C2.
      * destruct t as [u| |]; [|done..]. destruct C3 as (d' & Hd' & E'). exists d'. split; [done|]. destruct E2 as [_ E2]. simpl in E2, E'. simpl. by rewrite E2.
Qed.
Lemma grown_put_bb s h1 us1 b d is : hasb s (TBlk b) = false → block_of p b d is →
  grown (put_bb s.1 b None, s.2) (h1, us1) → (∀ t, child p (TBlk b) t → hasb (h1, us1) t = true) →
  ∀ x, grown s (put_bb h1 b (Some x), us1) ∧ hasb (put_bb h1 b (Some x), us1) (TBlk b) = true.
Proof.
  intros Hn Hd [G1 G2] Hr x. set (s2 := (put_bb h1 b (Some x), _)).
  assert (Hup : ∀ t, hasb (h1, us1) t = true → hasb s2 t = true).
  { intros [u|u|f]; simpl; [done| |done]. destruct (decide (u = b)) as [->|Hne]; [by rewrite lookup_insert|by rewrite lookup_insert_ne]. }
  assert (Hv : hasb s2 (TBlk b) = true) by (simpl; by rewrite lookup_insert).
  assert (Hother : ∀ t, t ≠ TBlk b → hasb s2 t = hasb (h1, us1) t ∧ same_at (h1, us1) s2 t ∧
     hasb (put_bb s.1 b None, s.2) t = hasb s t ∧ same_at s (put_bb s.1 b None, s.2) t).
  { intros [u|u|f] Hne; simpl; [done| |done]. rewrite !lookup_insert_ne by congruence. done. }
  split; [|done]. split.
  - intros t Ht. destruct (decide (t = TBlk b)) as [->|Hne]; [congruence|]. destruct (Hother t Hne) as (E1 & E2 & E3 & E4).
    destruct (G1 t) as [K1 K2]; [congruence|]. split; [congruence|]. clear -E2 E4 K2.
    destruct t; simpl in *; [destruct E2, E4, K2; split; congruence|congruence..].
  - intros t Ht Ht2. destruct (decide (t = TBlk b)) as [->|Hne].
    + split_and!; [exists x; simpl; apply lookup_insert| |done]. intros u Hu. by apply Hup, Hr.
    + destruct (Hother t Hne) as (E1 & E2 & E3 & E4). destruct (G2 t) as (C1 & C2 & C3); [congruence..|]. split_and!.
      * clear -E2 C1. destruct t; simpl in *; destruct C1 as [y Hy]; exists y; [destruct E2|..]; congruence.
      * intros u Hu. by apply Hup, C2.
      * destruct t as [u| |]; [|done..]. done.
Qed.
Lemma grown_put_fun s h1 us1 f fd : hasb s (TFunc f) = false → p_funcs p !! f = Some fd →
  grown (put_fun s.1 f None, s.2) (h1, us1) → (∀ t, child p (TFunc f) t → hasb (h1, us1) t = true) →
  ∀ x, grown s (put_fun h1 f (Some x), us1) ∧ hasb (put_fun h1 f (Some x), us1) (TFunc f) = true.
Proof.
  intros Hn Hd [G1 G2] Hr x. set (s2 := (put_fun h1 f (Some x), _)).
  assert (Hup : ∀ t, hasb (h1, us1) t = true → hasb s2 t = true).
  { intros [u|u|u]; simpl; [done|done|]. destruct (decide (u = f)) as [->|Hne]; [by rewrite lookup_insert|by rewrite lookup_insert_ne]. }
  assert (Hv : hasb s2 (TFunc f) = true) by (simpl; by rewrite lookup_insert).
  assert (Hother : ∀ t, t ≠ TFunc f → hasb s2 t = hasb (h1, us1) t ∧ same_at (h1, us1) s2 t ∧
     hasb (put_fun s.1 f None, s.2) t = hasb s t ∧ same_at s (put_fun s.1 f None, s.2) t).
  { intros [u|u|u] Hne; simpl; [done|done|]. rewrite !lookup_insert_ne by congruence. done. }
  split; [|done]. split.
  - intros t Ht. destruct (decide (t = TFunc f)) as [->|Hne]; [congruence|]. destruct (Hother t Hne) as (E1 & E2 & E3 & E4).
    destruct (G1 t) as [K1 K2]; [congruence|]. split; [congruence|]. clear -E2 E4 K2.
    destruct t; simpl in *; [destruct E2, E4, K2; split; congruence|congruence..].
  - intros t Ht Ht2. destruct (decide (t = TFunc f)) as [->|Hne].
    + split_and!; [exists x; simpl; apply lookup_insert| |done]. intros u Hu. by apply Hup, Hr.
    + destruct (Hother t Hne) as (E1 & E2 & E3 & E4). destruct (G2 t) as (C1 & C2 & C3); [congruence..|]. split_and!.
      * clear -E2 C1. destruct t; simpl in *; destruct C1 as [y Hy]; exists y; [destruct E2|..]; congruence.
      * intros u Hu. by apply Hup, C2.
      * destruct t as [u| |]; [|done..]. done.
Qed.

Lemma make_all n : makes n.
Proof.
  induction n as [|n IH]; intros cf t s Hcf Hto Hin Hn; [lia|]. destruct s as [h us].
  pose proof (makes_each n) as IHe.
  destruct t as [v|b|f]; cbn [raw_build].
  - destruct (h_vals h !! v) as [e|] eqn:Ev.
    { exists (h, us). split; [done|]. split; [apply grown_refl|]. simpl. by rewrite Ev. }
    destruct (o_in _ Hto) as [d Hd].
    assert (Hneed : need (if is_global_id v then p_values p !! v else fd ← cf; vals fd !! v) = Done d).
    { destruct Hin as [Hg|(fd & -> & Hl)].
      - rewrite (rg_global _ HR _ Hg). by rewrite (global_data p HR _ _ Hd Hg).
      - destruct (Hcf fd eq_refl) as [f Hf]. rewrite (rg_local _ HR _ _ _ Hf Hl). simpl. by rewrite (local_data p HR _ _ _ _ Hd Hf Hl). }
    rewrite Hneed. cbn [mbind rr_bind]. rewrite kind_tasks_refs.
    destruct (IHe cf IH Hcf (refs (v_kind d)) (put_val h v None, us)) as ([h1 us1] & E1 & G1 & T1).
    { intros t Ht. split; [|by eapply refs_in_fun]. apply (o_child _ _ Hto). by exists d. }
    { assert (todo o (put_val h v None, us) < todo o (h, us)); [|lia]. apply (todo_less _ _ _ (TVal v)); [|done| |].
      - intros [u|u|u]; simpl; [|done..]. destruct (decide (u = v)) as [->|Hne]; [by rewrite lookup_insert|by rewrite lookup_insert_ne].
      - simpl. by rewrite Ev.
      - simpl. by rewrite lookup_insert. }
    destruct (grown_put_val (h, us) h1 us1 v d (ord (v_used_by d))) with (x := RValue (v_ty d) (v_name d) [] (v_kind d)) as [A B];
      [simpl; by rewrite Ev|done|done|done|done|].
    eexists. split; [|split; [exact A|exact B]].
    rewrite (name_go (v_name d)) by (intros s; by apply (bu_vname _ _ HB v)).
    by rewrite E1.
  - destruct (h_bbs h !! b) as [e|] eqn:Ev.
    { exists (h, us). split; [done|]. split; [apply grown_refl|]. simpl. by rewrite Ev. }
    destruct (o_in _ Hto) as (d & is & Hd). destruct Hin as (fd & -> & Hbl). destruct (Hcf fd eq_refl) as [f Hf].
    assert (Hd' := Hd). destruct Hd' as (f' & fd' & Hf' & Hb' & Hl').
    assert (f' = f) as -> by (eapply (rg_own_bb _ HR); [exact Hf'|exact Hf|by eexists|done]).
    assert (fd' = fd) as -> by congruence.
    destruct (find_bb_go b (l_bbs (f_layout fd))) as [is' Hfb].
    { apply elem_of_list_fmap. by exists (b, is). }
    assert (is' = is) as ->.
    { assert (Hd2 : block_of p b d is') by (exists f, fd; split; [done|]; split; [done|]; by apply find_bb_in).
      by destruct (block_of_det p HR _ _ _ _ _ Hd2 Hd). }
    assert (Hlt : todo o (put_bb h b None, us) < n).
    { assert (todo o (put_bb h b None, us) < todo o (h, us)); [|lia]. apply (todo_less _ _ _ (TBlk b)); [|done| |].
      - intros [u|u|u]; simpl; [done| |done]. destruct (decide (u = b)) as [->|Hne]; [by rewrite lookup_insert|by rewrite lookup_insert_ne].
      - simpl. by rewrite Ev.
      - simpl. by rewrite lookup_insert. }
    destruct (IHe (Some fd) IH Hcf (TVal <$> bb_params d) (put_bb h b None, us)) as (s1 & E1 & G1 & T1); [|done|].
    { intros t Ht. split; [apply (o_child _ _ Hto); exists d, is; split; [done|by left]|].
      apply elem_of_list_fmap in Ht as (y & -> & Hy). destruct (bb_params_kind p HR _ _ _ _ _ Hf Hb' Hy) as (dd & j & Hdd & _).
      right. exists fd. split; [done|]. by exists dd. }
    assert (Hlt1 : todo o s1 < n) by (pose proof (todo_mono o _ _ (λ t, grown_mono _ s1 t G1)); lia).
    destruct (IHe (Some fd) IH Hcf (TVal <$> ord (bb_used_by d)) s1) as (s2 & E2 & G2 & T2); [|done|].
    { intros t Ht. apply elem_of_list_fmap in Ht as (y & -> & Hy). apply Hord in Hy.
      apply (proj2 (proj2 (bu_users _ _ HB)) f fd b d Hf Hb') in Hy. destruct Hy as (dd & Hdd & Htg). split.
      - apply (bu_met _ _ HB y dd); [right; by exists f, fd|]. apply elem_refs_blk in Htg. intros E. rewrite E in Htg. inversion Htg.
      - right. exists fd. split; [done|]. by exists dd. }
    assert (Hlt2 : todo o s2 < n) by (pose proof (todo_mono o _ _ (λ t, grown_mono _ s2 t G2)); lia).
    destruct (IHe (Some fd) IH Hcf (TVal <$> is) s2) as ([h3 us3] & E3 & G3 & T3); [|done|].
    { intros t Ht. split; [apply (o_child _ _ Hto); exists d, is; split; [done|by right]|].
      apply elem_of_list_fmap in Ht as (y & -> & Hy). right. exists fd. split; [done|].
      apply (rg_insts _ HR f fd b is y Hf Hl' Hy). }
    destruct (grown_put_bb (h, us) h3 us3 b d is) with (x := RBlock (bb_name d) (bb_params d) (ord (bb_used_by d)) is) as [A B].
    { simpl. by rewrite Ev. }
    { done. }
    { eapply grown_trans; [exact G1|]. by eapply grown_trans. }
    { intros t (d2 & is2 & Hd2 & Ht). destruct (block_of_det p HR _ _ _ _ _ Hd2 Hd) as [-> ->]. destruct Ht as [Ht|Ht].
      - eapply grown_mono; [exact G3|]. eapply grown_mono; [exact G2|]. by apply T1.
      - by apply T3. }
    eexists. split; [|split; [exact A|exact B]].
    cbn [need mbind rr_bind]. rewrite Hb'. cbn [need mbind rr_bind].
    rewrite (name_go (bb_name d)) by (intros s; by apply (bu_bname _ _ HB f fd b d)).
    cbn [mbind rr_bind]. rewrite E1. cbn [mbind rr_bind]. rewrite E2. cbn [mbind rr_bind].
    rewrite Hfb. cbn [need mbind rr_bind]. by rewrite E3.
  - destruct (h_funcs h !! f) as [e|] eqn:Ev.
    { exists (h, us). split; [done|]. split; [apply grown_refl|]. simpl. by rewrite Ev. }
    destruct (o_in _ Hto) as (fd & Hf).
    assert (Hc : fun_of p (Some fd)) by (intros ? [= <-]; by exists f).
    assert (Hlt : todo o (put_fun h f None, us) < n).
    { assert (todo o (put_fun h f None, us) < todo o (h, us)); [|lia]. apply (todo_less _ _ _ (TFunc f)); [|done| |].
      - intros [u|u|u]; simpl; [done|done|]. destruct (decide (u = f)) as [->|Hne]; [by rewrite lookup_insert|by rewrite lookup_insert_ne].
      - simpl. by rewrite Ev.
      - simpl. by rewrite lookup_insert. }
    destruct (IHe (Some fd) IH Hc (TVal <$> f_params fd) (put_fun h f None, us)) as (s1 & E1 & G1 & T1); [|done|].
    { intros t Ht. split; [apply (o_child _ _ Hto); exists fd; split; [done|by left]|].
      apply elem_of_list_fmap in Ht as (y & -> & Hy). destruct (params_kind p HR _ _ _ Hf Hy) as (dd & j & Hdd & _).
      right. exists fd. split; [done|]. by exists dd. }
    assert (Hlt1 : todo o s1 < n) by (pose proof (todo_mono o _ _ (λ t, grown_mono _ s1 t G1)); lia).
    destruct (IHe (Some fd) IH Hc (TBlk <$> (l_bbs (f_layout fd)).*1) s1) as ([h2 us2] & E2 & G2 & T2); [|done|].
    { intros t Ht. split; [apply (o_child _ _ Hto); exists fd; split; [done|by right]|].
      apply elem_of_list_fmap in Ht as (y & -> & Hy). exists fd. split; [done|]. by eapply (listed_exists p HR). }
    destruct (grown_put_fun (h, us) h2 us2 f fd) with (x := RFunc (f_ty fd) (f_name fd) (f_params fd) ((l_bbs (f_layout fd)).*1)) as [A B].
    { simpl. by rewrite Ev. }
    { done. }
    { by eapply grown_trans. }
    { intros t (fd2 & Hd2 & Ht). assert (fd2 = fd) as -> by congruence. destruct Ht as [Ht|Ht].
      - eapply grown_mono; [exact G2|]. by apply T1.
      - by apply T2. }
    eexists. split; [|split; [exact A|exact B]].
    rewrite Hf. cbn [need mbind rr_bind].
    pose proof (name_go (Some (f_name fd))) as Hnm. simpl in Hnm. rewrite Hnm by (intros s [= <-]; by apply (bu_fname _ _ HB f fd)).
    cbn [mbind rr_bind]. rewrite E1. cbn [mbind rr_bind]. by rewrite E2.
Qed.

(** ** The whole program *)
Lemma listed_in v : v ∈ p_inst_layout p → TVal v ∈ o.
Proof.
  intros Hv. apply (walk_covers' p _ _ _ Ho (TVal v)). apply elem_of_app. left. apply elem_of_list_fmap. by exists v.
Qed.
Lemma listed_fun_in f : f ∈ p_func_layout p → TFunc f ∈ o.
Proof.
  intros Hv. apply (walk_covers' p _ _ _ Ho (TFunc f)). apply elem_of_app. right. apply elem_of_list_fmap. by exists f.
Qed.
Lemma make_program n : length o < n →
  ∃ r h, build_on ord n p = Done (r, h) ∧ ∀ t, t ∈ o → filled h t.
Proof.
  intros Hn. unfold build_on.
  assert (H0 : todo o (heap0, ∅) < n).
  { assert (H : ∀ l : list task, length (List.filter (λ t, negb (hasb (heap0, ∅) t)) l) ≤ length l); [|specialize (H o); unfold todo; lia].
    clear. induction l as [|t l IH]; simpl; [lia|]. destruct (negb _); simpl; lia. }
  assert (Hnone : fun_of p None) by done.
  destruct (makes_each n None (make_all n) Hnone (TVal <$> p_inst_layout p) (heap0, ∅)) as (s1 & E1 & G1 & T1); [|done|].
  { intros t Ht. apply elem_of_list_fmap in Ht as (v & -> & Hv). split; [by apply listed_in|]. left. by apply (rg_layout _ HR). }
  destruct (makes_each n None (make_all n) Hnone (TFunc <$> p_func_layout p) s1) as (s2 & E2 & G2 & T2).
  { intros t Ht. apply elem_of_list_fmap in Ht as (v & -> & Hv). split; [by apply listed_fun_in|done]. }
  { pose proof (todo_mono o _ _ (λ t, grown_mono _ s1 t G1)); lia. }
  assert (G : grown (heap0, ∅) s2) by by eapply grown_trans.
  assert (Hnew : ∀ t, hasb s2 t = true → closes (heap0, ∅) s2 t) by (intros t; apply (proj2 G); by destruct t).
  assert (Hall : ∀ t, t ∈ o → hasb s2 t = true).
  { apply (walk_least p (λ t, hasb s2 t = true) _ _ _ Ho).
    - intros t u Ht Hu. by apply (Hnew t Ht).
    - intros t Ht. apply elem_of_app in Ht as [Ht|Ht]; [|by apply T2]. eapply grown_mono; [exact G2|by apply T1]. }
  rewrite E1. cbn [mbind rr_bind]. rewrite E2. cbn [mbind rr_bind].
  assert (Hfill : ∃ h, fill_used_by s2 = Done h ∧ ∀ t, filled s2.1 t → filled h t).
  { unfold fill_used_by. rewrite (proj2 (forallb_forall _ _)).
    - eexists. split; [done|]. intros [v|b|f] [x Hx]; simpl; [|by exists x..]. rewrite map_lookup_imap, Hx. simpl. by eexists.
    - intros [v e] Hin. apply elem_of_list_In, elem_of_map_to_list in Hin. simpl.
      destruct (Hnew (TVal v)) as (_ & _ & d & Hd & Eu); [simpl; by rewrite Hin|]. rewrite Eu. apply forallb_forall.
      intros u Hu. apply elem_of_list_In, Hord in Hu.
      assert (Hu' : TVal u ∈ o).
      { destruct Hd as [Hd|(f & fd & Hf & Hd)].
        - apply (proj1 (bu_users _ _ HB) v d Hd) in Hu. destruct Hu as [(du & Hdu & Ho')|(f & fd & Hf & du & Hdu & Ho')].
          + apply (bu_met _ _ HB u du); [by left|]. apply elem_refs_val in Ho'. intros E. rewrite E in Ho'. inversion Ho'.
          + apply (bu_met _ _ HB u du); [right; by exists f, fd|]. apply elem_refs_val in Ho'. intros E. rewrite E in Ho'. inversion Ho'.
        - apply (proj1 (proj2 (bu_users _ _ HB)) f fd v d Hf Hd) in Hu. destruct Hu as (du & Hdu & Ho').
          apply (bu_met _ _ HB u du); [right; by exists f, fd|]. apply elem_refs_val in Ho'. intros E. rewrite E in Ho'. inversion Ho'. }
      apply Hall in Hu'. simpl in Hu'. destruct (h_vals s2.1 !! u); [done|discriminate Hu']. }
  destruct Hfill as (h & -> & Hh). cbn [mbind rr_bind]. eexists _, h. split; [done|].
  intros t Ht. apply Hh. by apply (Hnew t), Hall.
Qed.
End make.
