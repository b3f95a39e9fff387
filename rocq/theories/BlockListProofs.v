(** Proofs about the list of blocks of a function (C34). *)
From Coq Require Import Lia ZifyBool ZifyNat ZifyN Sorted.
From Verif Require Import Base IdModel TypeModel IrModel LexerModel ParserModel ParserSpec FrontModel
  FrontProofs FlowSpec.

(** ** Paths between names *)
Definition medge (m : gmap string ablock) (a b : string) : Prop :=
  ∃ x, m !! a = Some x ∧ succ x b ∧ is_Some (m !! b).
Inductive npath (m : gmap string ablock) : nat → string → string → Prop :=
  | npath_nil a : npath m 0 a a
  | npath_cons n a b c : medge m a b → npath m n b c → npath m (S n) a c.
(** Paths that avoid some names *)
Inductive apath (m : gmap string ablock) (V : gset string) : nat → string → string → Prop :=
  | apath_nil a : a ∉ V → apath m V 0 a a
  | apath_cons n a b c : a ∉ V → medge m a b → apath m V n b c → apath m V (S n) a c.

Lemma npath_snoc m n a b c : npath m n a b → medge m b c → npath m (S n) a c.
Proof. induction 1; intros; econstructor; eauto. constructor. Qed.
Lemma apath_empty m n a b : npath m n a b → apath m ∅ n a b.
Proof. induction 1; econstructor; eauto; set_solver. Qed.
Lemma apath_start m V n a b : apath m V n a b → a ∉ V.
Proof. by destruct 1. Qed.
Lemma apath_cut m V x n a b : apath m V n a b →
  apath m ({[x]} ∪ V) n a b ∨ b = x ∨
  ∃ y n', medge m x y ∧ apath m ({[x]} ∪ V) n' y b ∧ S n' ≤ n.
Proof.
  induction 1 as [a Ha|n a b c Ha He Hp IH].
  - destruct (decide (a = x)); [auto|]. left. constructor. set_solver.
  - destruct IH as [IH|[IH|(y & n' & H1 & H2 & H3)]]; [|auto|].
    + destruct (decide (a = x)) as [-> |].
      * right; right. exists b, n. auto.
      * left. econstructor; [set_solver|done|done].
    + right; right. exists y, n'. split_and!; [done..|lia].
Qed.

Lemma mthen_ok {A B} (m : F A) (k : A → F B) s b s' : (x <- m;; k x) s = (Rok b, s') →
  ∃ a s1, m s = (Rok a, s1) ∧ k a s1 = (Rok b, s').
Proof. unfold mthen. destruct (m s) as [[a|f| |] s1]; try done. eauto. Qed.

(** ** The targets of a block *)
Lemma last_snoc_inv {A} (l : list A) x : list.last l = Some x → ∃ l', l = l' ++ [x].
Proof.
  intros H. destruct (exists_last (l:=l)) as (l' & y & ->); [by intros ->|].
  rewrite last_snoc in H. simplify_eq. eauto.
Qed.
Lemma targets_succ b ts : targets b = Some ts → ∀ t, t ∈ ts ↔ succ b t.
Proof.
  unfold targets. destruct (list.last (b_stmts b)) as [st|] eqn:E; [|done]. simpl.
  apply last_snoc_inv in E as [body E]. intros Hts t. unfold succ. split.
  - intros Ht. exists body, st. split; [done|].
    destruct st; simplify_eq; simpl in *; set_solver.
  - intros (body' & fin & E' & Hg). rewrite E in E'. apply app_inj_2 in E' as [_ [= <-]]; [|done].
    destruct st; simplify_eq; simpl in *; set_solver.
Qed.
Lemma add_targets_elem entry m ts : ∀ s q s', add_targets entry m ts s = (Rok q, s') →
  ∀ t, t ∈ q ↔ t ∈ ts ∧ t ≠ entry ∧ is_Some (m !! t).
Proof.
  induction ts as [|t0 ts IH]; intros s q s' H t; simpl in H.
  { injection H as <- <-. set_solver. }
  unfold mthen in H. destruct (String.eqb_spec t0 entry) as [-> |Hne].
  - simpl in H. rewrite (IH _ _ _ H). set_solver.
  - case_decide as Hm.
    + destruct (add_targets entry m ts s) as [[q'|f| |] s1] eqn:E; try done;
        injection H as <- <-.
      rewrite elem_of_cons, (IH _ _ _ E). set_solver.
    + simpl in H. rewrite (IH _ _ _ H). set_solver.
Qed.
(** An error is reported exactly for the bad targets. *)
Lemma add_targets_errs entry m ts : ∀ s q s', add_targets entry m ts s = (Rok q, s') →
  (b_errs s ≤ b_errs s')%N ∧
  (b_errs s' = b_errs s ↔ ∀ t, t ∈ ts → t ≠ entry ∧ is_Some (m !! t)).
Proof.
  induction ts as [|t0 ts IH]; intros s q s' H; simpl in H.
  { injection H as <- <-. split; [done|]. split; [set_solver|done]. }
  unfold mthen in H. destruct (String.eqb_spec t0 entry) as [-> |Hne].
  - simpl in H. destruct (IH _ _ _ H) as [H1 H2]. simpl in H1. split; [lia|]. split; [lia|].
    intros G. by destruct (G entry ltac:(by left)).
  - case_decide as Hm.
    + destruct (add_targets entry m ts s) as [[q'|f| |] s1] eqn:E; try done;
        injection H as <- <-.
      destruct (IH _ _ _ E) as [H1 H2]. split; [done|]. rewrite H2. split.
      * intros G t [-> |Ht]%elem_of_cons; [done|by apply G].
      * intros G t Ht. apply G. by right.
    + simpl in H. destruct (IH _ _ _ H) as [H1 H2]. simpl in H1. split; [lia|]. split; [lia|].
      intros G. by destruct (G t0 ltac:(by left)).
Qed.

(** ** The search *)
Section bfs.
  Context (entry : string) (m : gmap string ablock).
  Context (Hkey : ∀ n b, m !! n = Some b → b_name b = n).

  Definition window (c : nat) (qd : list (string * nat)) : Prop :=
    Sorted le (map snd qd) ∧ ∀ x, x ∈ qd → c ≤ x.2 ≤ S c.
  Definition covered (V : gset string) (qd : list (string * nat)) : Prop :=
    ∀ k y, npath m k entry y → y ∈ V ∨
      ∃ z d j, (z, d) ∈ qd ∧ apath m V j z y ∧ d + j ≤ k.
  Definition located (x : ablock) (d : nat) : Prop :=
    m !! b_name x = Some x ∧ npath m d entry (b_name x) ∧
    ∀ k, npath m k entry (b_name x) → d ≤ k.

  Lemma sorted_snoc_max (l l' : list nat) c :
    Sorted le l → (∀ x, x ∈ l → x ≤ c) → (∀ x, x ∈ l' → x = c) → Sorted le (l ++ l').
  Proof.
    intros Hs Hl Hl'. apply Sorted_StronglySorted in Hs; [|intros ? ? ?; apply Nat.le_trans].
    apply StronglySorted_Sorted. induction Hs as [|a l Hs IH Ha]; simpl.
    - clear Hl. induction l' as [|a l' IH]; [constructor|]. constructor.
      + apply IH. intros. apply Hl'. by right.
      + apply list.Forall_forall. intros x Hx. rewrite (Hl' a), (Hl' x); [done|by right|by left].
    - constructor.
      + apply IH. intros. apply Hl. by right.
      + apply list.Forall_app. split; [done|]. apply list.Forall_forall. intros x Hx.
        rewrite (Hl' x) by done. apply Hl. by left.
  Qed.

  Lemma bfs_spec fuel : ∀ c qd V s bs V' s',
    bfs fuel entry m (map fst qd) V s = (Rok (bs, V'), s') →
    entry ∈ V ∨ qd = [(entry, 0)] →
    window c qd → (∀ n d, (n, d) ∈ qd → npath m d entry n ∧ is_Some (m !! n)) → covered V qd →
    ∃ ds, Forall2 located bs ds ∧ Sorted le ds ∧ (∀ d, d ∈ ds → c ≤ d) ∧
      NoDup (map b_name bs) ∧ V' = V ∪ list_to_set (map b_name bs) ∧
      (∀ b, b ∈ bs → b_name b ∉ V) ∧
      (∀ k y, npath m k entry y → y ∈ V') ∧
      b_warns s' = b_warns s ∧ (b_errs s ≤ b_errs s')%N ∧
      (b_errs s' = b_errs s ↔
        ∀ b t, b ∈ bs → succ b t → t ≠ entry ∧ is_Some (m !! t)).
  Proof.
    induction fuel as [|fuel IH]; intros c qd V s bs V' s' H Hentry Hw Hq Hcov; simpl in H; [done|].
    destruct qd as [|[n d] qd]; simpl in H.
    { injection H as <- <- <-. exists []. repeat apply conj; try (done || by constructor || set_solver).
      intros k y Hy. destruct (Hcov k y Hy) as [?|(z & d & j & Hz & _)]; [done|set_solver].
      intros _ b t Hb%elem_of_nil. done. }
    destruct Hw as [Hsorted Hin]. simpl in Hsorted.
    assert (Hrest : ∀ x, x ∈ qd → d ≤ x.2).
    { apply Sorted_StronglySorted in Hsorted; [|intros ? ? ?; apply Nat.le_trans].
      inversion Hsorted as [|? ? _ Hall]; subst. rewrite list.Forall_forall in Hall.
      intros x Hx. apply Hall. by apply elem_of_list_fmap_1. }
    assert (Hsorted' : Sorted le (map snd qd)) by (by inversion Hsorted).
    case_decide as Hn.
    - eapply (IH c) in H; [done| | | |].
      + destruct Hentry as [?|[= -> -> ->]]; auto.
      + split; [done|]. intros x Hx. apply Hin. by right.
      + intros. apply Hq. by right.
      + intros k y Hy. destruct (Hcov k y Hy) as [?|(z & d' & j & Hz & Hp & Hle)]; [by left|].
        right. exists z, d', j. split_and!; try done.
        apply elem_of_cons in Hz as [[= -> ->]|?]; [|done]. by apply apath_start in Hp.
    - unfold mthen in H. destruct (Hq n d ltac:(by left)) as [Hnd [b Hb]].
      assert (Hd : c ≤ d ≤ S c) by (apply (Hin (n, d)); by left).
      rewrite Hb in H. cbn [b_some] in H.
      destruct (targets b) as [ts|] eqn:Ets; simpl in H; [|done].
      destruct (add_targets entry m ts s) as [[q|f| |] s1] eqn:Eq; try done.
      assert (Ew : b_warns s1 = b_warns s ∧ b_warns s1 = b_warns s).
      { clear -Eq. revert s q s1 Eq. induction ts as [|t ts IHt]; intros s q s1 H; simpl in H.
        { by injection H as <- <-. }
        unfold mthen in H. destruct (String.eqb t entry).
        - apply IHt in H. done.
        - case_decide.
          + destruct (add_targets entry m ts s) as [[q'|f| |] s2] eqn:E; try done; injection H as <- <-.
            by apply IHt in E.
          + apply IHt in H. done. }
      destruct Ew as [Ew _].
      destruct (bfs fuel entry m (map fst qd ++ q) ({[n]} ∪ V) s1) as [[[bs' V2]|f| |] s2] eqn:E;
        try done.
      injection H as <- <- <-.
      assert (Hname : b_name b = n) by (by apply Hkey).
      assert (Ht : ∀ t, t ∈ q ↔ succ b t ∧ t ≠ entry ∧ is_Some (m !! t)).
      { intros t. rewrite (add_targets_elem _ _ _ _ _ _ Eq), (targets_succ b ts); done. }
      assert (Hmin : ∀ k, npath m k entry n → d ≤ k).
      { intros k Hk. destruct (Hcov k n Hk) as [?|(z & d' & j & Hz & _ & Hle)]; [done|].
        apply elem_of_cons in Hz as [[= -> ->]|Hz]; [lia|]. apply Hrest in Hz. simpl in Hz. lia. }
      replace (map fst qd ++ q) with (map fst (qd ++ map (λ t, (t, S d)) q)) in E.
      2: { rewrite map_app. f_equal. rewrite map_map. simpl. apply map_id. }
      eapply (IH d) in E.
      + destruct E as (ds & H1 & H2 & H3 & H4 & H5 & H6 & H7 & H8 & H9 & H10).
        destruct (add_targets_errs _ _ _ _ _ _ Eq) as [H11 H12].
        exists (d :: ds). split_and!.
        * constructor; [|done]. unfold located. rewrite Hname. auto.
        * constructor; [done|]. destruct ds; constructor. apply H3. by left.
        * intros d' [-> |Hd']%elem_of_cons; [lia|]. apply H3 in Hd'. lia.
        * simpl. apply list.NoDup_cons. split; [|done]. intros (x & Hx & Hx')%elem_of_list_fmap.
          apply H6 in Hx'. rewrite <- Hx, Hname in Hx'. set_solver.
        * rewrite H5. simpl. rewrite Hname. set_solver.
        * intros x [-> |Hx]%elem_of_cons; [by rewrite Hname|]. apply H6 in Hx. set_solver.
        * done.
        * congruence.
        * lia.
        * split.
          -- intros He x t [-> |Hx]%elem_of_cons Hs.
             ++ apply H12; [lia|]. by rewrite (targets_succ b ts).
             ++ assert (He2 : b_errs s2 = b_errs s1) by lia.
                by eapply (proj1 H10 He2).
          -- intros G. transitivity (b_errs s1).
             ++ apply H10. intros x t Hx. apply G. by right.
             ++ apply H12. intros t Hts. eapply G; [by left|]. by rewrite <- (targets_succ b ts).
      + left. destruct Hentry as [?|[= -> -> ->]]; set_solver.
      + split.
        * rewrite map_app. rewrite map_map. simpl. apply (sorted_snoc_max _ _ (S d)); [done| |].
          -- intros x (y & -> & Hy)%elem_of_list_fmap. specialize (Hrest y Hy).
             assert (y ∈ (n, d) :: qd) by (by right). specialize (Hin y H). lia.
          -- by intros x (y & -> & Hy)%elem_of_list_fmap.
        * intros x [Hx|Hx]%elem_of_app.
          -- pose proof (Hrest x Hx). assert (x ∈ (n, d) :: qd) by (by right).
             specialize (Hin x H0). lia.
          -- apply elem_of_list_fmap in Hx as (y & -> & Hy). simpl. lia.
      + intros n' d' [Hx|Hx]%elem_of_app; [apply Hq; by right|].
        apply elem_of_list_fmap in Hx as (y & [= -> ->] & Hy). apply Ht in Hy as (Hy & _ & Hsome).
        split; [|done]. eapply npath_snoc; [done|]. exists b. auto.
      + intros k y Hy. destruct (Hcov k y Hy) as [?|(z & d' & j & Hz & Hp & Hle)]; [set_solver|].
        assert (Hd' : d ≤ d').
        { apply elem_of_cons in Hz as [[= -> ->]|Hz]; [lia|]. by apply Hrest in Hz. }
        destruct (apath_cut m V n j z y Hp) as [Hp'|[-> |(y' & j' & He & Hp' & Hle')]].
        * right. exists z, d', j. split_and!; try done. apply elem_of_app. left.
          apply elem_of_cons in Hz as [[= -> ->]|Hz]; [|done].
          apply apath_start in Hp'. set_solver.
        * set_solver.
        * right. exists y', (S d), j'. split_and!; [|done|lia]. apply elem_of_app. right.
          apply elem_of_list_fmap. exists y'. split; [done|]. apply Ht.
          destruct He as (x & Hx & Hs & Hsome).
          assert (x = b) as -> by congruence. split_and!; try done.
          intros ->. apply apath_start in Hp'.
          destruct Hentry as [?|Heq]; [set_solver|]. injection Heq as Heq _ _. set_solver.
  Qed.
End bfs.

(** ** The map of blocks *)
Lemma block_map_spec l : ∀ m s m' s', block_map l m s = (Rok m', s') →
  (b_errs s ≤ b_errs s')%N ∧ b_warns s' = b_warns s ∧
  (b_errs s' = b_errs s ↔ NoDup (map b_name l) ∧ ∀ b, b ∈ l → m !! b_name b = None) ∧
  (NoDup (map b_name l) → ∀ n b, m' !! n = Some b ↔
     (b ∈ l ∧ b_name b = n) ∨ (m !! n = Some b ∧ n ∉ map b_name l)) ∧
  (∀ n b, m' !! n = Some b → b ∈ l ∧ b_name b = n ∨ m !! n = Some b).
Proof.
  induction l as [|x l IH]; intros m s m' s' H; simpl in H.
  { injection H as <- <-. split_and!; try done.
    - split; [|done]. intros _. split; [constructor|set_solver].
    - intros _ n b. set_solver.
    - auto. }
  unfold mthen in H.
  assert (∃ s1, (if decide (is_Some (m !! b_name x)) then b_log else mok tt) s = (Rok tt, s1) ∧
    (b_errs s1 = if decide (is_Some (m !! b_name x)) then b_errs s + 1 else b_errs s)%N ∧
    b_warns s1 = b_warns s) as (s1 & E & Ee & Ew).
  { case_decide; eexists; eauto. }
  rewrite E in H. apply IH in H as (H1 & H2 & H3 & H4 & H5). split_and!.
  - case_decide; lia.
  - congruence.
  - split.
    + intros He. assert (m !! b_name x = None ∧ b_errs s' = b_errs s1) as [Hm He'].
      { case_decide as Hd; [lia|]. split; [by apply eq_None_not_Some|lia]. }
      apply H3 in He' as [G1 G2]. simpl. split.
      * apply list.NoDup_cons. split; [|done]. intros (y & Hy & Hyl)%elem_of_list_fmap.
        specialize (G2 y Hyl). rewrite <- Hy, lookup_insert in G2. done.
      * intros b [-> |Hb]%elem_of_cons; [done|]. specialize (G2 b Hb).
        by apply lookup_insert_None in G2 as [? _].
    + intros [G1 G2]. simpl in G1. apply list.NoDup_cons in G1 as [G0 G1].
      rewrite decide_False in Ee.
      2: { intros [y Hy]. rewrite (G2 x) in Hy; [done|by left]. }
      rewrite <- Ee. apply H3. split; [done|]. intros b Hb. apply lookup_insert_None.
      split; [apply G2; by right|]. intros Heq. apply G0. rewrite Heq. by apply elem_of_list_fmap_1.
  - intros Hnd n b. simpl in Hnd. apply list.NoDup_cons in Hnd as [G0 G1].
    rewrite (H4 G1). simpl. rewrite !elem_of_cons. rewrite lookup_insert_Some. split.
    + intros [[? ?]|[[[? ?]|[? ?]] ?]]; subst; auto. right. set_solver.
    + intros [[[-> | ?] ?]|[? ?]]; subst; auto.
      right. split; [|set_solver]. right. set_solver.
  - intros n b Hb. apply H5 in Hb as [[? ?]|Hb].
    + left. split; [by right|done].
    + apply lookup_insert_Some in Hb as [[<- <-]|[_ ?]]; [|auto]. left. split; [by left|done].
Qed.

(** ** The list of blocks *)
Lemma npath_bpath m (bbs : list ablock) :
  (∀ n b, m !! n = Some b ↔ b ∈ bbs ∧ b_name b = n) →
  ∀ k a b, a ∈ bbs → npath m k (b_name a) b → ∃ y, y ∈ bbs ∧ b_name y = b ∧ bpath bbs k a y.
Proof.
  intros Hm k. induction k as [|k IH]; intros a b Ha Hp; inversion Hp; subst.
  - exists a. split_and!; [done..|constructor].
  - destruct H0 as (x & Hx & Hs & [z Hz]).
    assert (x = a) as ->.
    { enough (m !! b_name a = Some a) by congruence. by apply Hm. }
    apply Hm in Hz as [Hz <-]. destruct (IH z b Hz H1) as (y & Hy & Hn & Hyp).
    exists y. split_and!; try done. by econstructor.
Qed.
Lemma bpath_npath m (bbs : list ablock) :
  (∀ n b, m !! n = Some b ↔ b ∈ bbs ∧ b_name b = n) →
  ∀ k a b, a ∈ bbs → bpath bbs k a b → npath m k (b_name a) (b_name b).
Proof.
  intros Hm k a b Ha Hp. revert Ha. induction Hp as [a|n a b c Hs Hb Hp IH]; intros Ha.
  - constructor.
  - econstructor; [|by apply IH]. exists a. split_and!; [by apply Hm|done|].
    exists b. by apply Hm.
Qed.
Lemma bpath_in bbs k a b : a ∈ bbs → bpath bbs k a b → b ∈ bbs.
Proof. intros Ha Hp. induction Hp; auto. Qed.

Lemma get_block_list_spec first rest s l s' :
  NoDup (map b_name (first :: rest)) →
  get_block_list (first :: rest) s = (Rok l, s') →
  let bbs := first :: rest in
  head l = Some first ∧ NoDup l ∧ NoDup (map b_name l) ∧
  (∀ b, b ∈ l ↔ reachable bbs first b) ∧
  (∀ i j x y n, l !! i = Some x → l !! j = Some y → i ≤ j → bpath bbs n first y →
     ∃ m, bpath bbs m first x ∧ m ≤ n) ∧
  (b_errs s' = b_errs s ↔
     ∀ b t, b ∈ l → succ b t → t ≠ b_name first ∧ t ∈ map b_name bbs) ∧
  (b_warns s' = b_warns s + N.of_nat (length bbs - length l))%N.
Proof.
  intros Hnd H bbs. unfold get_block_list in H.
  apply mthen_ok in H as (f0 & s0 & [= <- <-] & H).
  apply mthen_ok in H as (m & s1 & Em & H). fold bbs in Hnd, Em.
  apply mthen_ok in H as ([l' V] & s2 & E & H).
  destruct (block_map_spec _ _ _ _ _ Em) as (M1 & M2 & M3 & M4 & M5).
  assert (Hm : ∀ n b, m !! n = Some b ↔ b ∈ bbs ∧ b_name b = n).
  { intros n b. rewrite (M4 Hnd), lookup_empty. split; [|auto]. intros [?|[? ?]]; done. }
  injection H as <- <-.
  assert (Hfirst : m !! b_name first = Some first) by (apply Hm; split; [by left|done]).
  destruct (bfs_spec (b_name first) m ltac:(intros n b Hb; by apply Hm in Hb as [_ ?]) _ 0
    [(b_name first, 0)] ∅ _ _ _ _ E) as (ds & H1 & H2 & _ & H4 & H5 & _ & H7 & H8 & H9 & H10).
  { by right. }
  { split; [repeat constructor|]. intros x Hx. apply elem_of_list_singleton in Hx as ->. simpl. lia. }
  { intros n d Hx. apply elem_of_list_singleton in Hx as [= -> ->]. split; [constructor|eauto]. }
  { intros k y Hy. right. exists (b_name first), 0, k. split_and!; [by left| |lia].
    by apply apath_empty. }
  assert (Hin : ∀ x, x ∈ l' → x ∈ bbs ∧ ∃ d, bpath bbs d first x).
  { intros x Hx. apply elem_of_list_lookup in Hx as [i Hi].
    destruct (Forall2_lookup_l _ _ _ _ _ H1 Hi) as (d & Hd & L1 & L2 & L3).
    apply Hm in L1 as [L1 _]. split; [done|]. exists d.
    destruct (npath_bpath m bbs Hm d first (b_name x) ltac:(by left) L2) as (y & Hy & Hn & Hp).
    assert (y = x) as -> by (assert (m !! b_name x = Some y) by (by apply Hm);
      assert (m !! b_name x = Some x) by (by apply Hm); congruence).
    done. }
  assert (Hnd' : NoDup l').
  { clear -H4. induction l' as [|x l IH]; [constructor|]. simpl in H4.
    apply list.NoDup_cons in H4 as [? ?]. apply list.NoDup_cons. split; [|auto].
    intros Hx. apply H. by apply elem_of_list_fmap_1. }
  assert (Hall : ∀ b, b ∈ l' ↔ reachable bbs first b).
  { intros b. split; [intros Hb; by apply Hin in Hb as [_ ?]|].
    intros [k Hk]. assert (Hb : b ∈ bbs) by (eapply bpath_in; [|done]; by left).
    apply (bpath_npath m bbs Hm) in Hk; [|by left]. apply H7 in Hk.
    rewrite H5, union_empty_l_L in Hk. apply elem_of_list_to_set, elem_of_list_fmap in Hk as (x & Hx & Hxl).
    assert (x = b) as <-; [|done]. apply Hin in Hxl as [Hxl _].
    assert (m !! b_name b = Some x) by (by apply Hm).
    assert (m !! b_name b = Some b) by (by apply Hm). congruence. }
  split_and!; try done.
  - assert (Hf : first ∈ l') by (apply Hall; exists 0; constructor).
    apply elem_of_list_lookup in Hf as [i Hi].
    destruct (Forall2_lookup_l _ _ _ _ _ H1 Hi) as (d & Hd & _ & _ & Lmin).
    specialize (Lmin 0 ltac:(constructor)). assert (d = 0) as -> by lia.
    destruct l' as [|x l]; [done|]. inversion H1 as [|? d0 ? ds' Hx H1']; subst. simpl.
    assert (d0 = 0) as ->.
    { destruct i; simplify_eq/=; [done|]. apply Sorted_StronglySorted in H2; [|intros ? ? ?; apply Nat.le_trans].
      inversion H2 as [|? ? _ Hle]; subst. rewrite list.Forall_forall in Hle.
      specialize (Hle 0 ltac:(by eapply elem_of_list_lookup_2)). lia. }
    destruct Hx as (Hx1 & Hx2 & _). inversion Hx2 as [a Ha Heq|]; subst. congruence.
  - intros i j x y n Hi Hj Hij Hp.
    destruct (Forall2_lookup_l _ _ _ _ _ H1 Hi) as (dx & Hdx & X1 & X2 & _).
    destruct (Forall2_lookup_l _ _ _ _ _ H1 Hj) as (dy & Hdy & _ & _ & Y3).
    assert (dx ≤ dy).
    { destruct (decide (i = j)) as [-> |]; [simplify_eq; lia|].
      apply Sorted_StronglySorted in H2; [|intros ? ? ?; apply Nat.le_trans].
      clear -H2 Hdx Hdy Hij n0. revert i j Hdx Hdy Hij n0.
      induction H2 as [|d ds Hs IH Hd]; intros [|i] [|j] Hx Hy Hij Hn; simplify_eq/=; try lia.
      - rewrite list.Forall_forall in Hd. apply Hd. by eapply elem_of_list_lookup_2.
      - by eapply (IH i j); [..|lia|lia]. }
    apply (bpath_npath m bbs Hm) in Hp; [|by left].
    exists dx. split; [|specialize (Y3 n Hp); lia].
    destruct (npath_bpath m bbs Hm dx first (b_name x) ltac:(by left) X2) as (z & Hz & Hn & Hpz).
    assert (z = x) as -> ; [|done].
    assert (m !! b_name x = Some z) by (by apply Hm). congruence.
  - cbn [b_errs set_warns]. assert (He : b_errs s1 = b_errs s).
    { apply M3. split; [done|]. intros. apply lookup_empty. }
    rewrite <- He, H10. split; intros G b t Hb Hs; destruct (G b t Hb Hs) as [? G2]; (split; [done|]).
    + destruct G2 as [x Hx]. apply Hm in Hx as [Hx <-].
      by apply (elem_of_list_fmap_1 b_name bbs).
    + apply (elem_of_list_fmap b_name bbs) in G2 as (x & -> & Hx). exists x. by apply Hm.
  - simpl. rewrite H8, M2. do 2 f_equal.
    assert (HV : V ⊆ dom m).
    { rewrite H5. intros n Hn. apply elem_of_union in Hn as [Hn|Hn]; [set_solver|].
      apply elem_of_list_to_set, elem_of_list_fmap in Hn as (x & -> & Hx). apply elem_of_dom.
      exists x. apply Hm. split; [by apply Hin in Hx as [? _]|done]. }
    rewrite size_difference by done. f_equal.
    + assert (dom m = list_to_set (map b_name bbs)) as ->.
      { apply set_eq. intros n. rewrite elem_of_dom, elem_of_list_to_set, elem_of_list_fmap. split.
        - intros [x Hx]. apply Hm in Hx as [? <-]. eauto.
        - intros (x & -> & Hx). exists x. by apply Hm. }
      rewrite size_list_to_set by done. by rewrite map_length.
    + rewrite H5, union_empty_l_L, size_list_to_set by done. by rewrite map_length.
Qed.
