(** What the builder knows about blocks and symbols while it builds a function. *)
From Coq Require Import Lia ZifyBool ZifyNat ZifyN.
From Verif Require Import Base IdModel TypeModel IrModel LayoutModel BuilderModel WorldModel
  LexerModel ParserModel ParserSpec FrontModel FrontProofs FlowSpec FlowProofs BlockListProofs
  CleanProofs BuildCleanProofs FunCleanProofs.

(** ** Blocks keep their predecessors, and definitions are only added *)
Definition more_defs (a b : gmap string bbinfo) : Prop :=
  (∀ n, is_Some (a !! n) ↔ is_Some (b !! n)) ∧
  (∀ n p, pred_of a n p ↔ pred_of b n p) ∧
  (∀ n x v, defines a n x v → ∃ v', defines b n x v').
Lemma more_refl a : more_defs a a.
Proof. split_and!; try done. eauto. Qed.
Lemma more_trans a b c : more_defs a b → more_defs b c → more_defs a c.
Proof.
  intros (A1 & A2 & A3) (B1 & B2 & B3). split_and!.
  - intros n. by rewrite A1, B1.
  - intros n p. by rewrite A2, B2.
  - intros n x v H. apply A3 in H as [v' H]. by eapply B3.
Qed.
Lemma more_insert a n i x v : a !! n = Some i →
  more_defs a (<[n := BbInfo (bi_bb i) (bi_preds i) (<[x := v]> (bi_defs i))]> a) ∧
  defines (<[n := BbInfo (bi_bb i) (bi_preds i) (<[x := v]> (bi_defs i))]> a) n x v.
Proof.
  intros H. split; [|by exists (BbInfo (bi_bb i) (bi_preds i) (<[x := v]> (bi_defs i)));
    rewrite lookup_insert; split; [done|apply lookup_insert]].
  split_and!.
  - intros m. destruct (decide (n = m)) as [<- |Hne].
    + rewrite lookup_insert, H. split; eauto.
    + by rewrite lookup_insert_ne.
  - intros m p. unfold pred_of. destruct (decide (n = m)) as [<- |Hne].
    + rewrite lookup_insert, H. split; intros (i' & [= <-] & ?); eexists; (split; [done|]); done.
    + by rewrite lookup_insert_ne.
  - intros m y w (i' & Hi & Hd). unfold defines. destruct (decide (n = m)) as [<- |Hne].
    + simplify_eq. destruct (decide (x = y)) as [<- |Hxy].
      * exists v. eexists. rewrite lookup_insert. split; [done|]. apply lookup_insert.
      * exists w. eexists. rewrite lookup_insert. split; [done|]. simpl. by rewrite lookup_insert_ne.
    + exists w. exists i'. by rewrite lookup_insert_ne.
Qed.

Lemma clean_stmt_more f name ret st s v s' : clean (gen_stmt f name ret st) s v s' →
  more_defs (b_bbs s) (b_bbs s') ∧ ∀ x, x ∈ stmt_defs st → ∃ v, defines (b_bbs s') name x v.
Proof.
  destruct (match st with SDef _ _ => true | _ => false end) eqn:E.
  - destruct st; try done. intros H.
    apply clean_stmt_def in H as (s1 & s2 & t & w & info & H1 & H2 & -> & H3 & H4 & H5 & H6 & H7 & ->).
    apply framed_inst in H3 as [w' ->]. simpl in *. apply (more_insert _ _ _ name0 v) in H7 as [H7 H8].
    split; [done|]. intros x ->%elem_of_list_singleton. eauto.
  - intros H. assert (stmt_defs st = []) as -> by (by destruct st).
    assert (wo s s') as [w ->] by (revert H; apply framed_stmt; by intros n e ->).
    simpl. split; [apply more_refl|by intros x ?%elem_of_nil].
Qed.
Lemma clean_stmts_more f name ret l : ∀ s u s',
  clean (b_each (λ st, b_ok (gen_stmt f name ret st) (push_step f name)) l) s u s' →
  more_defs (b_bbs s) (b_bbs s') ∧
  ∀ x, x ∈ concat (map stmt_defs l) → ∃ v, defines (b_bbs s') name x v.
Proof.
  induction l as [|st l IH]; intros s u s' H; simpl in H.
  { apply clean_mok in H as [_ ->]. split; [apply more_refl|by intros x ?%elem_of_nil]. }
  cb H as u1 s1 H1. apply IH in H as [M D].
  assert (more_defs (b_bbs s) (b_bbs s1) ∧ ∀ x, x ∈ stmt_defs st → ∃ v, defines (b_bbs s1) name x v) as [M1 D1].
  { apply clean_block_step in H1 as [[-> ->]|(v & s2 & info & w & H1 & H2 & H3 & ->)].
    - split; [apply more_refl|by intros x ?%elem_of_nil].
    - by apply clean_stmt_more in H1. }
  split; [by eapply more_trans|]. simpl. intros x [Hx|Hx]%elem_of_app; [|by apply D].
  apply D1 in Hx as [v Hv]. by eapply M.
Qed.
Lemma clean_blocks_more f ret l : ∀ s u s', clean (b_each (build_block f ret) l) s u s' →
  more_defs (b_bbs s) (b_bbs s') ∧
  ∀ d x, d ∈ l → x ∈ body_names d → ∃ v, defines (b_bbs s') (b_name d) x v.
Proof.
  induction l as [|b l IH]; intros s u s' H; simpl in H.
  { apply clean_mok in H as [_ ->]. split; [apply more_refl|by intros d x ?%elem_of_nil]. }
  cb H as u1 s1 H1. apply IH in H as [M D]. rewrite build_block_eq in H1. apply clean_stmts_more in H1 as [M1 D1].
  split; [by eapply more_trans|]. intros d x [-> |Hd]%elem_of_cons Hx; [|by apply D].
  apply D1 in Hx as [v Hv]. by eapply M.
Qed.

(** ** The state in which the blocks are built *)
Lemma clean_init_bbs f l : ∀ s u s', clean (b_each (init_bb f) l) s u s' → NoDup (map b_name l) →
  (∀ n, n ∉ map b_name l → b_bbs s' !! n = b_bbs s !! n) ∧
  (∀ b, b ∈ l → ∃ info, b_bbs s' !! b_name b = Some info ∧ bi_preds info = [] ∧
     ∀ x, is_Some (bi_defs info !! x) ↔ x ∈ param_names b).
Proof.
  induction l as [|b l IH]; intros s u s' H Hnd; simpl in H.
  { apply clean_mok in H as [_ ->]. split; [done|by intros b ?%elem_of_nil]. }
  cb H as u1 s1 H1. simpl in Hnd. apply list.NoDup_cons in Hnd as [Hb Hnd].
  apply IH in H as [H2 H3]; [|done].
  apply clean_init_bb in H1 as (ps & bb & w1 & w2 & fd & bd & d & s2 & G1 & G2 & G3 & G4 & G5 & G6 & E & ->).
  apply clean_param_defs in G6 as (_ & _ & G6).
  destruct (w_new_bb_data _ _ _ _ _ _ G2) as (fd0 & bd0 & K1 & K2 & K3 & _).
  destruct (w_push_bb_data _ _ _ _ _ _ G3 G4) as (fd1 & K4 & K5).
  rewrite K1 in K4. injection K4 as <-. rewrite K5, G5 in K2. injection K2 as <-.
  split.
  - intros n Hn. simpl in Hn. apply not_elem_of_cons in Hn as [Hn1 Hn2]. rewrite H2 by done. simpl.
    by rewrite lookup_insert_ne by done.
  - intros c [-> |Hc]%elem_of_cons; [|by apply H3].
    exists (BbInfo bb [] d). rewrite H2 by done. simpl. rewrite lookup_insert. split_and!; try done.
    intros x. split.
    + intros [v [Hv|[_ ?]]%G6]; [|done]. apply elem_of_zip_l in Hv. done.
    + unfold param_names. intros Hx. rewrite <- (map_fst_zip_eq (map fst (b_params b)) (bb_params bd)) in Hx.
      * apply elem_of_list_fmap in Hx as ([y v] & -> & Hv). exists v. apply G6. by left.
      * rewrite map_length, K3. symmetry. by apply gen_params_length.
Qed.
Lemma clean_init_local f args l s u s' : clean (init_local_bbs f args l) s u s' →
  NoDup (map b_name l) →
  ∃ first, head l = Some first ∧
  (∀ n, is_Some (b_bbs s' !! n) ↔ n ∈ map b_name l) ∧
  (∀ t p, pred_of (b_bbs s') t p ↔ ∃ b, b ∈ l ∧ p = b_name b ∧ succ b t) ∧
  (∀ b t, b ∈ l → succ b t → t ∈ map b_name l) ∧
  (∀ b x, b ∈ l → b ≠ first → ((∃ v, defines (b_bbs s') (b_name b) x v) ↔ x ∈ param_names b)) ∧
  (∀ x v, defines (b_bbs s') (b_name first) x v ↔ args !! x = Some v).
Proof.
  rewrite init_local_eq. intros H Hnd. cb H as u1 s1 H1. apply clean_upd in H1 as ->.
  cb H as u2 s2 H2. apply clean_init_bbs in H2 as [I1 I2]; [|done]. cb H as u3 s3 H3. apply clean_upd in H3 as ->.
  cb H as e s4 H4. apply clean_some in H4 as [He ->]. cb H as u5 s5 H5. apply linked_steps in H as (L1 & L2 & L3 & L4).
  apply clean_entry_step in H5 as (info & Hi & ->). simpl in *.
  assert (Hel : e ∈ l) by (destruct l; simplify_eq/=; by left).
  set (B := <[b_name e := BbInfo (bi_bb info) (bi_preds info) args]> (b_bbs s2)) in *.
  assert (Hdef : ∀ n x v, defines (b_bbs s') n x v ↔ defines B n x v).
  { intros n x v. unfold defines. specialize (L2 n).
    destruct (B !! n) as [i1|], (b_bbs s' !! n) as [i2|]; simpl in L2; try done.
    injection L2 as E1 E2. split; intros (i & [= <-] & Hd); eexists; (split; [done|]); congruence. }
  assert (Hdom : ∀ n, is_Some (B !! n) ↔ n ∈ map b_name l).
  { intros n. unfold B. rewrite lookup_insert_is_Some'. split.
    - intros [<- |Hn]; [by apply elem_of_list_fmap_1|].
      destruct (decide (n ∈ map b_name l)) as [|Hn']; [done|]. rewrite I1 in Hn by done.
      rewrite lookup_empty in Hn. by destruct Hn.
    - intros (b & -> & Hb)%elem_of_list_fmap. right. destruct (I2 b Hb) as (i & Hi' & _). eauto. }
  assert (Hpre : ∀ t p, ¬ pred_of B t p).
  { intros t p (i & Ht & Hp). unfold B in Ht. destruct (decide (b_name e = t)) as [<- |Hne].
    - rewrite lookup_insert in Ht. injection Ht as <-. simpl in Hp. destruct (I2 e Hel) as (i & Hi' & Hpi & _).
      rewrite Hi in Hi'. injection Hi' as <-. rewrite Hpi in Hp. by apply elem_of_nil in Hp.
    - rewrite lookup_insert_ne in Ht by done. assert (Hin : t ∈ map b_name l).
      { apply Hdom. unfold B. rewrite lookup_insert_ne by done. eauto. }
      apply elem_of_list_fmap in Hin as (b & -> & Hb). destruct (I2 b Hb) as (i' & Hi' & Hpi & _).
      rewrite Ht in Hi'. injection Hi' as <-. rewrite Hpi in Hp. by apply elem_of_nil in Hp. }
  exists e. split_and!; [done|..].
  - intros n. rewrite <- Hdom. specialize (L2 n).
    destruct (B !! n), (b_bbs s' !! n); simpl in L2; try done.
  - intros t p. rewrite L3. split; [intros [?%Hpre|?]; done|by right].
  - intros b t Hb Hs. apply Hdom. apply (L4 (b_name b)). eauto.
  - intros b x Hb Hne. setoid_rewrite Hdef. destruct (I2 b Hb) as (i & Hi' & _ & Hx). unfold defines, B.
    assert (b_name e ≠ b_name b).
    { intros E. apply Hne. destruct l as [|e' l]; [done|]. simpl in He. injection He as ->.
      simpl in Hnd. apply list.NoDup_cons in Hnd as [Hn _]. apply elem_of_cons in Hb as [?|Hb]; [done|].
      destruct Hn. rewrite E. by apply elem_of_list_fmap_1. }
    rewrite lookup_insert_ne, Hi' by done. rewrite <- Hx. split.
    + intros (v & i' & [= <-] & Hv). eauto.
    + intros [v Hv]. eauto.
  - intros x v. rewrite Hdef. unfold defines, B. rewrite lookup_insert. split; [|by eauto].
    by intros (i & [= <-] & Hd).
Qed.

(** ** Every symbol has one definition *)
Definition once_defs (s : bstate) : Prop :=
  (∀ n x v, defines (b_bbs s) n x v → x ∈ b_syms s) ∧
  (∀ n1 n2 x v1 v2, defines (b_bbs s) n1 x v1 → defines (b_bbs s) n2 x v2 → n1 = n2).
Lemma once_def s n i x v w : once_defs s → x ∉ b_syms s → b_bbs s !! n = Some i →
  once_defs (set_bbs (<[n := BbInfo (bi_bb i) (bi_preds i) (<[x := v]> (bi_defs i))]> (b_bbs s))
    (set_world w (set_syms ({[x]} ∪ b_syms s) s))).
Proof.
  intros [H1 H2] Hx Hi.
  assert (Hd : ∀ m y u, defines (<[n := BbInfo (bi_bb i) (bi_preds i) (<[x := v]> (bi_defs i))]> (b_bbs s)) m y u →
    defines (b_bbs s) m y u ∨ (m = n ∧ y = x)).
  { intros m y u (i' & Hi' & Hd). destruct (decide (n = m)) as [<- |Hne].
    - rewrite lookup_insert in Hi'. injection Hi' as <-. simpl in Hd. destruct (decide (x = y)) as [<- |Hxy]; [by right|].
      rewrite lookup_insert_ne in Hd by done. left. by exists i.
    - rewrite lookup_insert_ne in Hi' by done. left. by exists i'. }
  split; simpl.
  - intros m y u [Hm|[-> ->]]%Hd; [|set_solver]. apply H1 in Hm. set_solver.
  - intros n1 n2 y v1 v2 [A|[-> ->]]%Hd [B|[-> ?]]%Hd; try done.
    + eauto.
    + subst. by apply H1 in A.
    + by apply H1 in B.
Qed.
Lemma once_wo s w : once_defs s → once_defs (set_world w s).
Proof. done. Qed.
Lemma once_stmt f name ret st s v s' : clean (gen_stmt f name ret st) s v s' → once_defs s → once_defs s'.
Proof.
  destruct (match st with SDef _ _ => true | _ => false end) eqn:E.
  - destruct st; try done. intros H Ho.
    apply clean_stmt_def in H as (s1 & s2 & t & w & info & H1 & H2 & -> & H3 & H4 & H5 & H6 & H7 & ->).
    apply framed_inst in H3 as [w' ->]. simpl in *.
    exact (once_def s _ _ _ v w Ho H2 H7).
  - intros H Ho. assert (wo s s') as [w ->] by (revert H; apply framed_stmt; by intros n e ->). done.
Qed.
Lemma once_blocks f ret l : ∀ s u s', clean (b_each (build_block f ret) l) s u s' → once_defs s → once_defs s'.
Proof.
  induction l as [|b l IH]; intros s u s' H Ho; simpl in H; [by apply clean_mok in H as [_ ->]|].
  cb H as u1 s1 H1. eapply IH; [done|]. clear H IH. rewrite build_block_eq in H1. revert s H1 Ho.
  generalize (b_stmts b) as k. induction k as [|st k IHk]; intros s H1 Ho; simpl in H1; [by apply clean_mok in H1 as [_ ->]|].
  cb H1 as u2 s2 H2. eapply IHk; [done|].
  apply clean_block_step in H2 as [[-> ->]|(v & s3 & info & w & H2 & _ & _ & ->)]; [done|].
  apply once_wo. by eapply once_stmt.
Qed.
Lemma once_init_local f args l s u s' : clean (init_local_bbs f args l) s u s' → NoDup (map b_name l) →
  (∀ b x, b ∈ l → x ∈ param_names b → args !! x = None) → once_defs s'.
Proof.
  intros H Hnd Ha. pose proof (clean_init_local _ _ _ _ _ _ H Hnd) as (e & He & D1 & _ & _ & D2 & D3).
  apply grew_init_local in H as (s1 & (G1 & G2 & G3 & _ & _) & _ & _ & E).
  assert (Hd : ∀ n x v, defines (b_bbs s') n x v →
    (n = b_name e ∧ is_Some (args !! x)) ∨ ∃ b, b ∈ l ∧ b_name b = n ∧ x ∈ param_names b).
  { intros n x v Hd. assert (Hn : n ∈ map b_name l) by (apply D1; destruct Hd as (? & ? & _); eauto).
    apply elem_of_list_fmap in Hn as (b & -> & Hb). destruct (decide (b_name b = b_name e)) as [Eb|Eb].
    - left. rewrite Eb in Hd. apply D3 in Hd. eauto.
    - right. exists b. split_and!; [done..|]. apply D2; [done|by intros ->|eauto]. }
  assert (Hc : ∀ b x, b ∈ l → x ∈ param_names b → x ∈ concat (map param_names l)).
  { intros b x Hb Hx. apply elem_of_list_In, in_concat. exists (param_names b).
    split; [|by apply elem_of_list_In]. by apply in_map, elem_of_list_In. }
  split.
  - intros n x v [[_ Hx]|(b & Hb & <- & Hx)]%Hd; rewrite E, G3.
    + apply elem_of_union_r. by apply elem_of_dom.
    + apply elem_of_union_l, elem_of_union_l. apply elem_of_list_to_set. eauto.
  - intros n1 n2 x v1 v2 [[-> A]|(b & Hb & <- & A)]%Hd [[-> B]|(c & Hcl & <- & B)]%Hd; try done.
    + rewrite (Ha c x) in A by done. by destruct A.
    + rewrite (Ha b x) in B by done. by destruct B.
    + clear -G1 Hb Hcl A B. induction l as [|y l IH]; [by apply elem_of_nil in Hb|].
      simpl in G1. apply list.NoDup_app in G1 as (_ & N & G1).
      assert (Hc : ∀ b x, b ∈ l → x ∈ param_names b → x ∈ concat (map param_names l)).
      { intros b' x' Hb' Hx'. apply elem_of_list_In, in_concat. exists (param_names b').
        split; [|by apply elem_of_list_In]. by apply in_map, elem_of_list_In. }
      apply elem_of_cons in Hb as [-> |Hb], Hcl as [-> |Hcl]; try done.
      * by destruct (N x A); eauto.
      * by destruct (N x B); eauto.
      * auto.
Qed.

(** ** Dominators *)
Lemma nodup_name_inj bbs a b : NoDup (map b_name bbs) → a ∈ bbs → b ∈ bbs → b_name a = b_name b → a = b.
Proof.
  induction bbs as [|c bbs IH]; intros Hnd Ha Hb E; [by apply elem_of_nil in Ha|].
  simpl in Hnd. apply list.NoDup_cons in Hnd as [Hn Hnd].
  apply elem_of_cons in Ha as [-> |Ha], Hb as [-> |Hb]; try done.
  - destruct Hn. rewrite E. by apply elem_of_list_fmap_1.
  - destruct Hn. rewrite <- E. by apply elem_of_list_fmap_1.
  - auto.
Qed.
Lemma path_split bbs d : ∀ n a b, NoDup (map b_name bbs) → a ∈ bbs → d ∈ bbs → bpath bbs n a b →
  avoids bbs d a b ∨ ∃ i j, bpath bbs i a d ∧ bpath bbs j d b ∧ i + j = n.
Proof.
  intros n a b Hnd Ha Hd H. revert Ha. induction H as [a|n a b c H1 H2 H3 IH]; intros Ha.
  - destruct (decide (b_name a = b_name d)) as [E|E].
    + right. assert (a = d) as -> by (by eapply (nodup_name_inj bbs)). exists 0, 0. split_and!; constructor.
    + left. constructor. by intros ->.
  - destruct (decide (b_name a = b_name d)) as [E|E].
    + right. assert (a = d) as -> by (by eapply (nodup_name_inj bbs)). exists 0, (S n).
      split_and!; [constructor|by econstructor|lia].
    + destruct (IH H2) as [Hv|(i & j & P1 & P2 & <-)].
      * left. econstructor; [by intros ->|done..].
      * right. exists (S i), j. split_and!; [by econstructor|done|lia].
Qed.
Lemma dominator_first bbs entry d b (l : list ablock) : NoDup (map b_name bbs) → entry ∈ bbs → d ∈ bbs →
  (∀ i j x y n, l !! i = Some x → l !! j = Some y → i ≤ j → bpath bbs n entry y →
     ∃ m, bpath bbs m entry x ∧ m ≤ n) →
  dominates bbs entry d b → d ≠ b →
  ∀ n i j, bpath bbs n entry b → l !! i = Some b → l !! j = Some d → j < i.
Proof.
  intros Hnd He Hd Ho Hdom Hne n. induction n as [n IH] using lt_wf_ind. intros i j Hp Hi Hj.
  destruct (le_lt_dec i j) as [Hij|]; [|done].
  destruct (path_split bbs d n entry b Hnd He Hd Hp) as [?|(x & y & P1 & P2 & E)]; [by destruct Hdom|].
  destruct y as [|y]; [by inversion P2; subst; destruct Hne|].
  destruct (Ho i j b d x Hi Hj Hij P1) as (m & Hm & Hle). apply (IH m ltac:(lia) i j Hm Hi Hj).
Qed.
Lemma bpath_trans bbs i a b j c : bpath bbs i a b → bpath bbs j b c → bpath bbs (i + j) a c.
Proof. induction 1; [done|]. intros. simpl. econstructor; eauto. Qed.
Lemma path_preds (bbs : list ablock) (P : gmap string bbinfo) a n b :
  (∀ x t, reachable bbs a x → succ x t → pred_of P t (b_name x)) →
  bpath bbs n a b → rtc (pred_of P) (b_name b) (b_name a).
Proof.
  intros Hs H. induction H as [a|n a b c H1 H2 H3 IH]; [done|].
  eapply rtc_r; [apply IH|].
  - intros x t [k Hx]. apply Hs. exists (S k). by econstructor.
  - apply Hs; [|done]. exists 0. constructor.
Qed.

(** When block [b] is built, the definitions of the blocks that dominate it are found. *)
Lemma dominating_found f ret args bbs entry s0 l s1 s2 l1 b l2 s3 d x :
  clean (get_block_list bbs) s0 l s1 → head bbs = Some entry →
  clean (init_local_bbs f args l) s1 tt s2 →
  l = l1 ++ b :: l2 → clean (b_each (build_block f ret) l1) s2 tt s3 →
  dominates bbs entry d b → d ∈ bbs → d ≠ b →
  (x ∈ body_names d ∨ (if decide (b_name d = b_name entry) then is_Some (args !! x) else x ∈ param_names d)) →
  (∀ b x, b ∈ l → x ∈ param_names b → args !! x = None) →
  b_gvars s3 !! x = None →
  ∃ v, gen_symbol (b_name b) x s3 = (Rok v, s3) ∧ defines (b_bbs s3) (b_name d) x v.
Proof.
  intros H0 He H1 El H2 Hdom Hd Hne Hx Ha Hg.
  apply clean_block_list in H0 as (first & rest & k & -> & -> & Hnd & B2 & B3 & B4 & B5 & B6 & B7).
  set (bbs := first :: rest) in *. injection He as ->.
  assert (Hin : entry ∈ bbs) by (by left).
  destruct (clean_init_local _ _ _ _ _ _ H1 B4) as (e & He & D1 & D2 & D3 & D4 & D5).
  rewrite B2 in He. injection He as <-.
  pose proof (once_init_local _ _ _ _ _ _ H1 B4 Ha) as Ho. apply (once_blocks _ _ _ _ _ _ H2) in Ho.
  apply clean_blocks_more in H2 as [(M1 & M2 & M3) M4].
  assert (Hb : b ∈ l) by (rewrite El; apply elem_of_app; right; by left).
  destruct (proj1 (B5 b) Hb) as [n Hn].
  assert (Hbi : l !! length l1 = Some b) by (rewrite El; by apply list_lookup_middle).
  destruct (path_split bbs d n entry b Hnd Hin Hd Hn) as [?|(i & j & P1 & P2 & E)]; [by destruct Hdom|].
  assert (Hdl : d ∈ l) by (apply B5; by exists i).
  apply elem_of_list_lookup in Hdl as Hdi. destruct Hdi as [jd Hdi].
  pose proof (dominator_first bbs entry d b l Hnd Hin Hd B7 Hdom Hne n _ _ Hn Hbi Hdi) as Hlt.
  assert (Hd1 : d ∈ l1).
  { rewrite El, lookup_app_l in Hdi by done. by eapply elem_of_list_lookup_2. }
  assert (Hpc : preds_closed (b_bbs s3)).
  { intros t p Hp. apply M2, D2 in Hp as (y & Hy & -> & _). apply M1, D1. by apply elem_of_list_fmap_1. }
  assert (Hdef : ∃ v, defines (b_bbs s3) (b_name d) x v).
  { destruct Hx as [Hx|Hx]; [by apply M4|]. case_decide as Ed.
    - rewrite Ed. destruct Hx as [v Hv]. apply D5 in Hv. by eapply M3.
    - apply D4 in Hx as [v Hv]; [by eapply M3|done|by intros ->]. }
  destruct Hdef as [v Hv].
  destruct (gen_symbol_spec (b_name b) x s3 Hpc) as [(v' & G1 & c & G2 & G3)|[_ G]]; [|done| |].
  - apply M1, D1. by apply elem_of_list_fmap_1.
  - exists v'. split; [done|]. assert (c = b_name d) as <- by (by eapply Ho). done.
  - exfalso. apply (G v). exists (b_name d). split; [|done].
    eapply path_preds; [|exact P2]. intros y t [q Hy] Hs. apply M2, D2. exists y. split_and!; [|done..].
    apply B5. exists (i + q). by eapply bpath_trans.
Qed.
