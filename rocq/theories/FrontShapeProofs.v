(** The shape of the functions that the front end builds: exactly the instructions of a
    function are in its blocks, and block parameters are parameters of one block only. *)
From Coq Require Import Lia ZifyBool ZifyNat ZifyN.
From Verif Require Import Base IdModel TypeModel IrModel LayoutModel BuilderModel WorldModel
  LexerModel ParserModel ParserSpec FrontModel FrontProofs FlowSpec FlowProofs BlockListProofs
  CleanProofs BuildCleanProofs FunCleanProofs DriverModel DriverSpec DriverProofs UsesSpec DfgSpec
  WorldSpec DfgProofs WorldProofs SkelProofs EqHistory TypingSpec TypingProofs TypingHistory HistoryProofs ParamProofs
  LayoutSpec LayoutProofs PresProofs DceModel DceSpec.

Notation nlv w := (next_lv (w_ids w)).

(** [X]: instructions that are not in a block yet *)
Record good (n : N) (X : value → Prop) (S : gmap N (ty * vkind)) (B : gmap N (list value))
    (l : layout) : Prop := {
  g_bound : ∀ u, is_Some (S !! u) → (local_value_id_starts_from ≤ u < n)%N;
  g_listed : ∀ u, (∃ b, in_block l u b) ∨ X u ↔ ∃ y, S !! u = Some y ∧ is_local_inst y.2 = true;
  g_fine : ∀ u y, S !! u = Some y → is_local_inst y.2 = true →
    effectful y.2 ∨ y.1 ≠ TUnit ∨ X u;
  g_param : ∀ b ps p, B !! b = Some ps → p ∈ ps → ∃ t i, S !! p = Some (t, KBlockArg i);
  g_once : ∀ b ps, B !! b = Some ps → NoDup ps;
  g_apart : ∀ b ps c qs p, B !! b = Some ps → B !! c = Some qs → p ∈ ps → p ∈ qs → b = c;
  g_lay : linv l;
  g_off : ∀ u b, X u → ¬ in_block l u b;
  g_local : ∀ u t i, S !! u ≠ Some (t, KGlobalAlloc i);
}.
Definition ex (X : func → value → Prop) (w : world) : Prop :=
  (local_value_id_starts_from ≤ ub (nlv w))%N ∧ (nlv w < two32)%N ∧
  ∀ f fd, p_funcs (w_prog w) !! f = Some fd →
    good (ub (nlv w)) (X f) (skm (vals fd)) (pbm (blks fd)) (f_layout fd).
Definition none (f : func) (v : value) : Prop := False.
Definition one (f : func) (v : value) (f' : func) (v' : value) : Prop := f' = f ∧ v' = v.

Lemma good_mono n n' X S B l : (n ≤ n')%N → good n X S B l → good n' X S B l.
Proof. intros Hn [G1 G2 G3 G4 G5 G6 G7 G8 G9]. constructor; try done. intros u Hu. apply G1 in Hu. lia. Qed.

(** ** The calls *)
Lemma ex_dfg X X' w f fd i' gs' g' : p_funcs (w_prog w) !! f = Some fd → ex X w →
  (next_lv i' < two32)%N → (ub (nlv w) ≤ ub (next_lv i'))%N →
  (∀ g u, g ≠ f → X' g u ↔ X g u) →
  good (ub (next_lv i')) (X' f) (skm (d_values g')) (pbm (d_bbs g')) (f_layout fd) →
  ex X' (World i' (set_func (set_values (w_prog w) gs') f (set_dfg fd g'))).
Proof.
  intros Hf (H1 & H2 & H3) Hi Hu HX Hg. split_and!; simpl; [lia|done|].
  intros x fd' Hx. apply lookup_insert_Some in Hx as [[<- <-]|[Hne Hx]]; [done|].
  destruct (good_mono _ _ _ _ _ _ Hu (H3 _ _ Hx)) as [G1 G2 G3 G4 G5 G6 G7 G8 G9]. constructor; try done.
  - intros u. rewrite HX by done. apply G2.
  - intros u y. rewrite HX by done. apply G3.
  - intros u b. rewrite HX by done. apply G8.
Qed.
Lemma next_range i v i' : next_local_value_id i = Some (v, i') → (next_lv i < two32)%N →
  v = ub (next_lv i) ∧ (next_lv i' < two32)%N ∧ ub (next_lv i') = (ub (next_lv i) + 1)%N.
Proof.
  intros H Hlt. apply next_local_spec in H as (-> & Hne & ->). simpl.
  rewrite ub_next by done. unfold ub at 1 2. destruct (N.eqb_spec (next_lv i) 0); [done|].
  split_and!; [done|by apply N.mod_lt|done].
Qed.
(** A new value *)
Lemma new_local_data f r w v w' : w_new_local f r w = Some (v, w') →
  ∃ fd d i' gs' g', p_funcs (w_prog w) !! f = Some fd ∧
    build (local_querier (p_values (w_prog w)) (p_func_tys (w_prog w)) (f_dfg fd)) r = Some d ∧
    dfg_new_value_data (w_ids w) (p_values (w_prog w)) (f_dfg fd) d = Some (v, i', gs', g') ∧
    w' = World i' (set_func (set_values (w_prog w) gs') f (set_dfg fd g')).
Proof.
  intros H. apply on_dfg_inv in H as (fd & i' & gs' & g' & Hf & H & ->).
  apply bind_Some in H as (d & Hd & H). by exists fd, d, i', gs', g'.
Qed.
Lemma good_new n n' X X' S B l v (y : ty * vkind) : good n X S B l → (local_value_id_starts_from ≤ n)%N →
  v = n → n' = (n + 1)%N →
  (∀ u, X' u ↔ X u ∨ (u = v ∧ is_local_inst y.2 = true)) → (∀ i, y.2 ≠ KGlobalAlloc i) →
  good n' X' (<[v := y]> S) B l.
Proof.
  intros [G1 G2 G3 G4 G5 G6 G7 G8 G9] Hl -> -> HX Hy.
  assert (Hn : S !! n = None).
  { destruct (S !! n) eqn:E; [|done]. assert (is_Some (S !! n)) as Hs by eauto. apply G1 in Hs. lia. }
  constructor; try done.
  - intros u [z Hz]. apply lookup_insert_Some in Hz as [[<- _]|[_ Hz]]; [lia|].
    assert (is_Some (S !! u)) as Hs by eauto. apply G1 in Hs. lia.
  - intros u. rewrite HX. specialize (G2 u). destruct (decide (u = n)) as [->|Hu].
    + rewrite lookup_insert. split.
      * intros [Hb|[HXn|[_ Hi]]]; [| |by exists y].
        -- destruct (proj1 G2) as (z & Hz & _); [by left|congruence].
        -- destruct (proj1 G2) as (z & Hz & _); [by right|congruence].
      * intros (z & E & Hi). injection E as <-. auto.
    + rewrite lookup_insert_ne by done. rewrite <- G2. naive_solver.
  - intros u z Hz Hi. rewrite HX. apply lookup_insert_Some in Hz as [[<- <-]|[_ Hz]]; [auto|].
    destruct (G3 _ _ Hz Hi) as [?|[?|?]]; auto.
  - intros b ps p Hb Hp. destruct (G4 _ _ _ Hb Hp) as (t & i & H). exists t, i.
    rewrite lookup_insert_ne; [done|]. intros ->. congruence.
  - intros u b Hu Hb. apply HX in Hu as [Hu|[-> _]]; [by apply (G8 u b)|].
    destruct (proj1 (G2 n)) as (z & Hz & _); [by left; exists b|congruence].
  - intros u t i [[_ ->]|[_ Hu]]%lookup_insert_Some; [by apply (Hy i)|by apply (G9 u t i)].
Qed.
Lemma new_local_ex X X' f r w v w' : w_new_local f r w = Some (v, w') → ex X w →
  (∀ g u, X' g u ↔ X g u ∨ (g = f ∧ u = v ∧ is_local_inst (requested r) = true)) →
  local_req r = true → ex X' w'.
Proof.
  intros H Hex HX Hr. pose proof Hex as (H1 & H2 & H3).
  apply new_local_data in H as (fd & d & i' & gs' & g' & Hf & Hd & H & ->).
  apply build_sound in Hd as (Hd & _).
  apply new_value_sk in H as (Hi & _ & Hs & Hp & _).
  destruct (next_range _ _ _ Hi H2) as (Ev & R1 & R2).
  apply (ex_dfg X); [done..|lia| |].
  - intros g u Hg. rewrite HX. naive_solver.
  - rewrite Hs, Hp. eapply good_new; [by apply H3|done|done|done| |].
    + intros u. rewrite HX, Hd. simpl. naive_solver.
    + rewrite Hd. simpl. intros i. by destruct r.
Qed.
(** A block with parameters *)
Lemma new_bb_ex X f n ps w b w' : w_new_bb f n ps w = Some (b, w') → ex X w → ex X w'.
Proof.
  intros H Hex. pose proof Hex as (H1 & H2 & H3).
  apply on_dfg_inv in H as (fd & i' & gs' & g' & Hf & H & ->).
  unfold basic_block_with_param_names in H.
  apply bind_Some in H as ([] & _ & H). apply bind_Some in H as ([] & _ & H).
  apply bind_Some in H as ([[[vs i1] gs1] g1] & Ha & H).
  apply bind_Some in H as ([[b1 i2] g2] & Hb & H). injection H as <- <- <- <-.
  apply new_block_args_exact in Ha as (_ & Eb & _ & (R1 & R2 & R3) & (C1 & C2 & C3) & Hold); [|done].
  unfold dfg_new_bb_data in Hb. apply bind_Some in Hb as ([b2 i3] & Hid & Hb).
  injection Hb as <- <- <-. apply next_bb_spec in Hid as (_ & _ & ->). simpl in *.
  apply (ex_dfg X); simpl; [done..|].
  destruct (H3 _ _ Hf) as [G1 G2 G3 G4 G5 G6 G7 G8 G9].
  assert (Hvs : ∀ x, x ∈ vs → ∃ t nm j, d_values g1 !! x = Some (VData t nm (KBlockArg j) ∅)).
  { intros x Hx. apply elem_of_list_lookup in Hx as [j Hj].
    destruct (ps !! j) as [[nm t]|] eqn:Hp.
    - destruct (C3 _ _ _ Hp) as (x' & Hx' & Hd). rewrite Hj in Hx'. injection Hx' as <-. eauto.
    - apply lookup_ge_None in Hp. apply lookup_lt_Some in Hj. lia. }
  assert (Hnew : ∀ x, x ∈ vs → skm (vals fd) !! x = None).
  { intros x Hx. destruct (skm (vals fd) !! x) eqn:E; [|done].
    assert (is_Some (skm (vals fd) !! x)) as Hs by eauto. apply G1 in Hs. apply R3 in Hx. lia. }
  assert (Hsk : ∀ x, x ∉ vs → skm (d_values g1) !! x = skm (vals fd) !! x).
  { intros x Hx. by rewrite !lookup_fmap, Hold. }
  assert (Hpb : pbm (d_bbs g1) = pbm (blks fd)) by by rewrite Eb.
  assert (Hlk : ∀ c qs, pbm (<[b2 := BBData n vs ∅]> (d_bbs g1)) !! c = Some qs →
    c = b2 ∧ qs = vs ∨ pbm (blks fd) !! c = Some qs).
  { intros c qs. rewrite fmap_insert. intros [[<- <-]|[_ H]]%lookup_insert_Some; [by left|].
    right. by rewrite <- Hpb. }
  assert (Hin : ∀ x, x ∈ vs → ∃ t j, skm (d_values g1) !! x = Some (t, KBlockArg j)).
  { intros x Hx. destruct (Hvs x Hx) as (t & nm & j & E). exists t, j. by rewrite lookup_fmap, E. }
  constructor; try done.
  - intros u Hu. destruct (decide (u ∈ vs)) as [Hv|Hv]; [apply R3 in Hv; lia|].
    rewrite Hsk in Hu by done. apply G1 in Hu. lia.
  - intros u. rewrite G2. destruct (decide (u ∈ vs)) as [Hv|Hv]; [|by rewrite Hsk].
    rewrite (Hnew u Hv). destruct (Hin u Hv) as (t & j & ->). split; [by intros (y & E & _)|].
    intros (y & E & Hy). by injection E as <-.
  - intros u y Hu Hi. destruct (decide (u ∈ vs)) as [Hv|Hv].
    + destruct (Hin u Hv) as (t & j & E). rewrite Hu in E. by injection E as ->.
    + rewrite Hsk in Hu by done. by eapply G3.
  - intros c qs p Hc Hp. apply Hlk in Hc as [[-> ->]|Hc]; [by apply Hin|].
    destruct (G4 _ _ _ Hc Hp) as (t & i & E). exists t, i. rewrite Hsk; [done|].
    intros Hv. rewrite (Hnew p Hv) in E. done.
  - intros c qs Hc. apply Hlk in Hc as [[-> ->]|Hc]; [done|by eapply G5].
  - intros c qs e es p Hc He Hp Hp'. apply Hlk in Hc as [[-> ->]|Hc]; apply Hlk in He as [[-> ->]|He].
    + done.
    + destruct (G4 _ _ _ He Hp') as (t & i & E). rewrite (Hnew p Hp) in E. done.
    + destruct (G4 _ _ _ Hc Hp) as (t & i & E). rewrite (Hnew p Hp') in E. done.
    + by eapply G6.
  - intros u t i Hu. destruct (decide (u ∈ vs)) as [Hv|Hv].
    + destruct (Hin u Hv) as (t' & j & E). congruence.
    + rewrite Hsk in Hu by done. by apply (G9 u t i).
Qed.
Lemma name_local_ex X f v n w w' : w_name_local f v n w = Some w' → ex X w → ex X w'.
Proof.
  unfold w_name_local. intros H Hex. pose proof Hex as (H1 & H2 & H3).
  apply bind_Some in H as ([[] w1] & H & E). injection E as ->.
  apply on_dfg_inv in H as (fd & i' & gs' & g' & Hf & H & ->).
  apply bind_Some in H as (g1 & H & E). injection E as <- <- <-.
  apply set_value_name_sk in H as [E1 E2].
  apply (ex_dfg X); [done..|]. rewrite E1, E2. by apply H3.
Qed.
Lemma ex_layout X X' w f fd l : ex X w → p_funcs (w_prog w) !! f = Some fd →
  (∀ g u, g ≠ f → X' g u ↔ X g u) →
  good (ub (nlv w)) (X' f) (skm (vals fd)) (pbm (blks fd)) l →
  ex X' (World (w_ids w) (set_func (w_prog w) f (set_layout fd l))).
Proof.
  intros (H1 & H2 & H3) Hf HX Hg. split_and!; simpl; [done..|].
  intros x fd' Hx. apply lookup_insert_Some in Hx as [[<- <-]|[Hne Hx]]; [done|].
  destruct (H3 _ _ Hx) as [G1 G2 G3 G4 G5 G6 G7 G8 G9]. constructor; try done.
  - intros u. rewrite HX by done. apply G2.
  - intros u y. rewrite HX by done. apply G3.
  - intros u b. rewrite HX by done. apply G8.
Qed.
Lemma push_bb_ex X f b w w' : w_push_bb f b w = Some w' → ex X w → ex X w'.
Proof.
  unfold w_push_bb. intros E Hex. pose proof Hex as (H1 & H2 & H3).
  apply bind_Some in E as (fd & Hf & E). apply bind_Some in E as ([l|] & Hl & E); [|done].
  injection E as <-. apply (ex_layout X); [done..|].
  destruct (H3 _ _ Hf) as [G1 G2 G3 G4 G5 G6 G7 G8 G9].
  assert (Hin : ∀ u c, in_block l u c ↔ in_block (f_layout fd) u c).
  { unfold bb_insert in Hl. destruct (has_key fst b (l_bbs (f_layout fd))); [done|].
    simpl in Hl. injection Hl as <-. intros u c. unfold in_block. simpl. split.
    - intros (is & Hc & Hu). apply elem_of_app in Hc as [Hc|Hc]; [by exists is|].
      apply elem_of_list_singleton in Hc. injection Hc as -> ->. inversion Hu.
    - intros (is & Hc & Hu). exists is. split; [|done]. apply elem_of_app. by left. }
  constructor; try done.
  - intros u. rewrite <- G2. by setoid_rewrite Hin.
  - apply (lstep_linv (LBbInsert Back b) _ _ G7 I). simpl. by rewrite Hl.
  - intros u c. rewrite Hin. apply G8.
Qed.
Definition fine (f : func) (v : value) (w : world) : Prop :=
  ∀ fd y, p_funcs (w_prog w) !! f = Some fd → skm (vals fd) !! v = Some y → effectful y.2 ∨ y.1 ≠ TUnit.
Lemma push_inst_ex f b v w w' : w_push_inst f b v w = Some w' → ex (one f v) w → fine f v w → ex none w'.
Proof.
  unfold w_push_inst. intros E Hex Hfine. pose proof Hex as (H1 & H2 & H3).
  apply bind_Some in E as (fd & Hf & E). apply bind_Some in E as ([l|] & Hl & E); [|done].
  injection E as <-. destruct (H3 _ _ Hf) as [G1 G2 G3 G4 G5 G6 G7 G8 G9].
  apply (ex_layout (one f v)); [done..| |].
  { unfold none, one. naive_solver. }
  assert (Hin : ∀ u, (∃ c, in_block l u c) ↔ (∃ c, in_block (f_layout fd) u c) ∨ u = v).
  { intros u. unfold inst_insert in Hl.
    destruct (find_bb b (l_bbs (f_layout fd))) as [is1|] eqn:Hb; [|done].
    simpl in Hl. destruct (has_key id v is1); [done|]. simpl in Hl. injection Hl as <-.
    unfold in_block. simpl. split.
    - intros (c & is & Hc & Hu). apply elem_set_bb in Hc; [|apply G7|by exists is1].
      destruct Hc as [[-> ->]|[_ Hc]]; [|left; by exists c, is].
      apply elem_of_app in Hu as [Hu|Hu%elem_of_list_singleton]; [|by right].
      left. exists b, is1. split; [by apply find_bb_elem|done].
    - assert (Hset : ∀ c cs, (c, cs) ∈ set_bb b (is1 ++ [v]) (l_bbs (f_layout fd)) ↔
        (c = b ∧ cs = is1 ++ [v]) ∨ (c ≠ b ∧ (c, cs) ∈ l_bbs (f_layout fd))).
      { intros c cs. apply elem_set_bb; [apply G7|by exists is1]. }
      intros [(c & is & Hc & Hu)| ->].
      + destruct (decide (c = b)) as [->|Hne].
        * exists b, (is1 ++ [v]). split; [apply Hset; by left|]. apply elem_of_app. left.
          assert (is = is1) as ->; [|done].
          destruct G7 as [[Hn _] _]. apply elem_find_bb in Hc; [congruence|done].
        * exists c, is. split; [apply Hset; by right|done].
      + exists b, (is1 ++ [v]). split; [apply Hset; by left|]. apply elem_of_app. right. by left. }
  constructor; try done.
  - intros u. rewrite <- G2, Hin. unfold one, none. naive_solver.
  - intros u y Hu Hi. destruct (G3 _ _ Hu Hi) as [?|[?|[_ ->]]]; [auto..|].
    destruct (Hfine _ _ Hf Hu); auto.
  - apply (lstep_linv (LInsert Back b v) _ _ G7); [intros c; by apply G8|]. simpl. by rewrite Hl.
Qed.
Lemma ex_funcs X w i' p' : next_lv i' = nlv w → p_funcs p' = p_funcs (w_prog w) → ex X w → ex X (World i' p').
Proof. intros E1 E2 (H1 & H2 & H3). unfold ex. simpl. by rewrite E1, E2. Qed.
Lemma ex_func w f fd i' p' : p_funcs p' = <[f := fd]> (p_funcs (w_prog w)) →
  (next_lv i' < two32)%N → (ub (nlv w) ≤ ub (next_lv i'))%N →
  good (ub (next_lv i')) (none f) (skm (vals fd)) (pbm (blks fd)) (f_layout fd) →
  ex none w → ex none (World i' p').
Proof.
  intros Hp Hi Hu Hg (H1 & H2 & H3). split_and!; simpl; [lia|done|]. rewrite Hp. intros x fd' Hx.
  apply lookup_insert_Some in Hx as [[<- <-]|[_ Hx]]; [done|]. by eapply good_mono, H3.
Qed.
Lemma good_leaves n S : (∀ u, is_Some (S !! u) → (local_value_id_starts_from ≤ u < n)%N) →
  (∀ u y, S !! u = Some y → is_local_inst y.2 = false ∧ ∀ i, y.2 ≠ KGlobalAlloc i) → good n (λ _, False) S ∅ layout0.
Proof.
  intros H1 H2. constructor; try done.
  - intros u. split.
    + intros [(b & is & Hb & _)|[]]. inversion Hb.
    + intros (y & Hy & Hi). apply H2 in Hy as [Hy _]. congruence.
  - intros u y Hy Hi. apply H2 in Hy as [Hy _]. congruence.
  - apply linv0.
  - intros u t i Hu. by apply H2 in Hu as [_ Hu]; apply (Hu i).
Qed.
Lemma new_def_ex n ps r w f w' : w_new_func_def n ps r w = Some (f, w') → ex none w → ex none w'.
Proof.
  intros H Hex. pose proof Hex as (H1 & H2 & H3).
  unfold w_new_func_def, prog_new_func_def, prog_new_func in H.
  apply bind_Some in H as ([[f1 i1] p1] & H & E). injection E as <- <-.
  apply bind_Some in H as ([d i2] & Hd & H). apply bind_Some in H as ([f' i3] & Hf & E). injection E as <- <- <-.
  unfold fdata_with_param_names in Hd.
  apply bind_Some in Hd as ([] & _ & Hd). apply bind_Some in Hd as ([[vs i4] g4] & Ha & E). injection E as <- <-.
  apply new_func_args_exact in Ha as (Eb & (R1 & R2 & R3) & (C1 & C2 & C3) & Hold); [|done].
  apply next_func_spec in Hf as (_ & _ & ->).
  eapply ex_func; [done|simpl; done|simpl; done| |done]. simpl. rewrite Eb. simpl. rewrite fmap_empty.
  assert (Hvs : ∀ x, is_Some (d_values g4 !! x) → x ∈ vs ∧ ∃ t nm j, d_values g4 !! x = Some (VData t nm (KFuncArg j) ∅)).
  { intros x Hx. destruct (decide (x ∈ vs)) as [Hv|Hv].
    - split; [done|]. apply elem_of_list_lookup in Hv as [j Hj].
      destruct (ps !! j) as [[nm t]|] eqn:Hp.
      + destruct (C3 _ _ _ Hp) as (x' & Hx' & Hd). rewrite Hj in Hx'. injection Hx' as <-. eauto.
      + apply lookup_ge_None in Hp. apply lookup_lt_Some in Hj. lia.
    - rewrite Hold in Hx by done. simpl in Hx. destruct Hx as [? Hx]. by rewrite lookup_empty in Hx. }
  apply good_leaves.
  - intros u Hu. rewrite lookup_fmap, fmap_is_Some in Hu. apply Hvs in Hu as [Hu _]. apply R3 in Hu. lia.
  - intros u y. rewrite lookup_fmap. intros (d & Hd & ->)%fmap_Some.
    destruct (Hvs u) as (_ & t & nm & j & E); [by eauto|]. rewrite Hd in E. by injection E as ->.
Qed.
Lemma new_decl_ex n ps r w f w' : w_new_func_decl n ps r w = Some (f, w') → ex none w → ex none w'.
Proof.
  intros H Hex. pose proof Hex as (H1 & H2 & H3).
  unfold w_new_func_decl, prog_new_func_decl, prog_new_func in H.
  apply bind_Some in H as ([[f1 i1] p1] & H & E). injection E as <- <-.
  apply bind_Some in H as (d & Hd & H). apply bind_Some in H as ([f' i3] & Hf & E). injection E as <- <- <-.
  unfold fdata_new_decl in Hd. apply bind_Some in Hd as ([] & _ & E). injection E as <-.
  apply next_func_spec in Hf as (_ & _ & ->).
  eapply ex_func; [done|done|simpl; lia| |done]. simpl. rewrite !fmap_empty. apply good_leaves.
  - intros u [? Hu]. by rewrite lookup_empty in Hu.
  - intros u y Hu. by rewrite lookup_empty in Hu.
Qed.
Lemma new_global_ex X r w v w' : w_new_global r w = Some (v, w') → ex X w → ex X w'.
Proof.
  intros H. unfold w_new_global, w_new_global_data, global_insert_value, prog_new_value_data in H.
  apply bind_Some in H as (d & _ & H). apply bind_Some in H as ([[v1 i1] p1] & H & E). injection E as <- <-.
  apply bind_Some in H as ([[v' i'] p'] & H & E). injection E as -> -> <-.
  apply bind_Some in H as ([v' i'] & Hi & H). apply bind_Some in H as (gs & Hg & E). injection E as -> -> <-.
  unfold next_global_value_id in Hi. destruct (fetch_add1 (next_gv (w_ids w))) as [id c].
  apply bind_Some in Hi as (? & _ & E). injection E as _ <-.
  apply ex_funcs; [done|]. by destruct (is_global_alloc (v_kind d)).
Qed.
Lemma name_global_ex X v n w w' : w_name_global v n w = Some w' → ex X w → ex X w'.
Proof.
  intros H. unfold w_name_global, prog_set_value_name in H.
  apply bind_Some in H as (p1 & H & E). injection E as <-.
  apply bind_Some in H as (d & Hd & H). apply bind_Some in H as (d' & Hd' & E). injection E as <-.
  by apply ex_funcs.
Qed.

(** ** The functions of the front end *)
Class CReq (r : breq) : Prop := creq : is_local_inst (requested r) = false ∧ local_req r = true.
#[global] Hint Extern 0 (CReq _) => split; reflexivity : typeclass_instances.
#[global] Instance ex_new_const X f r : CReq r → Pres (ex X) (new_local f r).
Proof.
  intros [Hr Hl]. apply pr_prog. intros w v w' H Hex. eapply new_local_ex; [done..| |done].
  intros g u. rewrite Hr. naive_solver.
Qed.
#[global] Instance ex_new_bb X f n ps : Pres (ex X) (b_prog (w_new_bb f n ps)).
Proof. apply pr_prog. intros w v w'. apply new_bb_ex. Qed.
#[global] Instance ex_name_local X f v n : Pres (ex X) (b_prog_ (w_name_local f v n)).
Proof. apply pr_prog_. intros w w'. apply name_local_ex. Qed.
#[global] Instance ex_push_bb X f b : Pres (ex X) (b_prog_ (w_push_bb f b)).
Proof. apply pr_prog_. intros w w'. apply push_bb_ex. Qed.
#[global] Instance ex_local_init X f t i : Pres (ex X) (gen_local_init f t i).
Proof. apply (pr_init (ex X) CReq); try done. intros r Hr. by apply ex_new_const. Qed.
#[global] Instance ex_value X f bb t v : Pres (ex X) (gen_value f bb t v).
Proof. destruct v; apply _. Qed.
#[global] Instance ex_store_value X f bb t v : Pres (ex X) (gen_store_value f bb t v).
Proof. destruct v; apply _. Qed.
#[global] Instance ex_args X f bb a t : Pres (ex X) (gen_args f bb a t).
Proof. apply _. Qed.
#[global] Instance ex_init_bb X f b : Pres (ex X) (init_bb f b).
Proof. unfold init_bb. apply _. Qed.
#[global] Instance ex_init_local X f a l : Pres (ex X) (init_local_bbs f a l).
Proof. rewrite init_local_eq. apply _. Qed.

(** A statement makes one instruction. *)
Class IReq (r : breq) : Prop := ireq : is_local_inst (requested r) = true.
#[global] Hint Extern 0 (IReq _) => reflexivity : typeclass_instances.
Class Makes (f : func) (m : F value) : Prop := makes : ∀ s v s',
  m s = (Rok v, s') → ex none (b_world s) → ex (one f v) (b_world s').
#[global] Instance mk_bind {A} f (m : F A) (k : A → F value) :
  Pres (ex none) m → (∀ a, Makes f (k a)) → Makes f (mthen m k).
Proof.
  intros Hm Hk s v s' H Hex. unfold mthen in H. specialize (Hm s Hex).
  destruct (m s) as [[a|x| |] s1]; try done. simpl in Hm. by eapply Hk.
Qed.
#[global] Instance mk_error f : Makes f b_error.
Proof. by intros s v s'. Qed.
#[global] Instance mk_new f r : IReq r → Makes f (new_local f r).
Proof.
  intros Hr s v s' H Hex. unfold new_local, b_prog in H.
  destruct (w_new_local f r (b_world s)) as [[v1 w1]|] eqn:E; [|done]. injection H as <- <-. simpl.
  eapply new_local_ex; [done..| |by destruct r]. intros g u. rewrite Hr. unfold one, none. naive_solver.
Qed.
#[global] Instance mk_ite f (b : bool) m n : Makes f m → Makes f n → Makes f (if b then m else n).
Proof. by destruct b. Qed.
#[global] Instance mk_call f bb c args : Makes f (gen_call f bb c args).
Proof.
  intros s. unfold gen_call. destruct (b_gfuncs s !! c); [|apply mk_error].
  match goal with |- ∀ v s', ?m s = _ → _ => enough (Makes f m) as H by apply H end.
  apply _.
Qed.
#[global] Instance mk_inst f bb e : Makes f (gen_inst f bb e).
Proof.
  destruct e; cbn [gen_inst]; try apply _.
  - unfold gen_load. repeat (apply mk_bind; [apply _|]; intros). case_match; apply _.
  - unfold gen_get_ptr. repeat (apply mk_bind; [apply _|]; intros). case_match; apply _.
  - unfold gen_get_elem_ptr. repeat (apply mk_bind; [apply _|]; intros). repeat case_match; apply _.
Qed.
(** ... which has an effect or a value. *)
Class EReq (r : breq) : Prop := ereq : effectful (requested r).
#[global] Hint Extern 0 (EReq _) => exact I : typeclass_instances.
Class Effs (f : func) (m : F value) : Prop := effs : ∀ s v s',
  m s = (Rok v, s') → ex none (b_world s) → fine f v (b_world s').
#[global] Instance fx_bind {A} f (m : F A) (k : A → F value) :
  Pres (ex none) m → (∀ a, Effs f (k a)) → Effs f (mthen m k).
Proof.
  intros Hm Hk s v s' H Hex. unfold mthen in H. specialize (Hm s Hex).
  destruct (m s) as [[a|x| |] s1]; try done. simpl in Hm. by eapply Hk.
Qed.
#[global] Instance fx_error f : Effs f b_error.
Proof. by intros s v s'. Qed.
#[global] Instance fx_new f r : EReq r → Effs f (new_local f r).
Proof.
  intros Hr s v s' H Hex. unfold new_local, b_prog in H.
  destruct (w_new_local f r (b_world s)) as [[v1 w1]|] eqn:E; [|done]. injection H as <- <-. simpl.
  apply new_local_data in E as (fd & d & i' & gs' & g' & Hf & Hd & E & ->).
  apply build_sound in Hd as (Hd & _). apply new_value_sk in E as (_ & _ & Hs & _ & _).
  intros fd' y Hf' Hy. simpl in Hf'. rewrite lookup_insert in Hf'. injection Hf' as <-. simpl in Hy.
  rewrite Hs, lookup_insert in Hy. injection Hy as <-. left. rewrite Hd. exact Hr.
Qed.
#[global] Instance fx_ite f (b : bool) m n : Effs f m → Effs f n → Effs f (if b then m else n).
Proof. by destruct b. Qed.
#[global] Instance fx_call f bb c args : Effs f (gen_call f bb c args).
Proof.
  intros s. unfold gen_call. destruct (b_gfuncs s !! c); [|apply fx_error].
  match goal with |- ∀ v s', ?m s = _ → _ => enough (Effs f m) as H by apply H end.
  apply _.
Qed.
#[global] Instance mk_store f bb v d : Makes f (gen_store f bb v d).
Proof. unfold gen_store. repeat (apply mk_bind; [apply _|]; intros). case_match; apply _. Qed.
#[global] Instance fx_store f bb v d : Effs f (gen_store f bb v d).
Proof. unfold gen_store. repeat (apply fx_bind; [apply _|]; intros). case_match; apply _. Qed.
#[global] Instance mk_return f bb t v : Makes f (gen_return f bb t v).
Proof. unfold gen_return. repeat case_match; apply _. Qed.
#[global] Instance fx_return f bb t v : Effs f (gen_return f bb t v).
Proof. unfold gen_return. repeat case_match; apply _. Qed.
Lemma stmt_ex f bb r st s v s' : clean (gen_stmt f bb r st) s v s' → ex none (b_world s) →
  ex (one f v) (b_world s') ∧ fine f v (b_world s').
Proof.
  intros H Hex. destruct (match st with SDef _ _ => true | _ => false end) eqn:E.
  - destruct st as [n e| | | | | |]; try done.
    apply clean_stmt_def in H as (s1 & s2 & t & w & info & _ & _ & -> & H3 & H4 & H5 & H6 & _ & ->).
    apply proj1 in H3. pose proof (mk_inst _ _ _ _ _ _ H3 Hex) as Hex2.
    apply clean_value_ty in H4 as [_ H4]. simpl.
    assert (Hf : fine f v (b_world s2)).
    { intros fd y Hf Hy. right. pose proof Hex2 as (_ & _ & G).
      assert (is_Some (skm (vals fd) !! v)) as Hs by eauto.
      apply (g_bound _ _ _ _ _ (G _ _ Hf)) in Hs.
      assert (is_global_id v = false) as Hg by (unfold is_global_id; lia). rewrite Hg, Hf in H4. simpl in H4.
      apply fmap_Some in H4 as (d & Hd & ->). rewrite lookup_fmap, Hd in Hy. injection Hy as <-. simpl.
      intros Eu. by rewrite Eu in H5. }
    destruct (is_temp n); [by subst w|]. split; [by eapply name_local_ex|].
    unfold w_name_local in H6. apply bind_Some in H6 as ([[] w1] & H & E1). injection E1 as ->.
    apply on_dfg_inv in H as (fd & i' & gs' & g' & Hfd & H & ->).
    apply bind_Some in H as (g1 & H & E1). injection E1 as <- <- <-.
    apply set_value_name_sk in H as [E1 E2]. intros fd' y Hf' Hy. simpl in Hf'.
    rewrite lookup_insert in Hf'. injection Hf' as <-. simpl in Hy. rewrite E1 in Hy. by eapply Hf.
  - apply proj1 in H. destruct st; try done; cbn [gen_stmt] in H;
      (split; [exact (makes _ _ _ H Hex)|exact (effs _ _ _ H Hex)]).
Qed.

(** ** Whole programs *)
Lemma blocks_ex f ret l : ∀ s u s', clean (b_each (build_block f ret) l) s u s' →
  ex none (b_world s) → ex none (b_world s').
Proof.
  induction l as [|b l IH]; intros s u s' H Hex; simpl in H; [by apply clean_mok in H as [_ ->]|].
  cb H as u1 s1 H1. eapply IH; [done|]. clear IH H. rewrite build_block_eq in H1. revert s H1 Hex.
  generalize (b_stmts b) as k. induction k as [|st k IHk]; intros s H1 Hex; simpl in H1;
    [by apply clean_mok in H1 as [_ ->]|].
  cb H1 as u2 s2 H2. eapply IHk; [done|]. clear IHk H1.
  apply clean_block_step in H2 as [[-> ->]|(v & s3 & info & w & H2 & _ & Hw & ->)]; [done|].
  apply stmt_ex in H2 as [G1 G2]; [|done]. simpl. by eapply push_inst_ex.
Qed.
Lemma pres_ok {A} P (m : F A) s a s' : Pres P m → clean m s a s' → P (b_world s) → P (b_world s').
Proof. intros Hm [H _] Hs. specialize (Hm s Hs). by rewrite H in Hm. Qed.
Lemma fun_def_ex n ps r bbs s u s' : clean (build_fun_def n ps r bbs) s u s' →
  ex none (b_world s) → ex none (b_world s').
Proof.
  intros H Hex. apply clean_fun_def in H as (ret & ps' & f & w1 & fd & args & l & k & s1 & _ & _ & Hd & _ & _ & _ & _ & H).
  destruct H as (_ & H1 & H2). apply new_def_ex in Hd; [|done].
  eapply blocks_ex; [done|]. eapply (pres_ok (ex none)); [|exact H1|exact Hd]. apply _.
Qed.
#[global] Instance ex_new_global X r : Pres (ex X) (new_global r).
Proof. apply pr_prog. intros w v w'. apply new_global_ex. Qed.
#[global] Instance ex_name_global X v n : Pres (ex X) (b_prog_ (w_name_global v n)).
Proof. apply pr_prog_. intros w w'. apply name_global_ex. Qed.
#[global] Instance ex_new_decl n ps r : Pres (ex none) (b_prog (w_new_func_decl n ps r)).
Proof. apply pr_prog. intros w v w'. apply new_decl_ex. Qed.
#[global] Instance ex_global_init X t i : Pres (ex X) (gen_global_init t i).
Proof. apply (pr_init (ex X) (λ _, True)); try done. intros r _. apply _. Qed.
#[global] Instance ex_decl n ps r : Pres (ex none) (build_fun_decl n ps r).
Proof. unfold build_fun_decl. apply _. Qed.
#[global] Instance ex_global n t i : Pres (ex none) (build_global n t i).
Proof. unfold build_global. apply _. Qed.
Lemma build_on_ex t s u s' : clean (build_on t) s u s' → ex none (b_world s) → ex none (b_world s').
Proof.
  destruct t; cbn [build_on]; [|apply fun_def_ex| | |]; apply pres_ok; apply _.
Qed.
Lemma builds_ex ts : ∀ s b, builds s ts b → ex none (b_world s) → ex none (b_world b).
Proof.
  induction ts as [|t ts IH]; intros s b H Hs; inversion H as [|? ? s1 ? ? H1 H2 H3]; subst; [done|].
  eapply IH; [done|]. eapply (build_on_ex t); [|done]. by split.
Qed.
Lemma read_ex r p n b : read_program r = (Rok p, n, b) → ∃ w, ex none w ∧ w_prog w = p.
Proof.
  intros Hr. unfold read_program in Hr. destruct (driver_new r) as [d e] eqn:Hd.
  destruct (generate_ok _ _ _ _ _ _ _ _ _ Hd Hr) as (-> & _ & s1 & ts' & s2 & -> & Hp' & _ & _ & _ & Hb & _ & ->).
  exists (b_world b). split; [|done]. apply builds_ex in Hb; [done|].
  split_and!; [done..|]. simpl. intros f fd. by rewrite lookup_empty.
Qed.
