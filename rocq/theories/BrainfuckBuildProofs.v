(** What the brainfuck example builds. *)
From Coq Require Import Lia ZifyBool ZifyNat ZifyN Ascii.
From Verif Require Import Base IdModel TypeModel IrModel LayoutModel BuilderModel WorldModel
  LexerModel ParserModel ParserSpec FrontModel FrontProofs FlowSpec FlowProofs BlockListProofs
  CleanProofs BuildCleanProofs FunCleanProofs FlowBuildProofs DriverModel DriverSpec DriverProofs UsesSpec UsesProofs
  DfgSpec DfgProofs WorldSpec WorldProofs TypingSpec TypingProofs TypingHistory EqHistory SkelProofs ParamProofs HistoryProofs
  FaithSpec RoundProofs ViewProofs FaithProofs FaithFunProofs CanonProofs CanonReadProofs RetreeFunProofs AcceptSpec AcceptProofs
  AcceptFunProofs LayoutProofs BrainfuckModel BrainfuckSpec BrainfuckSimProofs.

Definition bst (w : world) : bstate := set_world w (bstate0 ids0 0 0).
Lemma room_op {A} (m : world → option (A * world)) w a w' : Ev (b_prog m) → m w = Some (a, w') → room 0 w → room 0 w'.
Proof. intros He H R. apply (room_clean 0 _ _ _ _ He (goes_prog m (bst w) a w' H)). done. Qed.
Lemma room_op_ (m : world → option world) w w' : Ev (b_prog_ m) → m w = Some w' → room 0 w → room 0 w'.
Proof. intros He H R. apply (room_clean 0 _ _ _ _ He (goes_prog_ m (bst w) w' H)). done. Qed.
Lemma find_set_same b is l is0 : find_bb b l = Some is0 → find_bb b (set_bb b is l) = Some is.
Proof.
  induction l as [|[c cs] l IH]; simpl; [done|]. destruct (N.eqb_spec c b) as [->|Hne]; simpl.
  - by rewrite N.eqb_refl.
  - destruct (N.eqb_spec c b); [done|]. apply IH.
Qed.
Lemma find_set_other b is l c : c ≠ b → find_bb c (set_bb b is l) = find_bb c l.
Proof.
  intros Hc. induction l as [|[d ds] l IH]; simpl; [done|]. destruct (N.eqb_spec d b) as [->|Hne]; simpl.
  - destruct (N.eqb_spec b c); [by subst|done].
  - destruct (N.eqb_spec d c); [done|apply IH].
Qed.
Lemma find_bb_none b l : find_bb b l = None ↔ b ∉ map fst l.
Proof.
  induction l as [|[c cs] l IH]; simpl; [split; [intros _ Hx; inversion Hx|done]|].
  destruct (N.eqb_spec c b) as [->|Hne].
  - split; [done|]. intros Hx. destruct Hx. by left.
  - rewrite IH. split.
    + intros Hx [->|Hi]%elem_of_cons; done.
    + intros Hx Hi. apply Hx. by right.
Qed.
Lemma find_app b l l' : find_bb b (l ++ l') = match find_bb b l with Some is => Some is | None => find_bb b l' end.
Proof. induction l as [|[c cs] l IH]; simpl; [done|]. by destruct (c =? b)%N. Qed.

Ltac opt_ := cbn [mbind option_bind bf_ptr bf_main bf_putchar bf_getchar].

Section build.
Context (f : func) (Gs : views) (Fs : gmap N ty) (Rs : gmap N fview) (Ls Os : list N).
(** The rest of the program *)
Definition rest (w : world) : Prop :=
  delete f (fvs w) = Rs ∧ p_inst_layout (w_prog w) = Ls ∧ p_func_layout (w_prog w) = Os.
Lemma only_rest x y w w' : only f x y w w' → rest w → rest w'.
Proof. intros (_ & A1 & _ & A2 & A3) (B1 & B2 & B3). split_and!; [|congruence..]. rewrite A1. by rewrite delete_insert_delete. Qed.
(** The state of the construction *)
Record bfi (k : N) (x : fview) (w : world) : Prop := {
  bf_view : fvs w !! f = Some x;
  bf_room : room 0 w;
  bf_left : left_in k (w_ids w);
  bf_gs : gvs w = Gs;
  bf_fs : fts w = Fs;
  bf_laid : ∀ b is v, find_bb b (w_lay x) = Some is → v ∈ is → is_Some (w_vals x !! v);
  bf_blocks : ∀ b, b ∈ map fst (w_lay x) → is_Some (w_bbs x !! b);
  bf_nopars : ∀ b y, w_bbs x !! b = Some y → y.2 = [];
  bf_rest : rest w;
}.
Definition valt (x : fview) (v : value) (t : ty) (k : vkind) : Prop := ∃ n, w_vals x !! v = Some (n, (t, k)).
(** Same function *)
Definition meta (x x' : fview) : Prop := w_fname x' = w_fname x ∧ w_fty x' = w_fty x ∧ w_pars x' = w_pars x.
(** Only the instructions [es] of the block [b] are new. *)
Record inb (b : bblock) (es : list value) (x x' : fview) : Prop := {
  in_meta : meta x x';
  in_bbs : w_bbs x' = w_bbs x;
  in_vals : w_vals x ⊆ w_vals x';
  in_keys : map fst (w_lay x') = map fst (w_lay x);
  in_here : ∀ is, find_bb b (w_lay x) = Some is → find_bb b (w_lay x') = Some (is ++ es);
  in_other : ∀ c, c ≠ b → find_bb c (w_lay x') = find_bb c (w_lay x);
}.
Lemma inb_trans b es es' x x1 x2 : inb b es x x1 → inb b es' x1 x2 → inb b (es ++ es') x x2.
Proof.
  intros [A1 A2 A3 A4 A5 A6] [B1 B2 B3 B4 B5 B6]. constructor.
  - destruct A1 as (? & ? & ?), B1 as (? & ? & ?). split_and!; congruence.
  - congruence.
  - by etrans.
  - congruence.
  - intros is H. rewrite app_assoc. by apply B5, A5.
  - intros c Hc. rewrite B6, A6; done.
Qed.
(** More of the function is built. *)
Record grows (x x' : fview) : Prop := {
  g_meta : meta x x';
  g_vals : w_vals x ⊆ w_vals x';
  g_bbs : w_bbs x ⊆ w_bbs x';
  g_keys : ∃ l, map fst (w_lay x') = map fst (w_lay x) ++ l;
  g_lay : ∀ b is, find_bb b (w_lay x) = Some is → ∃ r, find_bb b (w_lay x') = Some (is ++ r);
}.
Lemma grows_refl x : grows x x.
Proof. constructor; [done..| |]; [exists []; by rewrite app_nil_r|]. intros b is H. exists []. by rewrite app_nil_r. Qed.
Lemma grows_trans x x1 x2 : grows x x1 → grows x1 x2 → grows x x2.
Proof.
  intros [A1 A2 A3 [l A4] A5] [B1 B2 B3 [l' B4] B5]. constructor.
  - destruct A1 as (? & ? & ?), B1 as (? & ? & ?). split_and!; congruence.
  - by etrans.
  - by etrans.
  - exists (l ++ l'). by rewrite B4, A4, app_assoc.
  - intros b is H. destruct (A5 _ _ H) as [r Hr]. destruct (B5 _ _ Hr) as [r' Hr']. exists (r ++ r'). by rewrite app_assoc.
Qed.
Lemma inb_grows b es x x' : inb b es x x' → grows x x'.
Proof.
  intros [A1 A2 A3 A4 A5 A6]. constructor; [done|done|by rewrite A2|exists []; by rewrite app_nil_r|].
  intros c is H. destruct (decide (c = b)) as [->|Hne]; [eauto|]. exists []. rewrite app_nil_r, A6; done.
Qed.
Lemma valt_grows x x' v t k : grows x x' → valt x v t k → valt x' v t k.
Proof. intros H [n Hn]. exists n. eapply lookup_weaken; [exact Hn|apply H]. Qed.
Lemma valt_inb b es x x' v t k : inb b es x x' → valt x v t k → valt x' v t k.
Proof. intros H. by eapply valt_grows, inb_grows. Qed.

(** ** Calls *)
Lemma bfi_mono k k' x w : (k' ≤ k)%N → bfi k x w → bfi k' x w.
Proof. intros Hk [H1 H2 H3 H4 H5 H6 H7 H8 H9]. constructor; try done. by eapply left_mono. Qed.
Lemma only_fts x y w w' : only f x y w w' → w_fty y = w_fty x → fts w' = fts w.
Proof. intros (A1 & A2 & _) E. rewrite A2, fmap_insert, E. apply insert_id. by rewrite lookup_fmap, A1. Qed.
Lemma e_ty_valt k x w v t kk : bfi k x w → valt x v t kk → e_ty (venv Gs Fs x) v = Some t.
Proof.
  intros I [n Hn]. simpl. rewrite lookup_union_r; [by rewrite Hn|].
  apply eq_None_not_Some. intros Hg. destruct (room_gv _ _ (bf_room _ _ _ I)) as [G1 G2].
  rewrite <- (bf_gs _ _ _ I), lookup_fmap in Hg. apply fmap_is_Some in Hg. apply G2 in Hg.
  destruct (room_lv _ _ (bf_room _ _ _ I)) as (_ & _ & L). destruct (L f x v (bf_view _ _ _ I)) as [L1 _]; [eauto|]. lia.
Qed.
Lemma new_ok b k x w r t : bfi (1 + k) x w → LReq r → has_type (venv Gs Fs x) (requested r) t → requested_ty r t →
  ∃ v w' x', w_new_local f r w = Some (v, w') ∧ bfi k x' w' ∧ inb b [] x x' ∧ valt x' v t (requested r) ∧
    w_vals x !! v = None ∧ w_lay x' = w_lay x.
Proof.
  intros I Hr Ht Hty. rewrite <- (bf_gs _ _ _ I), <- (bf_fs _ _ _ I) in Ht.
  destruct (goes_new f x r t k (bst w) (bf_view _ _ _ I) (bf_room _ _ _ I) Hr (bf_left _ _ _ I) Ht Hty) as (v & s' & A1 & A2 & A3 & A4 & A5).
  pose proof A1 as Hw. apply clean_prog in Hw as (w' & Hw & ->). simpl in *.
  exists v, w', (set_wvals x (<[v := (None, (t, requested r))]> (w_vals x))). split_and!; [done| | | |done|done].
  - destruct A2 as [M1 M2 M3 M4 M5]. simpl in *. pose proof (only_after _ _ _ _ _ M4) as Ha. pose proof (only_fts _ _ _ _ M4 eq_refl) as Hf.
    destruct I as [I1 I2 I3 I4 I5 I6 I7 I8 I9]. constructor; try done.
    + destruct M4 as (_ & _ & M6 & _). congruence.
    + congruence.
    + intros c is u H1 H2. simpl. apply lookup_insert_is_Some'. right. by eapply I6.
    + by eapply only_rest.
  - constructor; try done.
    + by apply insert_subseteq.
    + intros is H. by rewrite app_nil_r.
  - exists None. simpl. by rewrite lookup_insert.
Qed.
Lemma push_ok k x w b is v : bfi k x w → find_bb b (w_lay x) = Some is → is_Some (w_vals x !! v) → v ∉ is →
  ∃ w' x', w_push_inst f b v w = Some w' ∧ bfi k x' w' ∧ inb b [v] x x' ∧ w_vals x' = w_vals x.
Proof.
  intros I Hb Hs Hv. pose proof (bf_view _ _ _ I) as Hf. rewrite lookup_fmap in Hf. apply fmap_Some in Hf as (fd & Hf & Ex).
  assert (Hw : ∃ w', w_push_inst f b v w = Some w' ∧ w_ids w' = w_ids w).
  { unfold w_push_inst. rewrite Hf. simpl. unfold inst_insert. rewrite Ex in Hb. simpl in Hb. rewrite Hb. simpl.
    replace (has_key id v is) with false by (symmetry; by apply has_key_id_false). simpl. by eexists. }
  destruct Hw as (w' & Hw & Hi). pose proof (room_op_ _ _ _ _ Hw (bf_room _ _ _ I)) as R.
  pose proof Hw as Hvw. apply view_push_inst in Hvw as (y & is' & HO & Hb'). pose proof (proj1 HO) as Hy. rewrite (bf_view _ _ _ I) in Hy.
  injection Hy as <-. rewrite Hb in Hb'. injection Hb' as <-.
  exists w', (set_wlay x (set_bb b (is ++ [v]) (w_lay x))). split_and!; [done| | |done].
  - pose proof (only_after _ _ _ _ _ HO) as Ha. pose proof (only_fts _ _ _ _ HO eq_refl) as Hft. destruct I as [I1 I2 I3 I4 I5 I6 I7 I8 I9]. constructor; try done.
    + by rewrite Hi.
    + destruct HO as (_ & _ & HO & _). congruence.
    + congruence.
    + intros c cs u H1 H2. simpl in *. destruct (decide (c = b)) as [->|Hne].
      * rewrite (find_set_same _ _ _ _ Hb) in H1. injection H1 as <-. apply elem_of_app in H2 as [H2|H2]; [by eapply I6|].
        apply elem_of_list_singleton in H2 as ->. done.
      * rewrite find_set_other in H1 by done. by eapply I6.
    + intros c Hc. simpl in *. rewrite set_bb_keys in Hc. by apply I7.
    + by eapply only_rest.
  - constructor; try done; simpl.
    + by rewrite set_bb_keys.
    + intros is' H. rewrite Hb in H. injection H as <-. by apply (find_set_same _ _ _ is).
    + intros c Hc. by apply find_set_other.
Qed.
Lemma inst_ok env b k x w r t is : bf_main env = f → bfi (1 + k) x w → LReq r → has_type (venv Gs Fs x) (requested r) t → requested_ty r t →
  find_bb b (w_lay x) = Some is →
  ∃ v w' x', bf_inst env b r w = Some (v, w') ∧ bfi k x' w' ∧ inb b [v] x x' ∧ valt x' v t (requested r).
Proof.
  intros He I Hr Ht Hty Hb. destruct (new_ok b k x w r t I Hr Ht Hty) as (v & w1 & x1 & H1 & I1 & B1 & V1 & N1 & L1).
  destruct (push_ok k x1 w1 b is v) as (w2 & x2 & H2 & I2 & B2 & V2); [done|by rewrite L1|destruct V1 as [? ->]; eauto| |].
  { intros Hin. destruct (bf_laid _ _ _ I _ _ _ Hb Hin). congruence. }
  exists v, w2, x2. split_and!; [|done| |].
  - unfold bf_inst. rewrite He, H1. simpl. by rewrite H2.
  - by apply (inb_trans _ [] [v] _ x1).
  - destruct V1 as [n V1]. exists n. by rewrite V2.
Qed.
Lemma block_ok k x w n : bfi (1 + k) x w → valid_opt_name n = true →
  ∃ b w' x', w_new_bb f n [] w = Some (b, w') ∧ bfi k x' w' ∧ w_bbs x !! b = None ∧ w_bbs x' = <[b := (n, [])]> (w_bbs x) ∧
    w_vals x ⊆ w_vals x' ∧ w_lay x' = w_lay x ∧ meta x x'.
Proof.
  intros I Hn. destruct (new_bb_go f n [] x (bst w) k (bf_view _ _ _ I) Hn) as (b & w' & Hw & Hl); [done|apply (bf_left _ _ _ I)|].
  simpl in Hw. pose proof (room_op _ _ _ _ _ Hw (bf_room _ _ _ I)) as R. pose proof Hw as Hv.
  apply (view_new_bb 0) in Hv as (y & m & vs & HO & Hb & Hadd); [|apply I]. pose proof (proj1 HO) as Hy. rewrite (bf_view _ _ _ I) in Hy. injection Hy as <-.
  pose proof (adds_views_sub _ _ _ _ _ Hadd) as Hsub. destruct Hadd as (_ & Hlen & _). destruct vs; [|done].
  exists b, w', (set_wbbs (set_wvals x m) (<[b:=(n, [])]> (w_bbs x))). split_and!; try done.
  pose proof (only_after _ _ _ _ _ HO) as Ha. pose proof (only_fts _ _ _ _ HO eq_refl) as Hft. destruct I as [I1 I2 I3 I4 I5 I6 I7 I8 I9]. constructor; try done.
  - destruct HO as (_ & _ & HO & _). congruence.
  - congruence.
  - intros c is v H1 H2. simpl. destruct (I6 c is v H1 H2) as [z Hz]. exists z. by eapply lookup_weaken.
  - intros c Hc. simpl. apply lookup_insert_is_Some'. right. by apply I7.
  - intros c y. simpl. rewrite lookup_insert_Some. intros [[_ <-]|[_ H]]; [done|by eapply I8].
  - by eapply only_rest.
Qed.
Lemma push_bb_ok k x w b : bfi k x w → find_bb b (w_lay x) = None → is_Some (w_bbs x !! b) →
  ∃ w' x', w_push_bb f b w = Some w' ∧ bfi k x' w' ∧ w_bbs x' = w_bbs x ∧ w_vals x' = w_vals x ∧ w_lay x' = w_lay x ++ [(b, [])] ∧ meta x x'.
Proof.
  intros I Hb Hs. pose proof (bf_view _ _ _ I) as Hf. rewrite lookup_fmap in Hf. apply fmap_Some in Hf as (fd & Hf & Ex).
  assert (Hw : ∃ w', w_push_bb f b w = Some w' ∧ w_ids w' = w_ids w).
  { unfold w_push_bb. rewrite Hf. simpl. unfold bb_insert. rewrite Ex in Hb. simpl in Hb.
    replace (has_key fst b (l_bbs (f_layout fd))) with false by (symmetry; apply has_key_false; by apply find_bb_none). simpl. by eexists. }
  destruct Hw as (w' & Hw & Hi). pose proof (room_op_ _ _ _ _ Hw (bf_room _ _ _ I)) as R.
  pose proof Hw as Hvw. apply view_push_bb in Hvw as (y & HO). pose proof (proj1 HO) as Hy. rewrite (bf_view _ _ _ I) in Hy. injection Hy as <-.
  exists w', (set_wlay x (w_lay x ++ [(b, [])])). split_and!; try done.
  pose proof (only_after _ _ _ _ _ HO) as Ha. pose proof (only_fts _ _ _ _ HO eq_refl) as Hft. destruct I as [I1 I2 I3 I4 I5 I6 I7 I8 I9]. constructor; try done.
  - by rewrite Hi.
  - destruct HO as (_ & _ & HO & _). congruence.
  - congruence.
  - intros c is v H1 H2. simpl in *. rewrite find_app in H1. destruct (find_bb c (w_lay x)) eqn:E; [injection H1 as ->; by eapply I6|].
    simpl in H1. destruct (b =? c)%N; [|done]. injection H1 as <-. inversion H2.
  - intros c Hc. simpl in *. rewrite map_app in Hc. apply elem_of_app in Hc as [Hc|Hc]; [by apply I7|]. simpl in Hc.
    apply elem_of_list_singleton in Hc as ->. done.
  - by eapply only_rest.
Qed.
(** A new block that is laid *)
Lemma laid_block_ok k x w n : bfi (1 + k) x w → valid_opt_name n = true →
  ∃ b w1 w2 x', w_new_bb f n [] w = Some (b, w1) ∧ w_push_bb f b w1 = Some w2 ∧ bfi k x' w2 ∧ w_bbs x !! b = None ∧
    w_bbs x' = <[b := (n, [])]> (w_bbs x) ∧ grows x x' ∧ w_lay x' = w_lay x ++ [(b, [])] ∧ find_bb b (w_lay x) = None.
Proof.
  intros I Hn. destruct (block_ok k x w n I Hn) as (b & w1 & x1 & H1 & I1 & N1 & B1 & V1 & L1 & M1).
  assert (Hb : find_bb b (w_lay x) = None).
  { apply find_bb_none. intros Hin. apply (bf_blocks _ _ _ I) in Hin as [? ?]. congruence. }
  destruct (push_bb_ok k x1 w1 b I1) as (w2 & x2 & H2 & I2 & B2 & V2 & L2 & M2); [by rewrite L1|rewrite B1, lookup_insert; eauto|].
  exists b, w1, w2, x2. split_and!; [done..| | |by rewrite L2, L1|done].
  - by rewrite B2.
  - constructor.
    + destruct M1 as (? & ? & ?), M2 as (? & ? & ?). split_and!; congruence.
    + by rewrite V2.
    + rewrite B2, B1. by apply insert_subseteq.
    + exists [b]. by rewrite L2, L1, map_app.
    + intros c is Hc. exists []. rewrite L2, L1, find_app, Hc, app_nil_r. done.
Qed.

(** ** The code of the commands *)
Context (ptr : value) (putc getc : func).
Context (HFp : Fs !! putc = Some (TFun [TInt32] TInt32)) (HFg : Fs !! getc = Some (TFun [] TInt32)).
Notation env := (BfEnv ptr putc getc f).
Notation ptrv x := (valt x ptr (TPtr (TPtr TInt32)) KAlloc).
(** The function, when it is finished *)
Record later (x : fview) (fd : fdata) : Prop := {
  lt_local : ∀ v, is_Some (d_values (f_dfg fd) !! v) → is_global_id v = false;
  lt_nopars : ∀ b y, d_bbs (f_dfg fd) !! b = Some y → bb_params y = [];
  lt_grows : grows x (fv fd);
}.
Lemma later_weak x x' fd : grows x x' → later x' fd → later x fd.
Proof. intros G [L1 L2 L3]. constructor; [done|done|]. by eapply grows_trans. Qed.
Lemma later_kd x fd v t k : later x fd → valt x v t k → kd fd v t k.
Proof.
  intros [L1 L2 L3] V. apply (valt_grows _ _ _ _ _ L3) in V as [n V]. simpl in V. rewrite lookup_fmap in V.
  apply fmap_Some in V as (d & Hd & Ed). injection Ed as _ E1 E2. split; [apply L1; eauto|]. by exists d.
Qed.
Lemma later_bl x fd b is : later x fd → find_bb b (w_lay x) = Some is → is_Some (w_bbs x !! b) → ∃ r, bl fd b (is ++ r).
Proof.
  intros [L1 L2 L3] H [y Hy]. destruct (g_lay _ _ L3 _ _ H) as [r Hr]. exists r. split; [exact Hr|].
  eapply lookup_weaken in Hy; [|apply (g_bbs _ _ L3)]. simpl in Hy. rewrite lookup_fmap in Hy. apply fmap_Some in Hy as (bd & Hd & _).
  exists bd. split; [done|]. by eapply L2.
Qed.
Lemma next_ok b k x0 x w r t is es : bfi (1 + k) x w → inb b es x0 x → find_bb b (w_lay x0) = Some is → LReq r →
  has_type (venv Gs Fs x) (requested r) t → requested_ty r t →
  ∃ v w' x', bf_inst env b r w = Some (v, w') ∧ bfi k x' w' ∧ inb b (es ++ [v]) x0 x' ∧ valt x' v t (requested r) ∧ grows x x'.
Proof.
  intros I B Hb Hr Ht Hty. destruct (inst_ok env b k x w r t (is ++ es) eq_refl I Hr Ht Hty) as (v & w' & x' & H1 & I1 & B1 & V1).
  - by apply B.
  - exists v, w', x'. split_and!; [done..| |done|]; [by eapply inb_trans|by eapply inb_grows].
Qed.
Lemma const_ok b k x0 x w z es : bfi (1 + k) x w → inb b es x0 x →
  ∃ v w' x', w_new_local f (BInteger z) w = Some (v, w') ∧ bfi k x' w' ∧ inb b es x0 x' ∧ valt x' v TInt32 (KInteger z) ∧ grows x x'.
Proof.
  intros I B. destruct (new_ok b k x w (BInteger z) TInt32 I eq_refl) as (v & w' & x' & H1 & I1 & B1 & V1 & _); [constructor|done|].
  exists v, w', x'. split_and!; [done..| |done|by eapply inb_grows]. rewrite <- (app_nil_r es). by eapply inb_trans.
Qed.
Lemma inb_refl b x : inb b [] x x.
Proof. constructor; try done. intros is H. by rewrite app_nil_r. Qed.
Ltac vals_ := eauto 14 using valt_grows.
Ltac ty_ := repeat first [eapply T_load | eapply T_store | eapply T_get_ptr | eapply T_binary | eapply T_call | eapply Forall2_cons; [|eapply Forall2_nil] ];
  try (eapply e_ty_valt; [eassumption|solve [vals_]]).
Lemma ptr_op_ok b k x w d is : bfi (1 + (1 + (1 + (1 + k)))) x w → ptrv x → find_bb b (w_lay x) = Some is →
  ∃ w' x' es, bf_ptr_op env b d w = Some w' ∧ bfi k x' w' ∧ inb b es x x' ∧ ∀ fd, later x' fd → moved fd ptr d es.
Proof.
  intros I P Hb. unfold bf_ptr_op. opt_.
  destruct (next_ok b _ x x w (BLoad ptr) (TPtr TInt32) is [] I (inb_refl _ _) Hb eq_refl) as (l & w1 & x1 & -> & I1 & B1 & V1 & G1); [ty_|done|]. opt_.
  destruct (const_ok b _ x x1 w1 d _ I1 B1) as (i & w2 & x2 & -> & I2 & B2 & V2 & G2). opt_.
  destruct (next_ok b _ x x2 w2 (BGetPtr l i) (TPtr TInt32) is _ I2 B2 Hb eq_refl) as (g & w3 & x3 & -> & I3 & B3 & V3 & G3); [ty_|done|]. opt_.
  destruct (next_ok b _ x x3 w3 (BStore g ptr) TUnit is _ I3 B3 Hb eq_refl) as (s & w4 & x4 & -> & I4 & B4 & V4 & G4); [ty_|done|]. opt_.
  exists w4, x4, [l; g; s]. split_and!; [done..|]. intros fd L. exists l, i, g, s. split; [done|].
  split_and!; (eapply later_kd; [exact L|vals_]).
Qed.
Lemma data_op_ok b k x w d is : bfi (1 + (1 + (1 + (1 + (1 + k))))) x w → ptrv x → find_bb b (w_lay x) = Some is →
  ∃ w' x' es, bf_data_op env b d w = Some w' ∧ bfi k x' w' ∧ inb b es x x' ∧ ∀ fd, later x' fd → changed fd ptr d es.
Proof.
  intros I P Hb. unfold bf_data_op. opt_.
  destruct (next_ok b _ x x w (BLoad ptr) (TPtr TInt32) is [] I (inb_refl _ _) Hb eq_refl) as (l & w1 & x1 & -> & I1 & B1 & V1 & G1); [ty_|done|]. opt_.
  destruct (next_ok b _ x x1 w1 (BLoad l) TInt32 is _ I1 B1 Hb eq_refl) as (v & w2 & x2 & -> & I2 & B2 & V2 & G2); [ty_|done|]. opt_.
  destruct (const_ok b _ x x2 w2 d _ I2 B2) as (i & w3 & x3 & -> & I3 & B3 & V3 & G3). opt_.
  destruct (next_ok b _ x x3 w3 (BBinary Add v i) TInt32 is _ I3 B3 Hb eq_refl) as (a & w4 & x4 & -> & I4 & B4 & V4 & G4); [ty_|done|]. opt_.
  destruct (next_ok b _ x x4 w4 (BStore a l) TUnit is _ I4 B4 Hb eq_refl) as (s & w5 & x5 & -> & I5 & B5 & V5 & G5); [ty_|done|]. opt_.
  exists w5, x5, [l; v; a; s]. split_and!; [done..|]. intros fd L. exists l, v, i, a, s. split; [done|].
  split_and!; (eapply later_kd; [exact L|vals_]).
Qed.
Lemma put_ok b k x w is : bfi (1 + (1 + (1 + k))) x w → ptrv x → find_bb b (w_lay x) = Some is →
  ∃ w' x' es, bf_put env b w = Some w' ∧ bfi k x' w' ∧ inb b es x x' ∧ ∀ fd, later x' fd → emitted fd ptr putc getc COut es.
Proof.
  intros I P Hb. unfold bf_put. opt_.
  destruct (next_ok b _ x x w (BLoad ptr) (TPtr TInt32) is [] I (inb_refl _ _) Hb eq_refl) as (l & w1 & x1 & -> & I1 & B1 & V1 & G1); [ty_|done|]. opt_.
  destruct (next_ok b _ x x1 w1 (BLoad l) TInt32 is _ I1 B1 Hb eq_refl) as (v & w2 & x2 & -> & I2 & B2 & V2 & G2); [ty_|done|]. opt_.
  destruct (next_ok b _ x x2 w2 (BCall putc [v]) TInt32 is _ I2 B2 Hb eq_refl) as (c & w3 & x3 & -> & I3 & B3 & V3 & G3); [eapply T_call; [exact HFp|]; ty_|done|]. opt_.
  exists w3, x3, [l; v; c]. split_and!; [done..|]. intros fd L. exists l, v, c. split; [done|].
  split_and!; (eapply later_kd; [exact L|vals_]).
Qed.
Lemma get_ok b k x w is : bfi (1 + (1 + (1 + k))) x w → ptrv x → find_bb b (w_lay x) = Some is →
  ∃ w' x' es, bf_get env b w = Some w' ∧ bfi k x' w' ∧ inb b es x x' ∧ ∀ fd, later x' fd → emitted fd ptr putc getc CIn es.
Proof.
  intros I P Hb. unfold bf_get. opt_.
  destruct (next_ok b _ x x w (BCall getc []) TInt32 is [] I (inb_refl _ _) Hb eq_refl) as (c & w1 & x1 & -> & I1 & B1 & V1 & G1); [eapply T_call; [exact HFg|]; constructor|done|]. opt_.
  destruct (next_ok b _ x x1 w1 (BLoad ptr) (TPtr TInt32) is _ I1 B1 Hb eq_refl) as (l & w2 & x2 & -> & I2 & B2 & V2 & G2); [ty_|done|]. opt_.
  destruct (next_ok b _ x x2 w2 (BStore c l) TUnit is _ I2 B2 Hb eq_refl) as (s & w3 & x3 & -> & I3 & B3 & V3 & G3); [ty_|done|]. opt_.
  exists w3, x3, [c; l; s]. split_and!; [done..|]. intros fd L. exists c, l, s. split; [done|].
  split_and!; (eapply later_kd; [exact L|vals_]).
Qed.

(** Of the blocks there are, only [b] gets instructions, and only [e] is laid. *)
Definition same_but (P : bblock → Prop) (x x' : fview) : Prop := ∀ e, is_Some (w_bbs x !! e) → ¬ P e → find_bb e (w_lay x') = find_bb e (w_lay x).
Lemma args_none k x w b : bfi k x w → is_Some (w_bbs x !! b) → args_match (venv Gs Fs x) b [].
Proof. intros I [y Hy]. exists []. split; [|constructor]. simpl. rewrite Hy. simpl. by rewrite (bf_nopars _ _ _ I _ _ Hy). Qed.
Lemma some_sub {A} (m m' : gmap N A) b : m ⊆ m' → is_Some (m !! b) → is_Some (m' !! b).
Proof. intros H [y Hy]. exists y. by eapply lookup_weaken. Qed.
Lemma start_ok b k x w is : bfi (1 + (1 + (1 + (1 + (1 + (1 + (1 + (1 + (1 + k))))))))) x w → ptrv x →
  find_bb b (w_lay x) = Some is → is_Some (w_bbs x !! b) →
  ∃ body cond last w' x' j l v z c br, bf_start env b w = Some (body, (cond, last), w') ∧ bfi k x' w' ∧ grows x x' ∧
    same_but (λ e, e = b) x x' ∧ find_bb b (w_lay x') = Some (is ++ [j]) ∧ valt x' j TUnit (KJump cond []) ∧
    find_bb cond (w_lay x') = Some [l; v; c; br] ∧ valt x' l (TPtr TInt32) (KLoad ptr) ∧ valt x' v TInt32 (KLoad l) ∧
    valt x' z TInt32 (KInteger 0) ∧ valt x' c TInt32 (KBinary NotEq v z) ∧ valt x' br TUnit (KBranch c body last [] []) ∧
    find_bb body (w_lay x') = Some [] ∧ find_bb last (w_lay x') = None ∧
    is_Some (w_bbs x' !! cond) ∧ is_Some (w_bbs x' !! body) ∧ is_Some (w_bbs x' !! last) ∧ w_bbs x !! last = None.
Proof.
  intros I P Hb Hbs. unfold bf_start. opt_.
  destruct (laid_block_ok _ x w (Some "%while_cond") I eq_refl) as (cond & w1 & w2 & x2 & -> & H2 & I2 & N2 & Bs2 & G2 & L2 & F2). opt_.
  rewrite H2. opt_.
  assert (Hcb : cond ≠ b) by (intros ->; rewrite N2 in Hbs; by destruct Hbs).
  assert (Hb2 : find_bb b (w_lay x2) = Some is) by (by rewrite L2, find_app, Hb).
  assert (Hc2 : is_Some (w_bbs x2 !! cond)) by (rewrite Bs2, lookup_insert; eauto).
  destruct (next_ok b _ x2 x2 w2 (BJump cond) TUnit is [] I2 (inb_refl _ _) Hb2 eq_refl) as (j & w3 & x3 & -> & I3 & B3 & V3 & G3);
    [eapply T_jump; by eapply args_none|done|]. opt_.
  assert (Hc3 : find_bb cond (w_lay x3) = Some []).
  { rewrite (in_other _ _ _ _ B3) by done. rewrite L2, find_app, F2. simpl. by rewrite N.eqb_refl. }
  destruct (next_ok cond _ x3 x3 w3 (BLoad ptr) (TPtr TInt32) [] [] I3 (inb_refl _ _) Hc3 eq_refl) as (l & w4 & x4 & -> & I4 & B4 & V4 & G4); [ty_|done|]. opt_.
  destruct (next_ok cond _ x3 x4 w4 (BLoad l) TInt32 [] _ I4 B4 Hc3 eq_refl) as (v & w5 & x5 & -> & I5 & B5 & V5 & G5); [ty_|done|]. opt_.
  destruct (const_ok cond _ x3 x5 w5 0 _ I5 B5) as (z & w6 & x6 & -> & I6 & B6 & V6 & G6). opt_.
  destruct (next_ok cond _ x3 x6 w6 (BBinary NotEq v z) TInt32 [] _ I6 B6 Hc3 eq_refl) as (c & w7 & x7 & -> & I7 & B7 & V7 & G7); [ty_|done|]. opt_.
  destruct (block_ok _ x7 w7 (Some "%while_body") I7 eq_refl) as (body & w8 & x8 & -> & I8 & N8 & Bs8 & Vs8 & L8 & M8). opt_.
  destruct (block_ok _ x8 w8 (Some "%while_end") I8 eq_refl) as (last & w9 & x9 & -> & I9 & N9 & Bs9 & Vs9 & L9 & M9). opt_.
  assert (G8 : grows x7 x9).
  { constructor.
    - destruct M8 as (? & ? & ?), M9 as (? & ? & ?). split_and!; congruence.
    - by etrans.
    - rewrite Bs9. etrans; [|by apply insert_subseteq]. rewrite Bs8. by apply insert_subseteq.
    - exists []. by rewrite app_nil_r, L9, L8.
    - intros e es He. exists []. by rewrite app_nil_r, L9, L8. }
  assert (Hc9 : find_bb cond (w_lay x9) = Some [l; v; c]) by (rewrite L9, L8; exact (in_here _ _ _ _ B7 _ Hc3)).
  assert (Hbody : is_Some (w_bbs x9 !! body)) by (rewrite Bs9; apply lookup_insert_is_Some'; right; rewrite Bs8, lookup_insert; eauto).
  assert (Hlast : is_Some (w_bbs x9 !! last)) by (rewrite Bs9, lookup_insert; eauto).
  destruct (next_ok cond _ x9 x9 w9 (BBranch c body last) TUnit [l; v; c] [] I9 (inb_refl _ _) Hc9 eq_refl) as (br & w10 & x10 & -> & I10 & B10 & V10 & G10).
  { eapply T_branch; [eapply e_ty_valt; [exact I9|vals_]|by eapply args_none|by eapply args_none|done]. } { done. } opt_.
  assert (Bs7 : w_bbs x7 = w_bbs x2) by (rewrite (in_bbs _ _ _ _ B7), (in_bbs _ _ _ _ B3); done).
  assert (Hx7 : ∀ e, w_bbs x7 !! e = None → find_bb e (w_lay x7) = None).
  { intros e He. apply find_bb_none. intros Hin. apply (bf_blocks _ _ _ I7) in Hin as [? ?]. congruence. }
  assert (Hcl : cond ≠ body) by (intros ->; rewrite Bs7 in N8; rewrite N8 in Hc2; by destruct Hc2).
  assert (N9' : w_bbs x7 !! last = None).
  { rewrite Bs8 in N9. apply lookup_insert_None in N9 as [? ?]. done. }
  assert (Hcl2 : cond ≠ last) by (intros ->; rewrite Bs7 in N9'; rewrite N9' in Hc2; by destruct Hc2).
  assert (Hbl : body ≠ last) by (intros ->; rewrite Bs8, lookup_insert in N9; done).
  assert (Hbody10 : find_bb body (w_lay x10) = None) by (rewrite (in_other _ _ _ _ B10), L9, L8 by done; by apply Hx7).
  assert (Hlast10 : find_bb last (w_lay x10) = None) by (rewrite (in_other _ _ _ _ B10), L9, L8 by done; by apply Hx7).
  destruct (push_bb_ok _ x10 w10 body I10 Hbody10) as (w11 & x11 & H11 & I11 & Bs11 & Vs11 & L11 & M11); [by rewrite (in_bbs _ _ _ _ B10)|].
  rewrite H11. opt_.
  assert (G11 : grows x10 x11).
  { constructor; [done|by rewrite Vs11|by rewrite Bs11| |].
    - exists [body]. by rewrite L11, map_app.
    - intros e es He. exists []. by rewrite L11, find_app, He, app_nil_r. }
  assert (Hb7 : find_bb b (w_lay x7) = Some (is ++ [j])).
  { rewrite (in_other _ _ _ _ B7) by done. exact (in_here _ _ _ _ B3 _ Hb2). }
  assert (Hbb : body ≠ b) by (intros ->; rewrite (Hx7 _ N8) in Hb7; done).
  exists body, cond, last, w11, x11, j, l, v, z, c, br. split_and!; [done|done| | | |vals_| |vals_..| | | | | |].
  - repeat (eapply grows_trans; [eassumption|]). apply grows_refl.
  - intros e He Hne. rewrite L11, find_app.
    assert (Hec : e ≠ cond) by (intros ->; rewrite N2 in He; by destruct He).
    assert (Hx : find_bb e (w_lay x10) = find_bb e (w_lay x)).
    { rewrite (in_other _ _ _ _ B10) by done. rewrite L9, L8. rewrite (in_other _ _ _ _ B7) by done. rewrite (in_other _ _ _ _ B3) by done.
      rewrite L2, find_app. simpl. destruct (N.eqb_spec cond e); [by subst|]. by destruct (find_bb e (w_lay x)). }
    rewrite Hx. destruct (find_bb e (w_lay x)) eqn:E; [done|]. simpl. destruct (N.eqb_spec body e) as [->|]; [|done].
    apply (some_sub _ _ _ (g_bbs _ _ G2)) in He. rewrite Bs7 in N8. rewrite N8 in He. by destruct He.
  - rewrite L11, find_app, (in_other _ _ _ _ B10) by done. by rewrite L9, L8, Hb7.
  - rewrite L11, find_app, (in_here _ _ _ _ B10 _ Hc9). done.
  - rewrite L11, find_app, Hbody10. simpl. by rewrite N.eqb_refl.
  - rewrite L11, find_app, Hlast10. simpl. by destruct (N.eqb_spec body last).
  - rewrite Bs11, (in_bbs _ _ _ _ B10). apply (some_sub _ _ _ (g_bbs _ _ G8)). by rewrite Bs7.
  - by rewrite Bs11, (in_bbs _ _ _ _ B10).
  - by rewrite Bs11, (in_bbs _ _ _ _ B10).
  - apply eq_None_not_Some. intros He. apply (some_sub _ _ _ (g_bbs _ _ G2)) in He. rewrite Bs7 in N9'. rewrite N9' in He. by destruct He.
Qed.
Lemma end_ok b k x w cond last is : bfi (1 + k) x w → find_bb b (w_lay x) = Some is → is_Some (w_bbs x !! cond) →
  is_Some (w_bbs x !! last) → find_bb last (w_lay x) = None →
  ∃ w' x' j, bf_end env b (cond, last) w = Some w' ∧ bfi k x' w' ∧ grows x x' ∧ same_but (λ e, e = b ∨ e = last) x x' ∧
    find_bb b (w_lay x') = Some (is ++ [j]) ∧ valt x' j TUnit (KJump cond []) ∧ find_bb last (w_lay x') = Some [].
Proof.
  intros I Hb Hc Hl Hn. unfold bf_end. opt_. cbn [fst snd].
  destruct (next_ok b _ x x w (BJump cond) TUnit is [] I (inb_refl _ _) Hb eq_refl) as (j & w1 & x1 & -> & I1 & B1 & V1 & G1);
    [eapply T_jump; by eapply args_none|done|]. opt_.
  assert (Hbl : last ≠ b) by (intros ->; congruence).
  assert (Hn1 : find_bb last (w_lay x1) = None) by (by rewrite (in_other _ _ _ _ B1)).
  destruct (push_bb_ok _ x1 w1 last I1 Hn1) as (w2 & x2 & H2 & I2 & Bs2 & Vs2 & L2 & M2); [by rewrite (in_bbs _ _ _ _ B1)|].
  exists w2, x2, j. split_and!; [done|done| | | | |].
  - eapply grows_trans; [exact G1|]. constructor; [done|by rewrite Vs2|by rewrite Bs2| |].
    + exists [last]. by rewrite L2, map_app.
    + intros e es He. exists []. by rewrite L2, find_app, He, app_nil_r.
  - intros e He Hne. rewrite L2, find_app, (in_other _ _ _ _ B1) by tauto. destruct (find_bb e (w_lay x)); [done|]. simpl.
    destruct (N.eqb_spec last e) as [->|]; [|done]. destruct Hne. by right.
  - by rewrite L2, find_app, (in_here _ _ _ _ B1 _ Hb).
  - destruct V1 as [n V1]. exists n. by rewrite Vs2.
  - rewrite L2, find_app, Hn1. simpl. by rewrite N.eqb_refl.
Qed.

(** ** Texts *)
(** A branch goes to the block after the loop. *)
Definition awaits (x : fview) (i : bblock * bblock) : Prop :=
  ∃ is br c body, find_bb i.1 (w_lay x) = Some is ∧ br ∈ is ∧ valt x br TUnit (KBranch c body i.2 [] []).
Lemma awaits_grows x x' i : grows x x' → awaits x i → awaits x' i.
Proof.
  intros G (is & br & c & body & H1 & H2 & H3). destruct (g_lay _ _ G _ _ H1) as [r Hr]. exists (is ++ r), br, c, body. split_and!; [done| |by eapply valt_grows].
  apply elem_of_app. by left.
Qed.
Record st (k : N) (x : fview) (s : bfstate) : Prop := {
  st_i : bfi k x (bf_world s);
  st_ptr : ptrv x;
  st_bb : is_Some (find_bb (bf_bb s) (w_lay x));
  st_loops : ∀ i, i ∈ bf_loops s → is_Some (w_bbs x !! i.1) ∧ is_Some (w_bbs x !! i.2) ∧ find_bb i.2 (w_lay x) = None ∧ awaits x i;
  st_nodup : NoDup (map snd (bf_loops s));
}.
Lemma st_mono k k' x s : (k' ≤ k)%N → st k x s → st k' x s.
Proof. intros Hk [A B C D]. constructor; try done. by eapply bfi_mono. Qed.
Lemma laid_there k x w b : bfi k x w → is_Some (find_bb b (w_lay x)) → is_Some (w_bbs x !! b).
Proof.
  intros I H. apply (bf_blocks _ _ _ I). destruct (decide (b ∈ map fst (w_lay x))) as [|Hn]; [done|].
  apply find_bb_none in Hn. rewrite Hn in H. by destruct H.
Qed.
Definition acted (c : ascii) (k : N) (x : fview) (s s' : bfstate) (x' : fview) : Prop :=
  bf_byte env c s = BfOk s' ∧ st k x' s' ∧ grows x x'.
Lemma letter_ok c kk k x s is : letter c kk → st (9 + k) x s → find_bb (bf_bb s) (w_lay x) = Some is →
  ∃ s' x' es, acted c k x s s' x' ∧ bf_bb s' = bf_bb s ∧ bf_loops s' = bf_loops s ∧
    find_bb (bf_bb s) (w_lay x') = Some (is ++ es) ∧ ∀ fd, later x' fd → emitted fd ptr putc getc kk es.
Proof.
  intros Hc [I P Hb Hl Hd] His.
  assert (H : ∃ o w' x' es, bf_byte env c s = bf_stay s o ∧ o = Some w' ∧ bfi k x' w' ∧ inb (bf_bb s) es x x' ∧
    ∀ fd, later x' fd → emitted fd ptr putc getc kk es).
  { assert (I5 : bfi (1 + (1 + (1 + (1 + (1 + k))))) x (bf_world s)) by (eapply bfi_mono; [|exact I]; lia).
    assert (I4 : bfi (1 + (1 + (1 + (1 + k)))) x (bf_world s)) by (eapply bfi_mono; [|exact I]; lia).
    assert (I3 : bfi (1 + (1 + (1 + k))) x (bf_world s)) by (eapply bfi_mono; [|exact I]; lia).
    destruct Hc.
    - destruct (ptr_op_ok _ _ _ _ 1 _ I4 P His) as (w' & x' & es & H). by exists (bf_ptr_op env (bf_bb s) 1 (bf_world s)), w', x', es.
    - destruct (ptr_op_ok _ _ _ _ (-1) _ I4 P His) as (w' & x' & es & H). by exists (bf_ptr_op env (bf_bb s) (-1) (bf_world s)), w', x', es.
    - destruct (data_op_ok _ _ _ _ 1 _ I5 P His) as (w' & x' & es & H). by exists (bf_data_op env (bf_bb s) 1 (bf_world s)), w', x', es.
    - destruct (data_op_ok _ _ _ _ (-1) _ I5 P His) as (w' & x' & es & H). by exists (bf_data_op env (bf_bb s) (-1) (bf_world s)), w', x', es.
    - destruct (put_ok _ _ _ _ _ I3 P His) as (w' & x' & es & H). by exists (bf_put env (bf_bb s) (bf_world s)), w', x', es.
    - destruct (get_ok _ _ _ _ _ I3 P His) as (w' & x' & es & H). by exists (bf_get env (bf_bb s) (bf_world s)), w', x', es. }
  destruct H as (o & w' & x' & es & H1 & -> & I' & B' & He). exists (BfState (bf_bb s) (bf_loops s) w'), x', es.
  pose proof (inb_grows _ _ _ _ B') as G. split_and!; [|done|done|by apply B'|done].
  split; [exact H1|]. split; [|done]. constructor; simpl; [done|by eapply valt_grows| | |done].
  - rewrite (in_here _ _ _ _ B' _ His). eauto.
  - intros i Hi. destruct (Hl i Hi) as (A1 & A2 & A3 & A4). rewrite (in_bbs _ _ _ _ B'). split_and!; [done..| |by eapply awaits_grows].
    rewrite (in_other _ _ _ _ B'); [done|]. intros E. rewrite E in A3. congruence.
Qed.
Lemma open_ok k x s is : st (9 + k) x s → find_bb (bf_bb s) (w_lay x) = Some is →
  ∃ s' x' j cond last, acted "[" k x s s' x' ∧ bf_loops s' = (cond, last) :: bf_loops s ∧
    find_bb (bf_bb s) (w_lay x') = Some (is ++ [j]) ∧ find_bb (bf_bb s') (w_lay x') = Some [] ∧
    ∀ fd, later x' fd → kd fd j TUnit (KJump cond []) ∧ tested fd ptr cond (bf_bb s') last.
Proof.
  intros [I P Hb Hl Hd] His.
  assert (I9 : bfi (1 + (1 + (1 + (1 + (1 + (1 + (1 + (1 + (1 + k))))))))) x (bf_world s)) by (eapply bfi_mono; [|exact I]; lia).
  destruct (start_ok _ _ _ _ _ I9 P His (laid_there _ _ _ _ I Hb)) as (body & cond & last & w' & x' & j & l & v & z & c & br &
    H1 & I' & G & S1 & Hb' & Vj & Hc & Vl & Vv & Vz & Vc & Vbr & Hbody & Hlast & Sc & Sb & Sl & Nl).
  exists (BfState body ((cond, last) :: bf_loops s) w'), x', j, cond, last. split_and!; [|done..|].
  - split; [by unfold bf_byte; cbn -[bf_start]; rewrite H1|]. split; [|done]. constructor; simpl; [done|by eapply valt_grows|eauto| |].
    + intros i [->|Hi]%elem_of_cons.
      { split_and!; [done..|]. exists [l; v; c; br], br, c, body. split_and!; [done| |done]. do 3 right. by left. }
      destruct (Hl i Hi) as (A1 & A2 & A3 & A4). split_and!; [..|by eapply awaits_grows].
      * by apply (some_sub _ _ _ (g_bbs _ _ G)).
      * by apply (some_sub _ _ _ (g_bbs _ _ G)).
      * rewrite S1; [done..|]. intros E. rewrite E in A3. congruence.
    + apply list.NoDup_cons. split; [|done]. intros Hin. apply elem_of_list_fmap in Hin as (i & -> & Hi). destruct (Hl i Hi) as (A1 & A2 & A3 & A4).
      rewrite Nl in A2. by destruct A2.
  - intros fd L. split; [by eapply later_kd|]. destruct (later_bl _ _ _ _ L Hc Sc) as [r Hr]. exists l, v, z, c, br, r. split; [done|].
    split_and!; by eapply later_kd.
Qed.
Lemma close_ok k x s is cond last loops : st (9 + k) x s → find_bb (bf_bb s) (w_lay x) = Some is → bf_loops s = (cond, last) :: loops →
  ∃ s' x' j, acted "]" k x s s' x' ∧ bf_loops s' = loops ∧ bf_bb s' = last ∧
    find_bb (bf_bb s) (w_lay x') = Some (is ++ [j]) ∧ find_bb last (w_lay x') = Some [] ∧
    ∀ fd, later x' fd → kd fd j TUnit (KJump cond []).
Proof.
  intros [I P Hb Hl Hd] His E. rewrite E in Hl, Hd.
  assert (I1 : bfi (1 + k) x (bf_world s)) by (eapply bfi_mono; [|exact I]; lia).
  destruct (Hl (cond, last)) as (A1 & A2 & A3 & A4); [by left|]. simpl in A1, A2, A3.
  destruct (end_ok _ _ _ _ _ _ _ I1 His A1 A2 A3) as (w' & x' & j & H1 & I' & G & S1 & Hb' & Vj & Hlast).
  exists (BfState last loops w'), x', j. split_and!; [|done..|].
  - split; [by unfold bf_byte; cbn -[bf_end]; rewrite E, H1|]. split; [|done]. constructor; simpl; [done|by eapply valt_grows|eauto| |].
    + intros i Hi. destruct (Hl i) as (C1 & C2 & C3 & C4); [by right|]. split_and!; [..|by eapply awaits_grows].
      * by apply (some_sub _ _ _ (g_bbs _ _ G)).
      * by apply (some_sub _ _ _ (g_bbs _ _ G)).
      * rewrite S1; [done..|]. intros [E'|E']; [rewrite E' in C3; congruence|].
        apply list.NoDup_cons in Hd as [Hd _]. apply Hd. rewrite <- E'. apply elem_of_list_fmap. by exists i.
    + by apply list.NoDup_cons in Hd as [_ Hd].
  - intros fd L. by eapply later_kd.
Qed.
Lemma bytes_app a b s : bf_bytes env (a ++ b) s = bf_then (bf_bytes env a s) (bf_bytes env b).
Proof. revert s. induction a as [|c a IH]; intros s; simpl; [done|]. destruct (bf_byte env c s); simpl; [apply IH|done..]. Qed.
Lemma comment_byte c s : comment c → bf_byte env c s = BfOk s.
Proof.
  intros (H1 & H2 & H3). unfold bf_byte.
  destruct (Ascii.eqb_spec c ">") as [->|_]; [destruct (H3 _ l_right)|]. destruct (Ascii.eqb_spec c "<") as [->|_]; [destruct (H3 _ l_left)|].
  destruct (Ascii.eqb_spec c "+") as [->|_]; [destruct (H3 _ l_plus)|]. destruct (Ascii.eqb_spec c "-") as [->|_]; [destruct (H3 _ l_minus)|].
  destruct (Ascii.eqb_spec c "[") as [|_]; [done|]. destruct (Ascii.eqb_spec c "]") as [|_]; [done|].
  destruct (Ascii.eqb_spec c ".") as [->|_]; [destruct (H3 _ l_out)|]. destruct (Ascii.eqb_spec c ",") as [->|_]; [destruct (H3 _ l_in)|]. done.
Qed.
Lemma classify c : (∃ k, letter c k) ∨ c = "["%char ∨ c = "]"%char ∨ comment c.
Proof.
  destruct (Ascii.eqb_spec c ">") as [->|n1]; [left; eexists; constructor|]. destruct (Ascii.eqb_spec c "<") as [->|n2]; [left; eexists; constructor|].
  destruct (Ascii.eqb_spec c "+") as [->|n3]; [left; eexists; constructor|]. destruct (Ascii.eqb_spec c "-") as [->|n4]; [left; eexists; constructor|].
  destruct (Ascii.eqb_spec c ".") as [->|n5]; [left; eexists; constructor|]. destruct (Ascii.eqb_spec c ",") as [->|n6]; [left; eexists; constructor|].
  destruct (Ascii.eqb_spec c "[") as [|n7]; [by right; left|]. destruct (Ascii.eqb_spec c "]") as [|n8]; [by right; right; left|].
  right; right; right. split_and!; [done..|]. intros k Hk. by destruct Hk.
Qed.
Lemma count_letter c k : letter c k → c ≠ "["%char ∧ c ≠ "]"%char.
Proof. by destruct 1. Qed.
Lemma count_cons c d a : count c (d :: a) = (if decide (d = c) then 1 else 0) + count c a.
Proof. unfold count. rewrite filter_cons. by case_decide. Qed.
Lemma byte_ok c k x s : st (9 + k) x s →
  (c = "]"%char ∧ bf_loops s = [] ∧ bf_byte env c s = BfParse) ∨
  ∃ s' x', acted c k x s s' x' ∧ count "]" [c] + length (bf_loops s') = count "[" [c] + length (bf_loops s).
Proof.
  intros H. destruct (st_bb _ _ _ H) as [is His]. destruct (classify c) as [[kk Hk]|[-> |[-> |Hc]]].
  - right. destruct (letter_ok _ _ _ _ _ _ Hk H His) as (s' & x' & es & A & _ & El & _). exists s', x'. split; [done|].
    rewrite !count_cons, El. destruct (count_letter _ _ Hk). by rewrite !decide_False by done.
  - right. destruct (open_ok _ _ _ _ H His) as (s' & x' & j & cond & last & A & El & _). exists s', x'. split; [done|].
    rewrite El. done.
  - destruct (bf_loops s) as [|[cond last] loops] eqn:E.
    + left. split; [done|]. split; [done|]. unfold bf_byte. cbn. by rewrite E.
    + right. destruct (close_ok _ _ _ _ _ _ _ H His E) as (s' & x' & j & A & El & _). exists s', x'. split; [done|]. rewrite El. done.
  - right. exists s, x. split; [split; [by apply comment_byte|]; split; [|apply grows_refl]|].
    + eapply st_mono; [|exact H]. lia.
    + destruct Hc as (? & ? & _). rewrite !count_cons. by rewrite !decide_False by done.
Qed.
Definition closes (n : nat) (s : list ascii) : Prop := ∀ a b, s = a ++ b → (count "]" a ≤ count "[" a + n)%nat.
Lemma closes_cons n m c s : count "]" [c] + m = count "[" [c] + n → closes n (c :: s) ↔ closes m s.
Proof.
  intros E. rewrite !count_cons in E. change (count _ []) with 0 in E. split; intros H a b Hs.
  - specialize (H (c :: a) b). rewrite !count_cons in H. rewrite Hs in H. specialize (H eq_refl). lia.
  - destruct a as [|d a]; simpl in Hs; [change (count _ []) with 0; lia|]. injection Hs as <- Hs. specialize (H a b Hs). rewrite !count_cons. lia.
Qed.
Lemma bytes_ok input : ∀ k x s, st (9 * N.of_nat (length input) + k) x s →
  (closes (length (bf_loops s)) input ∧ ∃ s' x', bf_bytes env input s = BfOk s' ∧ st k x' s' ∧ grows x x' ∧
    count "]" input + length (bf_loops s') = count "[" input + length (bf_loops s)) ∨
  (¬ closes (length (bf_loops s)) input ∧ bf_bytes env input s = BfParse).
Proof.
  induction input as [|c input IH]; intros k x s H.
  - left. split; [intros [|] ? E; [simpl; change (count _ []) with 0; lia|done]|]. exists s, x. split; [done|]. split; [|split; [apply grows_refl|done]].
    eapply st_mono; [|exact H]. lia.
  - assert (H' : st (9 + (9 * N.of_nat (length input) + k)) x s) by (eapply st_mono; [|exact H]; cbn [length]; lia).
    destruct (byte_ok c _ _ _ H') as [(-> & El & Eb)|(s' & x' & (Eb & H1 & G1) & El)].
    + right. cbn [bf_bytes]. rewrite Eb, El. split; [|done]. intros Hc. specialize (Hc ["]"%char] input eq_refl). compute in Hc. lia.
    + cbn [bf_bytes]. rewrite Eb. cbn [bf_then]. rewrite (closes_cons _ _ _ _ El).
      destruct (IH _ _ _ H1) as [(Hc & s2 & x2 & E2 & H2 & G2 & N2)|(Hc & E2)]; [left|by right].
      split; [done|]. exists s2, x2. split_and!; [done..|by eapply grows_trans|].
      rewrite !(count_cons _ c), ?count_cons in *. change (count _ []) with 0 in El. lia.
Qed.
Lemma spells_ok text cs : spells text cs → ∀ k x s is, st (9 * N.of_nat (length text) + k) x s → find_bb (bf_bb s) (w_lay x) = Some is →
  ∃ s' x' is1, bf_bytes env text s = BfOk s' ∧ st k x' s' ∧ grows x x' ∧ bf_loops s' = bf_loops s ∧
    find_bb (bf_bb s') (w_lay x') = Some is1 ∧
    ∀ fd, later x' fd → ∀ r, find_bb (bf_bb s) (l_bbs (f_layout fd)) = Some (is ++ r) →
      ∃ r', find_bb (bf_bb s') (l_bbs (f_layout fd)) = Some (is1 ++ r') ∧ code fd ptr putc getc cs r r'.
Proof.
  induction 1 as [|c kk text cs Hc _ IH|c text cs Hc _ IH|b body text cs _ IHb _ IH]; intros k x s is H His.
  - exists s, x, is. split_and!; [done| |apply grows_refl|done|done|].
    + eapply st_mono; [|exact H]. lia.
    + intros fd L r Hr. exists r. split; [done|constructor].
  - assert (H' : st (9 + (9 * N.of_nat (length text) + k)) x s) by (eapply st_mono; [|exact H]; cbn [length]; lia).
    destruct (letter_ok _ _ _ _ _ _ Hc H' His) as (s1 & x1 & es & (E1 & H1 & G1) & Eb & El & Hb1 & He).
    rewrite <- Eb in Hb1. destruct (IH _ _ _ _ H1 Hb1) as (s2 & x2 & is2 & E2 & H2 & G2 & El2 & Hb2 & HC).
    exists s2, x2, is2. split_and!; [|done| |congruence|done|].
    + cbn [bf_bytes]. by rewrite E1.
    + by eapply grows_trans.
    + intros fd L r Hr. assert (L1 : later x1 fd) by (by eapply later_weak).
      destruct (g_lay _ _ (lt_grows _ _ L1) _ _ Hb1) as [r1 Hr1]. simpl in Hr1. rewrite Eb, Hr in Hr1. injection Hr1 as Hr1.
      rewrite <- app_assoc in Hr1. apply app_inv_head in Hr1 as ->. rewrite app_assoc, <- Eb in Hr.
      destruct (HC fd L _ Hr) as (r' & Hr' & HC'). exists r'. split; [done|]. eapply c_act; [exact Hc|by apply He|done].
  - assert (H' : st (9 * N.of_nat (length text) + k) x s) by (eapply st_mono; [|exact H]; cbn [length]; lia).
    destruct (IH _ _ _ _ H' His) as (s' & x' & is1 & E1 & R). exists s', x', is1. split; [|done].
    cbn [bf_bytes]. rewrite comment_byte by done. done.
  - set (nt := N.of_nat (length text)) in *.
    assert (H' : st (9 + (9 * N.of_nat (length b) + (9 + (9 * nt + k)))) x s).
    { eapply st_mono; [|exact H]. cbn [length]. rewrite app_length. cbn [length]. subst nt. lia. }
    destruct (open_ok _ _ _ _ H' His) as (s1 & x1 & j & cond & last & (E1 & H1 & G1) & El1 & Hb1 & Hb1' & HO).
    destruct (IHb _ _ _ _ H1 Hb1') as (s2 & x2 & is2 & E2 & H2 & G2 & El2 & Hb2 & HC2). rewrite El1 in El2.
    destruct (close_ok _ _ _ _ _ _ _ H2 Hb2 El2) as (s3 & x3 & j2 & (E3 & H3 & G3) & El3 & Eb3 & Hb3 & Hl3 & HJ).
    rewrite <- Eb3 in Hl3.
    destruct (IH _ _ _ _ H3 Hl3) as (s4 & x4 & is4 & E4 & H4 & G4 & El4 & Hb4 & HC4).
    exists s4, x4, is4. split_and!; [|done| |congruence|done|].
    + cbn [bf_bytes]. rewrite E1. cbn [bf_then]. rewrite bytes_app, E2. cbn [bf_then bf_bytes]. rewrite E3. done.
    + eapply grows_trans; [exact G1|]. eapply grows_trans; [exact G2|]. by eapply grows_trans.
    + intros fd L r Hr.
      assert (L3 : later x3 fd) by (by eapply later_weak). assert (L2 : later x2 fd) by (by eapply later_weak).
      assert (L1 : later x1 fd) by (by eapply later_weak).
      destruct (HO fd L1) as [Kj HT].
      destruct (g_lay _ _ (lt_grows _ _ L1) _ _ Hb1) as [r1 Hr1]. simpl in Hr1. rewrite Hr in Hr1. injection Hr1 as Hr1.
      rewrite <- app_assoc in Hr1. apply app_inv_head in Hr1 as ->.
      destruct (later_bl _ _ _ _ L1 Hb1') as [isb Hisb]; [eapply laid_there; [apply H1|by rewrite Hb1']|]. simpl in Hisb.
      destruct (HC2 fd L2 isb) as (r2 & Hr2 & HCb); [by destruct Hisb|].
      destruct (g_lay _ _ (lt_grows _ _ L3) _ _ Hb3) as [r3 Hr3]. simpl in Hr3. rewrite Hr2 in Hr3. injection Hr3 as Hr3.
      rewrite <- app_assoc in Hr3. apply app_inv_head in Hr3 as ->.
      destruct (later_bl _ _ _ _ L3 Hl3) as [isl Hisl]; [eapply laid_there; [apply H3|by rewrite Hl3]|]. simpl in Hisl.
      destruct (HC4 fd L isl) as (r4 & Hr4 & HCc); [by destruct Hisl|].
      exists r4. split; [done|]. rewrite Eb3 in Hisl. eapply c_loop; [exact Kj|exact HT|exact Hisb|exact HCb|by apply HJ|exact Hisl|exact HCc].
Qed.
Lemma name_ok k x w v n y : bfi k x w → w_vals x !! v = Some y → valid_opt_name n = true →
  ∃ w', w_name_local f v n w = Some w' ∧ bfi k (set_wvals x (<[v := (n, y.2)]> (w_vals x))) w'.
Proof.
  intros I Hv Hn. pose proof (bf_view _ _ _ I) as Hf. rewrite lookup_fmap in Hf. apply fmap_Some in Hf as (fd & Hf & Ex).
  assert (Hw : ∃ w', w_name_local f v n w = Some w' ∧ w_ids w' = w_ids w).
  { rewrite Ex in Hv. simpl in Hv. rewrite lookup_fmap in Hv. apply fmap_Some in Hv as (d & Hd & _).
    unfold w_name_local, on_dfg. rewrite Hf. simpl. unfold dfg_set_value_name. rewrite Hd. simpl. unfold set_name. rewrite Hn. simpl. by eexists. }
  destruct Hw as (w' & Hw & Hi). pose proof (room_op_ _ _ _ _ Hw (bf_room _ _ _ I)) as R.
  pose proof Hw as Hvw. apply view_name_local in Hvw as (x1 & y1 & HO & Hv1). pose proof (proj1 HO) as Hx. rewrite (bf_view _ _ _ I) in Hx.
  injection Hx as <-. rewrite Hv in Hv1. injection Hv1 as <-. exists w'. split; [done|].
  pose proof (only_after _ _ _ _ _ HO) as Ha. pose proof (only_fts _ _ _ _ HO eq_refl) as Hft. destruct I as [I1 I2 I3 I4 I5 I6 I7 I8 I9]. constructor; try done.
  - by rewrite Hi.
  - destruct HO as (_ & _ & HO & _). congruence.
  - congruence.
  - intros b is u H1 H2. simpl. apply lookup_insert_is_Some'. right. by eapply I6.
  - by eapply only_rest.
Qed.
(** ** The blocks around the text *)
Lemma first_ok entry k x w is : bfi (1 + (1 + k)) x w → ptrv x → w_lay x = [(entry, is)] →
  ∃ s x' j, bf_first env entry w = Some s ∧ st k x' s ∧ grows x x' ∧ bf_loops s = [] ∧ map fst (w_lay x') = [entry; bf_bb s] ∧
    find_bb entry (w_lay x') = Some (is ++ [j]) ∧ valt x' j TUnit (KJump (bf_bb s) []) ∧ find_bb (bf_bb s) (w_lay x') = Some [].
Proof.
  intros I P HL. unfold bf_first. opt_.
  destruct (laid_block_ok _ x w None I eq_refl) as (b & w1 & w2 & x2 & -> & H2 & I2 & N2 & Bs2 & G2 & L2 & F2). opt_. rewrite H2. opt_.
  assert (Hne : b ≠ entry) by (intros ->; rewrite HL in F2; simpl in F2; by rewrite N.eqb_refl in F2).
  assert (He : find_bb entry (w_lay x2) = Some is) by (rewrite L2, HL; simpl; by rewrite N.eqb_refl).
  assert (Hs : is_Some (w_bbs x2 !! b)) by (rewrite Bs2, lookup_insert; eauto).
  destruct (next_ok entry _ x2 x2 w2 (BJump b) TUnit is [] I2 (inb_refl _ _) He eq_refl) as (j & w3 & x3 & -> & I3 & B3 & V3 & G3);
    [eapply T_jump; by eapply args_none|done|]. opt_.
  assert (Hb : find_bb b (w_lay x3) = Some []).
  { rewrite (in_other _ _ _ _ B3) by done. rewrite L2, HL. simpl. destruct (N.eqb_spec entry b); [by subst|]. by rewrite N.eqb_refl. }
  exists (BfState b [] w3), x3, j. split_and!; try done.
  - constructor; simpl; [done|by eapply valt_grows; [|eapply valt_grows]|rewrite Hb; eauto|intros i Hi; inversion Hi|constructor].
  - by eapply grows_trans.
  - rewrite (in_keys _ _ _ _ B3), L2, HL. done.
  - exact (in_here _ _ _ _ B3 _ He).
Qed.
Lemma epilogue_ok zero k x s is : st (1 + (1 + (1 + k))) x s → find_bb (bf_bb s) (w_lay x) = Some is → valt x zero TInt32 (KInteger 0) →
  ∃ w' x' last j rt, bf_epilogue env (bf_bb s) zero (bf_world s) = Some w' ∧ bfi k x' w' ∧ grows x x' ∧
    find_bb (bf_bb s) (w_lay x') = Some (is ++ [j]) ∧ valt x' j TUnit (KJump last []) ∧
    find_bb last (w_lay x') = Some [rt] ∧ valt x' rt TUnit (KReturn (Some zero)) ∧ is_Some (w_bbs x' !! last) ∧
    ∀ e, is_Some (w_bbs x !! e) → find_bb e (w_lay x) = None → find_bb e (w_lay x') = None.
Proof.
  intros H His Hz. destruct H as [I P Hb Hl Hd]. unfold bf_epilogue. opt_.
  destruct (laid_block_ok _ x _ (Some "%end") I eq_refl) as (b & w1 & w2 & x2 & -> & H2 & I2 & N2 & Bs2 & G2 & L2 & F2). opt_. rewrite H2. opt_.
  assert (Hne : b ≠ bf_bb s) by (intros ->; congruence).
  assert (He : find_bb (bf_bb s) (w_lay x2) = Some is) by (by rewrite L2, find_app, His).
  assert (Hs : is_Some (w_bbs x2 !! b)) by (rewrite Bs2, lookup_insert; eauto).
  destruct (next_ok (bf_bb s) _ x2 x2 w2 (BJump b) TUnit is [] I2 (inb_refl _ _) He eq_refl) as (j & w3 & x3 & -> & I3 & B3 & V3 & G3);
    [eapply T_jump; by eapply args_none|done|]. opt_.
  assert (Hb3 : find_bb b (w_lay x3) = Some []).
  { rewrite (in_other _ _ _ _ B3) by done. rewrite L2, find_app, F2. simpl. by rewrite N.eqb_refl. }
  destruct (next_ok b _ x3 x3 w3 (BRet (Some zero)) TUnit [] [] I3 (inb_refl _ _) Hb3 eq_refl) as (rt & w4 & x4 & -> & I4 & B4 & V4 & G4).
  { eapply T_return; [eapply e_ty_valt; [exact I3|vals_]|done]. } { done. } opt_.
  exists w4, x4, b, j, rt. split_and!; [done|done| | |vals_|exact (in_here _ _ _ _ B4 _ Hb3)|done| |].
  - eapply grows_trans; [exact G2|]. by eapply grows_trans.
  - rewrite (in_other _ _ _ _ B4) by done. exact (in_here _ _ _ _ B3 _ He).
  - by rewrite (in_bbs _ _ _ _ B4), (in_bbs _ _ _ _ B3).
  - intros e He' Hn. assert (e ≠ b) by (intros ->; rewrite N2 in He'; by destruct He'). assert (e ≠ bf_bb s) by (intros ->; congruence).
    rewrite (in_other _ _ _ _ B4), (in_other _ _ _ _ B3), L2, find_app, Hn by done. simpl. destruct (N.eqb_spec b e); [by subst|done].
Qed.
End build.

Section whole.
Context (f : func) (Gs : views) (Fs : gmap N ty) (Rs : gmap N fview) (Ls Os : list N) (g putc getc : func) (nm : option string) (ki : vkind).
Context (HFp : Fs !! putc = Some (TFun [TInt32] TInt32)) (HFg : Fs !! getc = Some (TFun [] TInt32)).
Context (HG : Gs !! g = Some (nm, (TPtr (TArray TInt32 65536), ki))).
Notation bfi := (bfi f Gs Fs Rs Ls Os).
Lemma prologue_ok k x w : bfi (1 + (1 + (1 + (1 + (1 + k))))) x w → w_lay x = [] →
  ∃ entry ptr zero dp s w' x', bf_prologue (BfEnv g putc getc f) w = Some (entry, ptr, zero, w') ∧ bfi k x' w' ∧ meta x x' ∧
    w_lay x' = [(entry, [ptr; dp; s])] ∧ valt x' ptr (TPtr (TPtr TInt32)) KAlloc ∧ valt x' zero TInt32 (KInteger 0) ∧
    valt x' dp (TPtr TInt32) (KGetElemPtr g zero) ∧ valt x' s TUnit (KStore dp ptr) ∧ is_Some (w_bbs x' !! entry).
Proof.
  intros I HL. unfold bf_prologue. opt_.
  destruct (laid_block_ok _ _ _ _ _ _ _ x w (Some "%entry") I eq_refl) as (e & w1 & w2 & x2 & -> & H2 & I2 & N2 & Bs2 & G2 & L2 & F2). opt_. rewrite H2. opt_.
  rewrite HL in L2. simpl in L2.
  destruct (new_ok _ _ _ _ _ _ e _ x2 w2 (BAlloc (TPtr TInt32)) (TPtr (TPtr TInt32)) I2 eq_refl) as (ptr & w3 & x3 & -> & I3 & B3 & V3 & N3 & L3); [by constructor|done|]. opt_.
  destruct V3 as [n3 V3]. destruct (name_ok _ _ _ _ _ _ _ x3 w3 ptr (Some "%ptr") _ I3 V3 eq_refl) as (w4 & -> & I4). opt_.
  set (x4 := set_wvals _ _) in *.
  assert (V4 : valt x4 ptr (TPtr (TPtr TInt32)) KAlloc) by (eexists; simpl; rewrite lookup_insert; reflexivity).
  assert (L4 : w_lay x4 = [(e, [])]) by (simpl; congruence).
  assert (He4 : find_bb e (w_lay x4) = Some []) by (rewrite L4; simpl; by rewrite N.eqb_refl).
  destruct (push_ok _ _ _ _ _ _ _ x4 w4 e [] ptr I4 He4) as (w5 & x5 & H5 & I5 & B5 & Vs5); [destruct V4 as [? V4]; eauto|intros Hx; inversion Hx|].
  rewrite H5. opt_. assert (V5 : valt x5 ptr (TPtr (TPtr TInt32)) KAlloc) by (by eapply valt_inb).
  destruct (const_ok _ _ _ _ _ _ e _ x4 x5 w5 0 _ I5 B5) as (zero & w6 & x6 & -> & I6 & B6 & V6 & G6). opt_.
  assert (Hg : e_ty (venv Gs Fs x6) g = Some (TPtr (TArray TInt32 65536))) by (simpl; by rewrite (lookup_union_Some_l _ _ _ _ HG)).
  destruct (next_ok _ _ _ _ _ _ g putc getc e _ x4 x6 w6 (BGetElemPtr g zero) (TPtr TInt32) [] _ I6 B6 He4 eq_refl) as (dp & w7 & x7 & -> & I7 & B7 & V7 & G7).
  { eapply T_get_elem_ptr; [exact Hg|]. eapply e_ty_valt; [exact I6|exact V6]. } { done. } opt_.
  destruct (next_ok _ _ _ _ _ _ g putc getc e _ x4 x7 w7 (BStore dp ptr) TUnit [] _ I7 B7 He4 eq_refl) as (s & w8 & x8 & -> & I8 & B8 & V8 & G8).
  { eapply T_store; (eapply e_ty_valt; [exact I7|eauto using valt_grows]). } { done. } opt_.
  exists e, ptr, zero, dp, s, w8, x8. split_and!; [done|done| | |eauto using valt_grows..|].
  - assert (M4 : meta x x4).
    { destruct (g_meta _ _ G2) as (? & ? & ?), (in_meta _ _ _ _ B3) as (? & ? & ?). split_and!; simpl; congruence. }
    destruct M4 as (? & ? & ?), (in_meta _ _ _ _ B8) as (? & ? & ?). split_and!; congruence.
  - pose proof (in_keys _ _ _ _ B8) as Hk. pose proof (in_here _ _ _ _ B8 _ He4) as Hh. rewrite L4 in Hk. simpl in Hk.
    destruct (w_lay x8) as [|[b bs] [|]]; try done. injection Hk as ->. simpl in Hh. rewrite N.eqb_refl in Hh. by injection Hh as ->.
  - rewrite (in_bbs _ _ _ _ B8). simpl. rewrite (in_bbs _ _ _ _ B3), Bs2, lookup_insert. eauto.
Qed.
Notation cost text k := (1 + (1 + (1 + (1 + (1 + (1 + (1 + (9 * N.of_nat (length text) + (1 + (1 + (1 + k)))))))))))%N (only parsing).
(** The whole function *)
Definition whole (x' : fview) (cs : list cmd) : Prop :=
  ∃ entry l ptr zero dp s j r0 first r jl r1 last rt r2, map fst (w_lay x') = entry :: l ∧
    ∀ fd, fv fd = x' → (∀ v, is_Some (d_values (f_dfg fd) !! v) → is_global_id v = false) →
      bl fd entry (ptr :: dp :: s :: j :: r0) ∧ kd fd ptr (TPtr (TPtr TInt32)) KAlloc ∧ kd fd zero TInt32 (KInteger 0) ∧
      kd fd dp (TPtr TInt32) (KGetElemPtr g zero) ∧ kd fd s TUnit (KStore dp ptr) ∧ kd fd j TUnit (KJump first []) ∧
      bl fd first r ∧ code fd ptr putc getc cs r (jl :: r1) ∧ kd fd jl TUnit (KJump last []) ∧
      bl fd last (rt :: r2) ∧ kd fd rt TUnit (KReturn (Some zero)).
(** A branch to a block that is not laid *)
Definition lost (x : fview) : Prop :=
  ∃ b is br c body last, find_bb b (w_lay x) = Some is ∧ br ∈ is ∧ valt x br TUnit (KBranch c body last [] []) ∧
    is_Some (w_bbs x !! last) ∧ find_bb last (w_lay x) = None.
Lemma generate_ok text k x w : bfi (cost text k) x w → w_lay x = [] →
  (closes 0 text ∧ ∃ w' x', bf_generate (BfEnv g putc getc f) text w = BfOk w' ∧ bfi k x' w' ∧ meta x x' ∧
    (∀ cs, spells text cs → whole x' cs) ∧ (count "[" text = count "]" text ∨ lost x')) ∨
  (¬ closes 0 text ∧ bf_generate (BfEnv g putc getc f) text w = BfParse).
Proof.
  intros I HL. unfold bf_generate.
  destruct (prologue_ok _ _ _ I HL) as (entry & ptr & zero & dp & s & w1 & x1 & -> & I1 & M1 & L1 & Vp & Vz & Vd & Vs & Se).
  cbn [bf_need bf_then bf_putchar bf_getchar bf_main].
  destruct (first_ok _ _ _ _ _ _ ptr putc getc entry _ x1 w1 _ I1 Vp L1) as (s2 & x2 & j & -> & S2 & G2 & El2 & K2 & He2 & Vj & Hb2).
  cbn [bf_need bf_then].
  assert (HE : ∀ s3 x3, st f Gs Fs Rs Ls Os ptr (1 + (1 + (1 + k))) x3 s3 → grows x2 x3 →
    ∃ w' x' last jl rt is, bf_epilogue (BfEnv ptr putc getc f) (bf_bb s3) zero (bf_world s3) = Some w' ∧ bfi k x' w' ∧ grows x3 x' ∧
      find_bb (bf_bb s3) (w_lay x3) = Some is ∧ find_bb (bf_bb s3) (w_lay x') = Some (is ++ [jl]) ∧ valt x' jl TUnit (KJump last []) ∧
      find_bb last (w_lay x') = Some [rt] ∧ valt x' rt TUnit (KReturn (Some zero)) ∧ is_Some (w_bbs x' !! last) ∧
      ∀ e, is_Some (w_bbs x3 !! e) → find_bb e (w_lay x3) = None → find_bb e (w_lay x') = None).
  { intros s3 x3 S3 G3. destruct (st_bb _ _ _ _ _ _ _ _ _ _ S3) as [is His].
    destruct (epilogue_ok _ _ _ _ _ _ ptr putc getc zero k x3 s3 is S3 His) as (w' & x' & last & jl & rt & R);
      [by eapply valt_grows; [|eapply valt_grows]|]. exists w', x', last, jl, rt, is. by destruct R as (? & ? & ? & ?). }
  destruct (bytes_ok _ _ _ _ _ _ ptr putc getc HFp HFg text _ x2 s2 S2) as [(Hc & s3 & x3 & E3 & S3 & G3 & Hn3)|(Hc & E3)]; rewrite El2 in Hc; rewrite E3; cbn [bf_then];
    [left|right; by split].
  split; [done|]. destruct (HE _ _ S3 G3) as (w' & x' & last & jl & rt & is & -> & I' & G' & His & Hjl & Vjl & Hla & Vrt & Sla & Hno). cbn [bf_need].
  exists w', x'. split_and!; [done|done| | |].
  { destruct M1 as (? & ? & ?), (g_meta _ _ G2) as (? & ? & ?), (g_meta _ _ G3) as (? & ? & ?), (g_meta _ _ G') as (? & ? & ?). split_and!; congruence. }
  2: { rewrite El2 in Hn3. cbn [length] in Hn3. destruct (bf_loops s3) as [|[cond en] loops] eqn:El; [left; cbn [length] in Hn3; lia|right].
    destruct (st_loops _ _ _ _ _ _ _ _ _ _ S3 (cond, en)) as (_ & A2 & A3 & A4); [rewrite El; by left|].
    destruct (awaits_grows _ _ _ G' A4) as (is' & br & c & body & B1 & B2 & B3). exists cond, is', br, c, body, en. split_and!; [done..| |by apply Hno].
    by apply (some_sub _ _ _ (g_bbs _ _ G')). }
  intros cs Hsp.
  destruct (spells_ok _ _ _ _ _ _ ptr putc getc HFp HFg text cs Hsp _ x2 s2 [] S2 Hb2) as (s3' & x3' & is1 & E3' & S3' & G3' & El3 & Hb3 & HC).
  rewrite E3 in E3'. injection E3' as <-.
  (* both descriptions are of the same world *)
  assert (x3' = x3) as ->.
  { pose proof (bf_view _ _ _ _ _ _ _ _ _ (st_i _ _ _ _ _ _ _ _ _ _ S3)) as A. pose proof (bf_view _ _ _ _ _ _ _ _ _ (st_i _ _ _ _ _ _ _ _ _ _ S3')) as B. congruence. }
  rewrite His in Hb3. injection Hb3 as <-.
  assert (G23 : grows x2 x') by (by eapply grows_trans).
  assert (G13 : grows x1 x') by (by eapply grows_trans).
  destruct (g_lay _ _ G23 _ _ He2) as [r0 Hr0]. destruct (g_lay _ _ G23 _ _ Hb2) as [r Hr].
  destruct (g_keys _ _ G23) as [l Hl]. rewrite K2 in Hl.
  exists entry, (bf_bb s2 :: l), ptr, zero, dp, s, j, r0, (bf_bb s2), r, jl, [], last, rt, []. split; [exact Hl|].
  intros fd Ef Hloc.
  assert (L : later x' fd).
  { constructor; [done| |rewrite Ef; apply grows_refl]. intros b y Hy. apply (bf_nopars _ _ _ _ _ _ _ _ _ I' b (bb_name y, bb_params y)).
    rewrite <- Ef. simpl. by rewrite lookup_fmap, Hy. }
  assert (LL : l_bbs (f_layout fd) = w_lay x') by (by rewrite <- Ef).
  assert (bl_ : ∀ b is, find_bb b (w_lay x') = Some is → is_Some (w_bbs x' !! b) → bl fd b is).
  { intros b is' Hb Hs. destruct (later_bl _ _ _ _ L Hb Hs) as [r' [Hr' Hbd]]. split; [by rewrite LL|done]. }
  split_and!; try (eapply later_kd; [exact L|eauto using valt_grows]).
  - apply bl_; [exact Hr0|]. apply (some_sub _ _ _ (g_bbs _ _ G13)). done.
  - apply bl_; [exact Hr|]. apply (some_sub _ _ _ (g_bbs _ _ G23)). eapply laid_there; [apply S2|by rewrite Hb2].
  - destruct (HC fd (later_weak _ _ _ G' L) r) as (r' & Hr' & HC'); [rewrite LL; exact Hr|]. rewrite LL, Hjl in Hr'. injection Hr' as Hr'.
    apply app_inv_head in Hr' as <-. exact HC'.
  - by apply bl_.
Qed.
End whole.
