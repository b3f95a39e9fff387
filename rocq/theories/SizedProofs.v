(** Types that the front end puts into a program have no arrays of length 0 (C29). *)
From Coq Require Import Lia ZifyBool ZifyNat ZifyN.
From Verif Require Import Base IdModel TypeModel IrModel LayoutModel BuilderModel WorldModel
  LexerModel ParserModel ParserSpec FrontModel FrontProofs FlowSpec FlowProofs BlockListProofs
  CleanProofs BuildCleanProofs FunCleanProofs FlowBuildProofs DriverModel DriverSpec DriverProofs UsesSpec UsesProofs
  DfgSpec DfgProofs WorldSpec WorldProofs TypingSpec TypingProofs TypingHistory EqHistory SkelProofs ParamProofs HistoryProofs
  FaithSpec RoundProofs ViewProofs FaithProofs FaithFunProofs FaithTopProofs AcceptSpec.

(** ** Types *)
Definition sized (t : ty) : Prop := ∃ a, type_of a t.
Definition fsized (t : ty) : Prop := ∃ ts r, t = TFun ts r ∧ Forall sized ts ∧ (r = TUnit ∨ sized r).
Lemma gen_type_of a : ∀ t, gen_type a = Some t → type_of a t.
Proof.
  induction a as [|b n IH|b IH|ps r IHps IHr] using aty_ind'; intros t H; cbn [gen_type] in H.
  - injection H as <-. constructor.
  - apply bind_Some in H as (b' & Hb & H). unfold get_array in H. case_match eqn:E; [done|]. injection H as <-.
    constructor; [lia|]. by apply IH.
  - apply bind_Some in H as (b' & Hb & H). injection H as <-. constructor. by apply IH.
  - rewrite gen_types_eq in H. apply bind_Some in H as (ts & Hts & H). apply bind_Some in H as (t' & Ht' & H).
    injection H as <-.
    assert (Hl : Forall2 type_of ps ts).
    { clear -IHps Hts. revert ts Hts. induction IHps as [|a l Ha _ IH]; intros ts H; cbn [gen_types] in H; [injection H as <-; constructor|].
      apply bind_Some in H as (t & Ht & H). apply bind_Some in H as (ts' & Hts & H). injection H as <-.
      constructor; [by apply Ha|by apply IH]. }
    destruct r as [r|]; [|injection Ht' as <-; by constructor].
    apply to_fun; [done|]. by apply IHr.
Qed.
Lemma gen_type_sized a t : gen_type a = Some t → sized t.
Proof. intros H. exists a. by apply gen_type_of. Qed.
Lemma gen_ret_sized r t : gen_ret r = Some t → t = TUnit ∨ sized t.
Proof. destruct r; simpl; [right; by eapply gen_type_sized|intros [= <-]; by left]. Qed.
Lemma gen_types_sized l : ∀ ts, gen_types l = Some ts → Forall sized ts.
Proof.
  induction l as [|a l IH]; intros ts H; cbn [gen_types] in H; [injection H as <-; constructor|].
  apply bind_Some in H as (t & Ht & H). apply bind_Some in H as (ts' & Hts & H). injection H as <-.
  constructor; [by eapply gen_type_sized|by apply IH].
Qed.
Lemma gen_params_sized l : ∀ ps, gen_params l = Some ps → Forall sized (map snd ps).
Proof.
  induction l as [|[n a] l IH]; intros ps H; cbn [gen_params] in H; [injection H as <-; constructor|].
  apply bind_Some in H as (t & Ht & H). apply bind_Some in H as (ts' & Hts & H). injection H as <-.
  constructor; [by eapply gen_type_sized|by apply IH].
Qed.
Lemma type_of_denotes a : ∀ t, type_of a t → denotes a t.
Proof.
  induction a as [|b n IH|b IH|ps r IHps IHr] using aty_ind'; intros t H.
  1-3: inversion H; subst; constructor; auto.
  assert (Hl : ∀ ts, Forall2 type_of ps ts → Forall2 denotes ps ts).
  { clear -IHps. induction IHps as [|p ps Hp _ IH]; intros ts F1; inversion F1; subst; constructor; auto. }
  inversion H; subst; constructor; auto.
Qed.
Lemma sized_denotes a t : denotes a t → sized t → type_of a t.
Proof. intros H [a' H']. pose proof (type_of_denotes _ _ H'). by rewrite (denotes_inj _ _ _ H H0). Qed.
Lemma sized_ptr t : sized (TPtr t) ↔ sized t.
Proof. split; intros [a H]; [inversion H; subst; by eexists|eexists; by constructor]. Qed.
Lemma sized_arr t n : sized (TArray t n) ↔ n ≠ 0%N ∧ sized t.
Proof. split; [intros [a H]; inversion H; subst; split; [done|by eexists]|intros [? [a H]]; eexists; by constructor]. Qed.

(** ** Programs *)
Definition declares (k : vkind) : bool := match k with KAlloc | KFuncArg _ | KBlockArg _ => true | _ => false end.
Definition szf (x : fview) : Prop :=
  fsized (w_fty x) ∧ ∀ v o t k, w_vals x !! v = Some (o, (t, k)) → declares k = true → sized t.
Definition szw (w : world) : Prop :=
  (∀ v o t k, gvs w !! v = Some (o, (t, k)) → sized t) ∧ ∀ f x, fvs w !! f = Some x → szf x.
Lemma szw_only f x x' w w' : only f x x' w w' → (szf x → szf x') → szw w → szw w'.
Proof.
  intros (H1 & H2 & H3 & _) H [W1 W2]. split; [by rewrite H3|]. rewrite H2. intros g y [[<- <-]|[_ Hg]]%lookup_insert_Some; [|by eapply W2].
  apply H. by eapply W2.
Qed.
Class Sz {A} (m : F A) : Prop := sz : ∀ s a s', clean m s a s' → room 0 (b_world s) → szw (b_world s) → szw (b_world s').
#[local] Hint Extern 9 (Up _) => (cbn beta; case_match) : typeclass_instances.
#[global] Instance sz_bind {A B} (m : F A) (k : A → F B) : Up m → (∀ a, Up (k a)) → Ev m → Sz m → (∀ a, Sz (k a)) → Sz (mthen m k).
Proof.
  intros Um Uk He Hm Hk s b s' H R W. cb H as a s1 H1. eapply Hk; [exact H|by eapply room_clean|by eapply Hm].
Qed.
Lemma sz_still {A} (m : F A) : (∀ s, b_world (m s).2 = b_world s) → Sz m.
Proof. intros H s a s' [Hc _] R W. specialize (H s). rewrite Hc in H. simpl in H. by rewrite H. Qed.
#[global] Instance sz_ok {A} (a : A) : Sz (mok a).
Proof. by apply sz_still. Qed.
#[global] Instance sz_get : Sz (mget (S:=bstate)).
Proof. by apply sz_still. Qed.
#[global] Instance sz_log : Sz b_log.
Proof. by apply sz_still. Qed.
#[global] Instance sz_error {A} : Sz (b_error (A:=A)).
Proof. by apply sz_still. Qed.
#[global] Instance sz_some {A} (o : option A) : Sz (b_some o).
Proof. apply sz_still. intros s. by destruct o. Qed.
#[global] Instance sz_panic {A} : Sz (A:=A) (λ s, (Rpanic, s)).
Proof. by apply sz_still. Qed.
#[global] Instance sz_upd_bbs f : Sz (b_upd (λ s, set_bbs (f s) s)).
Proof. by apply sz_still. Qed.
#[global] Instance sz_upd_syms f : Sz (b_upd (λ s, set_syms (f s) s)).
Proof. by apply sz_still. Qed.
#[global] Instance sz_upd_bbs' m : Sz (b_upd (set_bbs m)).
Proof. by apply sz_still. Qed.
#[global] Instance sz_upd_syms' m : Sz (b_upd (set_syms m)).
Proof. by apply sz_still. Qed.
#[global] Instance sz_name_local f v n : Sz (b_prog_ (w_name_local f v n)).
Proof.
  intros s a s' H R W. apply clean_prog_ in H as (w & H & ->). apply view_name_local in H as (x & [o [t k]] & H & Hv).
  eapply szw_only; [exact H| |done]. intros [S1 S2]. split; [done|]. simpl. intros u o' t' k' [[<- E]|[_ Hu]]%lookup_insert_Some; [|by eapply S2].
  injection E as <- <- <-. by eapply S2.
Qed.
#[global] Instance sz_push_bb f b : Sz (b_prog_ (w_push_bb f b)).
Proof.
  intros s a s' H R W. apply clean_prog_ in H as (w & H & ->). apply view_push_bb in H as (x & H). by eapply szw_only.
Qed.
#[global] Instance sz_push_inst f b v : Sz (b_prog_ (w_push_inst f b v)).
Proof.
  intros s a s' H R W. apply clean_prog_ in H as (w & H & ->). apply view_push_inst in H as (x & ? & H & _). by eapply szw_only.
Qed.
Lemma sz_local f r : (match r with BAlloc t => sized t | _ => True end) → Sz (new_local f r).
Proof.
  intros Hr s v s' H R W. apply clean_prog in H as (w & H & ->). apply (view_new_local 0) in H as (x & t & H & _ & _ & Ht); [|done].
  eapply szw_only; [exact H| |done]. intros [S1 S2]. split; [done|]. simpl. intros u o' t' k' [[<- E]|[_ Hu]]%lookup_insert_Some; [|by eapply S2].
  injection E as <- <- <-. destruct r; try done. simpl in Ht. subst t. intros _. by apply sized_ptr.
Qed.
Class Plain (r : breq) : Prop := plain : match r with BAlloc t => False | _ => True end.
#[global] Hint Extern 0 (Plain _) => exact I : typeclass_instances.
#[global] Instance sz_new_local f r : Plain r → Sz (new_local f r).
Proof. intros Hr. apply sz_local. by destruct r. Qed.
#[global] Instance sz_ite {A} (b : bool) (m n : F A) : Sz m → Sz n → Sz (if b then m else n).
Proof. by destruct b. Qed.
#[global] Instance sz_dec {A} P `{Decision P} (m n : F A) : Sz m → Sz n → Sz (if decide P then m else n).
Proof. by case_decide. Qed.
#[global] Instance sz_map {A B} (f : A → F B) l : (∀ a, Up (f a)) → (∀ a, Ev (f a)) → (∀ a, Sz (f a)) → Sz (b_map f l).
Proof. intros HU HE H. induction l; cbn [b_map]; apply _. Qed.
#[global] Instance sz_each {A} (f : A → F unit) l : (∀ a, Up (f a)) → (∀ a, Ev (f a)) → (∀ a, Sz (f a)) → Sz (b_each f l).
Proof. intros HU HE H. induction l; cbn [b_each]; apply _. Qed.
#[global] Instance sz_init f t i : Sz (gen_init (new_local f) t i).
Proof.
  revert i t. fix IH 1. intros [z| | |l] t; cbn [gen_init].
  1: case_match; [apply sz_new_local; exact I|apply sz_error].
  1-2: apply sz_new_local; exact I.
  assert (Hl : ∀ b, Sz (b_map (gen_init (new_local f) b) l)).
  { intros b. induction l as [|x l IHl]; cbn [b_map]; [apply sz_ok|].
    apply sz_bind; [apply _|apply _|apply _|apply IH|]. intros. apply sz_bind; [apply _|apply _|apply _|apply IHl|]. intros; apply sz_ok. }
  clear IH. destruct t; apply _.
Qed.
#[global] Instance sz_local_init f t i : Sz (gen_local_init f t i).
Proof. apply sz_init. Qed.
#[global] Instance sz_value_ty f v : Sz (value_ty f v).
Proof. apply sz_still. intros s. unfold value_ty, b_some. by case_match. Qed.
#[global] Instance sz_bb_params_ty f v : Sz (bb_params_ty f v).
Proof. apply sz_still. intros s. unfold bb_params_ty, b_some. by case_match. Qed.
#[global] Instance sz_symbol bb sym : Sz (gen_symbol bb sym).
Proof. apply sz_still. intros s. unfold gen_symbol. by repeat case_match. Qed.
#[global] Instance sz_gen_bb n : Sz (gen_bb n).
Proof. apply sz_still. intros s. unfold gen_bb. by repeat case_match. Qed.
#[global] Instance sz_sym_value f bb t sym : Sz (gen_sym_value f bb t sym).
Proof. apply _. Qed.
#[global] Instance sz_value f bb t v : Sz (gen_value f bb t v).
Proof. destruct v; apply _. Qed.
#[global] Instance sz_store_value f bb t v : Sz (gen_store_value f bb t v).
Proof. destruct v; apply _. Qed.
#[global] Instance sz_args f bb a t : Sz (gen_args f bb a t).
Proof. apply _. Qed.
#[global] Instance sz_call f bb c args : Sz (gen_call f bb c args).
Proof.
  intros s v s' H. unfold clean, gen_call in H. destruct (b_gfuncs s !! c) as [g|] eqn:Hg; [|by apply clean_error in H].
  change (clean (tys <- b_some (fd ← p_funcs (w_prog (b_world s)) !! g;
                      match f_ty fd with TFun ps _ => Some ps | _ => None end);;
       vs <- gen_args f bb args tys;;
       new_local f (BCall g vs)) s v s') in H.
  revert H. apply (sz _). 
Qed.
#[global] Instance sz_inst f bb e : Sz (gen_inst f bb e).
Proof.
  destruct e; cbn [gen_inst]; try apply _.
  - intros s v s' H. cb H as t1 s1 H1. apply clean_some in H1 as [H1 ->]. revert H. apply sz_local. by eapply gen_type_sized.
  - unfold gen_load. repeat (apply sz_bind; [apply _..|]; intros). case_match; apply _.
  - unfold gen_get_ptr. repeat (apply sz_bind; [apply _..|]; intros). case_match; apply _.
  - unfold gen_get_elem_ptr. repeat (apply sz_bind; [apply _..|]; intros). repeat case_match; apply _.
Qed.
#[global] Instance sz_def_symbol n : Sz (def_symbol n).
Proof. apply sz_still. intros s. unfold def_symbol. by repeat case_decide. Qed.
#[global] Instance sz_add_def b n v : Sz (add_def b n v).
Proof. apply sz_still. intros s. unfold add_def. by case_match. Qed.
#[global] Instance sz_stmt f bb r st : Sz (gen_stmt f bb r st).
Proof.
  destruct st; cbn [gen_stmt]; try apply _.
  - unfold gen_store. repeat (apply sz_bind; [apply _..|]; intros). case_match; apply _.
  - unfold gen_return. repeat case_match; apply _.
  - by apply sz_still.
Qed.
#[global] Instance sz_block_step f name ret st : Sz (b_ok (gen_stmt f name ret st) (push_step f name)).
Proof.
  intros s u s' H R W. apply clean_block_step in H as [[-> ->]|(v & s1 & info & w & H1 & H2 & H3 & ->)]; [done|].
  pose proof (sz _ _ _ H1 R W) as W1. apply view_push_inst in H3 as (x & ? & H & _). by eapply szw_only.
Qed.
#[global] Instance sz_build_block f r b : Sz (build_block f r b).
Proof. rewrite build_block_eq. apply _. Qed.
Lemma szf_adds x m arg ps vs : adds_views (w_vals x) m arg ps vs → Forall sized (map snd ps) →
  (∀ v o t k, w_vals x !! v = Some (o, (t, k)) → declares k = true → sized t) → ∀ v o t k, m !! v = Some (o, (t, k)) → declares k = true → sized t.
Proof.
  intros (A1 & A2 & A3 & A4 & A5) Hs Hx v o t k Hv Hk. destruct (decide (v ∈ vs)) as [Hin|Hin]; [|rewrite A4 in Hv by done; by eapply Hx].
  apply elem_of_list_lookup in Hin as [j Hj]. destruct (lookup_lt_is_Some_2 ps j) as [[n' t'] Hp]; [apply lookup_lt_Some in Hj; lia|].
  rewrite (A5 _ _ _ _ Hj Hp) in Hv. injection Hv as _ <- _. eapply list.Forall_forall in Hs; [exact Hs|].
  apply elem_of_list_lookup. exists j. by rewrite list_lookup_fmap, Hp.
Qed.
#[global] Instance sz_init_bb f b : Sz (init_bb f b).
Proof.
  intros s u s' H R W. apply clean_init_bb in H as (ps & bb & w1 & w2 & fd & bd & d & s1 & H1 & H2 & H3 & _ & _ & _ & E & ->).
  simpl. rewrite E. simpl. apply (view_new_bb 0) in H2 as (x & m & vs & Ho & _ & Ha); [|done]. apply view_push_bb in H3 as (y & H3).
  eapply szw_only; [exact H3|done|]. eapply szw_only; [exact Ho| |done]. intros [S1 S2]. split; [done|]. simpl.
  eapply szf_adds; [exact Ha| |done]. by eapply gen_params_sized.
Qed.
#[global] Instance sz_add_pred a b : Sz (add_pred a b).
Proof. apply sz_still. intros s. unfold add_pred. by case_match. Qed.
#[global] Instance sz_entry_step e a : Sz (entry_step e a).
Proof. apply sz_still. intros s. unfold entry_step. by case_match. Qed.
#[global] Instance sz_link_step b : Sz (link_step b).
Proof. unfold link_step. repeat case_match; apply _. Qed.
#[global] Instance sz_init_local f a l : Sz (init_local_bbs f a l).
Proof. rewrite init_local_eq. apply _. Qed.
#[global] Instance sz_fun_def n ps r l : Sz (build_fun_def n ps r l).
Proof.
  intros s u s' H R W.
  apply clean_fun_def in H as (ret & ps' & f & w1 & fd & args & l' & k & s1 & H1 & H2 & H3 & H4 & H5 & H6 & H7 & H8 & H9 & H10).
  assert (R1 : room 0 w1).
  { apply (room_clean 0 (b_prog (w_new_func_def n ps' ret)) s f (set_world w1 s)); [apply _| |done].
    split; [|done]. unfold b_prog. by rewrite H3. }
  apply (view_new_def 0) in H3 as (m & vs & Hf & F1 & F2 & F3 & F4 & V); [|done].
  assert (W1 : szw w1).
  { destruct W as [W1 W2]. split; [by rewrite F2|]. rewrite F1. intros g y [[<- <-]|[_ Hg]]%lookup_insert_Some; [|by eapply W2]. split; simpl.
    - exists (map snd ps'), ret. split; [done|]. split; [by eapply gen_params_sized|by eapply gen_ret_sized].
    - eapply (szf_adds (FView n TUnit [] ∅ ∅ [])); [exact V|by eapply gen_params_sized|done]. }
  pose proof (sz _ _ _ H9 R1 W1) as W2. assert (R2 : room 0 (b_world s1)) by (eapply room_clean; [|exact H9|exact R1]; apply _). by eapply (sz _ _ _ H10).
Qed.
#[global] Instance sz_fun_decl n ps r : Sz (build_fun_decl n ps r).
Proof.
  intros s u s' H R W. apply clean_fun_decl in H as (ret & ps' & f & w1 & H1 & H2 & H3 & H4 & H5 & ->).
  apply (view_new_decl 0) in H3 as (V1 & V2 & V3 & V4 & V5); [|done].
  destruct W as [W1 W2]. split; simpl; [by rewrite V3|]. rewrite V2. intros g y [[<- <-]|[_ Hg]]%lookup_insert_Some; [|by eapply W2].
  split; [|done]. exists ps', ret. split; [done|]. split; [by eapply gen_types_sized|by eapply gen_ret_sized].
Qed.
Lemma sz_new_global k r s v s' : clean (new_global r) s v s' → global_req r = true → match r with BZeroInit t | BUndef t => sized t | _ => True end →
  room (1 + k) (b_world s) → szw (b_world s) → room k (b_world s') ∧ szw (b_world s').
Proof.
  intros H Hg Hr R [W1 W2]. apply clean_prog in H as (w & H & ->).
  apply (view_new_global k) in H as (d & Hd & Hn & Hi & V1 & V2 & V3 & V4 & V5); [|done|done]. split; [done|].
  simpl. split; [|by rewrite V2]. rewrite V1. intros u o t k' [[<- E]|[_ Hu]]%lookup_insert_Some; [|by eapply W1].
  injection E as <- <- <-. apply build_sound in Hd as (_ & Ht & Hreq).
  assert (Hq : ∀ e t, e_ty (env_of (global_querier (w_prog (b_world s)))) e = Some t → sized t).
  { intros e t He. simpl in He. apply fmap_Some in He as (de & He & ->). eapply W1. by rewrite lookup_fmap, He. }
  destruct r as [z|t|t|l|x|t|x|x dst|x i|x i|op a0 b0|c t f|c t f ta fa|t|t a0|c a0|[x|]]; try done; cbn [requested requested_ty] in *.
  - inversion Ht. exists AInt. constructor.
  - by rewrite Hreq.
  - by rewrite Hreq.
  - inversion Ht as [| | |? t Hne Hu He| | | | | | | | | | | |]; subst. destruct l as [|e l]; [done|].
    destruct (He e) as [He' _]; [by left|]. apply sized_arr. split; [simpl; lia|]. by eapply Hq.
  - inversion Ht; subst. apply sized_ptr. by eapply Hq.
Qed.
Lemma sz_global_init i : ∀ k t s v s', clean (gen_init new_global t i) s v s' → sized t → room (init_nodes i + k) (b_world s) → szw (b_world s) →
  room k (b_world s') ∧ szw (b_world s').
Proof.
  induction i as [z| | |l IH] using ainit_ind'; intros k t s v s' H Ht R W; cbn [gen_init init_nodes] in *.
  - destruct (is_i32 t); [|by apply clean_error in H]. by eapply sz_new_global.
  - by eapply sz_new_global.
  - by eapply sz_new_global.
  - assert (Hl : ∀ b k s vs s', clean (b_map (gen_init new_global b) l) s vs s' → sized b →
      room (foldr (λ i n, init_nodes i + n) 0 l + k)%N (b_world s) → szw (b_world s) → room k (b_world s') ∧ szw (b_world s')).
    { clear H R W Ht k t s v s'. intros b. induction IH as [|i l Hi _ IHl]; intros k s vs s' H Hb R W; cbn [b_map foldr] in *.
      - by apply clean_mok in H as [-> ->].
      - cb H as y s1 H1. cb H as ys s2 H2. apply clean_mok in H as [-> ->].
        apply (Hi (foldr (λ i n, init_nodes i + n) 0 l + k)%N) in H1 as [R1 W1]; [|done| |done].
        2: by replace (init_nodes i + (foldr (λ i n, init_nodes i + n) 0 l + k))%N with (init_nodes i + foldr (λ i n, init_nodes i + n) 0 l + k)%N by lia.
        by eapply IHl. }
    assert (Hend : ∀ b s1 vs s2, room (foldr (λ i n, init_nodes i + n) 0 l + (1 + k))%N (b_world s1) → szw (b_world s1) → sized b →
      clean (b_map (gen_init new_global b) l) s1 vs s2 → clean (new_global (BAggregate vs)) s2 v s' → room k (b_world s') ∧ szw (b_world s')).
    { intros b s1 vs s2 R1 W1 Hb H1 H2. destruct (Hl _ _ _ _ _ H1 Hb R1 W1) as [R2 W2]. by eapply sz_new_global. }
    clear Hl IH. replace (foldr (λ i n, init_nodes i + n) 0 l + 1 + k)%N with (foldr (λ i n, init_nodes i + n) 0 l + (1 + k))%N in R by lia.
    destruct t as [| |b n|b|]; try by apply clean_error in H.
    + cb H as u1 s1 H1. assert (s1 = s) as ->.
      { destruct (N.eqb_spec n (N.of_nat (length l))); [by apply clean_mok in H1 as [_ ->]|by apply clean_log in H1]. }
      cb H as vs s2 H2. apply sized_arr in Ht as [_ Ht]. eapply Hend; eassumption.
    + cb H as vs s2 H2. apply (proj1 (sized_ptr _)) in Ht. eapply Hend; eassumption.
Qed.
Lemma sz_build_on t k s s' : clean (build_on t) s tt s' → room (globals_in t + k) (b_world s) → szw (b_world s) → szw (b_world s').
Proof.
  intros H R W. destruct t as [n t i|n ps r bbs|n ps r| |]; cbn [build_on globals_in] in *.
  - apply clean_global in H as (t' & s0 & init & v & w1 & w2 & H1 & H2 & _ & H3 & H4 & H5 & H6 & ->).
    replace (init_nodes i + 1 + k)%N with (init_nodes i + (1 + k))%N in R by lia.
    apply (sz_global_init _ (1 + k)%N) in H2 as [R1 W1]; [|by eapply gen_type_sized|done|done].
    assert (clean (new_global (BGlobalAlloc init)) s0 v (set_world w1 s0)) as H7.
    { split; [|done]. unfold new_global, b_prog. by rewrite H3. }
    apply (sz_new_global k) in H7 as [R2 W2]; [|done..]. simpl. destruct (is_temp n); [by subst w2|].
    apply view_name_global in H4 as ([o [ty kk]] & Hy & B1 & B2 & B3 & B4). destruct W2 as [W2 W3]. simpl in *. split; [|by rewrite B2].
    rewrite B1. intros u o' t1 k1 [[<- E]|[_ Hu]]%lookup_insert_Some; [|by eapply W2]. injection E as _ <- <-. by eapply W2.
  - eapply (sz _ _ _ H); [|done]. eapply room_mono; [|exact R]. lia.
  - eapply (sz _ _ _ H); [|done]. eapply room_mono; [|exact R]. lia.
  - by apply clean_mok in H as [_ ->].
  - by destruct H as [[= <-] _].
Qed.
Lemma builds_sized ts : ∀ G Fn ts0 s b, top G Fn ts0 s → szw (b_world s) → room (foldr (λ t n, globals_in t + n) 0 ts)%N (b_world s) →
  Forall no_err_top ts → builds s ts b → szw (b_world b).
Proof.
  induction ts as [|t ts IH]; intros G Fn ts0 s b T A R Herr H; inversion H as [|? ? s1 ? ? H1 H2 H3]; subst; [done|].
  apply list.Forall_cons in Herr as [E1 E2]. simpl in R.
  pose proof (sz_build_on _ _ _ _ (conj H1 H2) R A) as A'.
  destruct (top_step _ _ _ _ _ _ _ T R E1 (conj H1 H2)) as (G' & Fn' & _ & _ & T' & R').
  exact (IH _ _ _ _ _ T' A' R' E2 H3).
Qed.
(** In a program returned by the driver, function types and the types of parameters, allocated
    variables and global values are sized. *)
Definition sized_program (p : program) : Prop :=
  (∀ v d, p_values p !! v = Some d → sized (v_ty d)) ∧
  ∀ f fd, p_funcs p !! f = Some fd → fsized (f_ty fd) ∧
    ∀ v d, vals fd !! v = Some d → declares (v_kind d) = true → sized (v_ty d).
Lemma built_sized ts b : builds (bstate0 ids0 0 0) ts b → Forall no_err_top ts →
  (foldr (λ t n, globals_in t + n) 0 ts < local_value_id_starts_from)%N → sized_program (w_prog (b_world b)).
Proof.
  intros Hb Herr Hg. destruct (builds_sized ts ∅ ∅ [] (bstate0 ids0 0 0) b) as [W1 W2]; try done.
  - constructor; simpl; try done; constructor.
  - by apply room0.
  - split.
    + intros v d Hv. eapply W1. by rewrite lookup_fmap, Hv.
    + intros f fd Hf. destruct (W2 f (fv fd)) as [S1 S2]; [by rewrite lookup_fmap, Hf|]. split; [done|].
      intros v d Hv. eapply (S2 v). simpl. by rewrite lookup_fmap, Hv.
Qed.
