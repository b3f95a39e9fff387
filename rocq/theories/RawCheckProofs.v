(** Programs that can be read back, checked by computation (for the examples of C40). *)
From Coq Require Import Lia ZifyBool ZifyNat ZifyN.
From Verif Require Import Base IdModel TypeModel TypeProofs IrModel BuilderModel WorldModel UsesSpec DfgSpec TypingSpec AcceptSpec RawModel RawSpec RawTotalSpec
  RawBuildProofs RawWalkProofs.

Definition mall {A} (P : N → A → bool) (m : gmap N A) : bool := forallb (λ e, P e.1 e.2) (map_to_list m).
Lemma lall_ok {A} (P : A → bool) l x : forallb P l = true → x ∈ l → P x = true.
Proof. intros H Hx. rewrite forallb_forall in H. apply H. by apply elem_of_list_In. Qed.
Lemma mall_ok {A} (P : N → A → bool) m k x : mall P m = true → m !! k = Some x → P k x = true.
Proof. intros H Hk. apply (lall_ok _ _ (k, x) H). by apply elem_of_map_to_list. Qed.
Definition has {A} (m : gmap N A) (k : N) : bool := match m !! k with Some _ => true | None => false end.
Lemma has_true {A} (m : gmap N A) k : has m k = true ↔ is_Some (m !! k).
Proof. unfold has. destruct (m !! k); split; [by eexists|done|done|by intros [? ?]]. Qed.
Definition once (l : list N) : bool := bool_decide (NoDup l).
Definition arg_index (k : vkind) : option (bool * N) :=
  match k with KFuncArg j => Some (true, j) | KBlockArg j => Some (false, j) | _ => None end.
(** The parameters [ps], with any types or the types [ts]. *)
Fixpoint params_b (m : gmap N vdata) (fn : bool) (j : nat) (ps : list value) (ts : option (list ty)) : bool :=
  match ps with
  | [] => match ts with Some (_ :: _) => false | _ => true end
  | v :: ps' =>
      match m !! v with
      | Some d => bool_decide (arg_index (v_kind d) = Some (fn, N.of_nat j)) &&
          match ts with
          | None => params_b m fn (S j) ps' None
          | Some (t :: ts') => ty_eqb (v_ty d) t && params_b m fn (S j) ps' (Some ts')
          | Some [] => false
          end
      | None => false
      end
  end.
Definition the_arg (fn : bool) : N → vkind := if fn then KFuncArg else KBlockArg.
Lemma params_b_ok m fn ps : ∀ j ts, params_b m fn j ps ts = true →
  ∃ ts', (∀ l, ts = Some l → ts' = l) ∧ length ps = length ts' ∧
    ∀ (i : nat) v t, ps !! i = Some v → ts' !! i = Some t →
      ∃ d, m !! v = Some d ∧ v_kind d = the_arg fn (N.of_nat (j + i)) ∧ v_ty d = t.
Proof.
  induction ps as [|v ps IH]; intros j ts H; simpl in H.
  - exists []. split; [|split; [done|]].
    + intros l ->. by destruct l.
    + by intros [|i].
  - destruct (m !! v) as [d|] eqn:Hv; [|discriminate]. apply andb_prop in H as [Hk H]. apply bool_decide_eq_true_1 in Hk.
    assert (Hkind : v_kind d = the_arg fn (N.of_nat j)).
    { destruct (v_kind d); try discriminate Hk; simpl in Hk; injection Hk as <- ->; done. }
    destruct ts as [[|t ts]|]; [discriminate| |].
    + apply andb_prop in H as [Ht H]. apply ty_eqb_eq in Ht. destruct (IH _ _ H) as (ts' & E & Hl & Hp).
      rewrite (E _ eq_refl) in *. exists (t :: ts). split; [by intros l [= <-]|]. split; [simpl; lia|].
      intros [|i] u t' Hu Hu'; simpl in Hu, Hu'.
      * injection Hu as <-. injection Hu' as <-. exists d. by rewrite Nat.add_0_r.
      * destruct (Hp i u t' Hu Hu') as (d' & ? & ? & ?). exists d'. by replace (j + S i) with (S j + i) by lia.
    + destruct (IH _ _ H) as (ts' & E & Hl & Hp). exists (v_ty d :: ts'). split; [done|]. split; [simpl; lia|].
      intros [|i] u t' Hu Hu'; simpl in Hu, Hu'.
      * injection Hu as <-. injection Hu' as <-. exists d. by rewrite Nat.add_0_r.
      * destruct (Hp i u t' Hu Hu') as (d' & ? & ? & ?). exists d'. by replace (j + S i) with (S j + i) by lia.
Qed.

Definition fun_b (p : program) (fd : fdata) : bool :=
  mall (λ v d, negb (is_global_id v) && negb (is_global_alloc (v_kind d)) &&
    forallb (λ u, (negb (has (p_values p) u) || bool_decide (u ∈ p_inst_layout p)) &&
      match vals fd !! u with Some du => negb (is_control (v_kind du)) | None => true end) (operands (v_kind d))) (vals fd) &&
  match f_ty fd with
  | TFun ts _ => if decide (l_bbs (f_layout fd) = []) then bool_decide (f_params fd = [])
                 else params_b (vals fd) true 0 (f_params fd) (Some ts)
  | _ => false
  end &&
  mall (λ b d, params_b (vals fd) false 0 (bb_params d) None && once (bb_params d) &&
    mall (λ b' d', bool_decide (b = b') || forallb (λ v, negb (bool_decide (v ∈ bb_params d'))) (bb_params d)) (blks fd)) (blks fd) &&
  once (f_params fd) && once (l_bbs (f_layout fd)).*1 &&
  forallb (λ b, has (blks fd) b) (l_bbs (f_layout fd)).*1 &&
  forallb (λ e, forallb (λ e', bool_decide (e.1 = e'.1) || forallb (λ v, negb (bool_decide (v ∈ e'.2))) e.2) (l_bbs (f_layout fd)) &&
    forallb (has (vals fd)) e.2) (l_bbs (f_layout fd)).
Definition regular_b (p : program) : bool :=
  mall (λ v _, is_global_id v) (p_values p) && forallb (has (p_values p)) (p_inst_layout p) &&
  mall (λ f fd, fun_b p fd && mall (λ f' fd', bool_decide (f = f') ||
    (mall (λ v _, negb (has (vals fd') v)) (vals fd) && mall (λ b _, negb (has (blks fd') b)) (blks fd))) (p_funcs p)) (p_funcs p).

Lemma regular_b_ok p : regular_b p = true → well_typed p → no_dangling p → regular p.
Proof.
  unfold regular_b. intros H Hw Hd. apply andb_prop in H as [H Hfun]. apply andb_prop in H as [Hgid Hlay].
  assert (HF : ∀ f fd, p_funcs p !! f = Some fd → fun_b p fd = true ∧
    mall (λ f' fd', bool_decide (f = f') ||
      (mall (λ v _, negb (has (vals fd') v)) (vals fd) && mall (λ b _, negb (has (blks fd') b)) (blks fd))) (p_funcs p) = true).
  { intros f fd Hf. pose proof (mall_ok _ _ _ _ Hfun Hf) as H. simpl in H. by apply andb_prop in H. }
  clear Hfun.
  assert (HB : ∀ f fd, p_funcs p !! f = Some fd → fun_b p fd = true) by (intros f fd Hf; apply (HF f fd Hf)).
  constructor; try done.
  - intros v [d Hv]. exact (mall_ok _ _ _ _ Hgid Hv).
  - intros f fd v Hf [d Hv]. pose proof (HB _ _ Hf) as H. unfold fun_b in H. do 6 apply andb_prop in H as [H _].
    pose proof (mall_ok _ _ _ _ H Hv) as Hv'. simpl in Hv'. do 2 apply andb_prop in Hv' as [Hv' _]. by apply negb_true_iff.
  - intros f f' fd fd' v Hf Hf' [d Hv] Hv'. destruct (HF _ _ Hf) as [_ H]. pose proof (mall_ok _ _ _ _ H Hf') as H'. simpl in H'.
    apply orb_prop in H' as [E|H']; [by apply bool_decide_eq_true_1 in E|]. apply andb_prop in H' as [H' _].
    pose proof (mall_ok _ _ _ _ H' Hv) as H2. simpl in H2. apply has_true in Hv'. by rewrite Hv' in H2.
  - intros f f' fd fd' v Hf Hf' [d Hv] Hv'. destruct (HF _ _ Hf) as [_ H]. pose proof (mall_ok _ _ _ _ H Hf') as H'. simpl in H'.
    apply orb_prop in H' as [E|H']; [by apply bool_decide_eq_true_1 in E|]. apply andb_prop in H' as [_ H'].
    pose proof (mall_ok _ _ _ _ H' Hv) as H2. simpl in H2. apply has_true in Hv'. by rewrite Hv' in H2.
  - intros f fd v d init Hf Hv Ek. pose proof (HB _ _ Hf) as H. unfold fun_b in H. do 6 apply andb_prop in H as [H _].
    pose proof (mall_ok _ _ _ _ H Hv) as Hv'. simpl in Hv'. apply andb_prop in Hv' as [Hv' _]. apply andb_prop in Hv' as [_ Hv'].
    by rewrite Ek in Hv'.
  - intros v Hv. apply has_true. exact (lall_ok _ _ _ Hlay Hv).
  - intros f fd u v Hf (d & Hu & Hin) Hg. pose proof (HB _ _ Hf) as H. unfold fun_b in H. do 6 apply andb_prop in H as [H _].
    pose proof (mall_ok _ _ _ _ H Hu) as Hv'. simpl in Hv'. apply andb_prop in Hv' as [_ Hv'].
    pose proof (lall_ok _ _ _ Hv' Hin) as H2. simpl in H2. apply andb_prop in H2 as [H2 _]. apply orb_prop in H2 as [H2|H2].
    + apply has_true in Hg. by rewrite Hg in H2.
    + by apply bool_decide_eq_true_1 in H2.
  - intros f fd Hf. pose proof (HB _ _ Hf) as H. unfold fun_b in H. do 5 apply andb_prop in H as [H _]. apply andb_prop in H as [_ H].
    destruct (f_ty fd) as [| | | |ts r]; try discriminate H. exists ts, r. split; [done|].
    destruct (decide _); [by apply bool_decide_eq_true_1 in H|].
    apply params_b_ok in H as (ts' & E & Hl & Hp). rewrite (E _ eq_refl) in *. split; [done|exact Hp].
  - intros f fd b d Hf Hb. pose proof (HB _ _ Hf) as H. unfold fun_b in H. do 4 apply andb_prop in H as [H _]. apply andb_prop in H as [_ H].
    pose proof (mall_ok _ _ _ _ H Hb) as H2. simpl in H2. do 2 apply andb_prop in H2 as [H2 _].
    apply params_b_ok in H2 as (ts' & _ & Hl & Hp). exists ts'. split; [done|exact Hp].
  - intros f fd Hf. pose proof (HB _ _ Hf) as H. unfold fun_b in H. do 3 apply andb_prop in H as [H _]. apply andb_prop in H as [_ H].
    by apply bool_decide_eq_true_1 in H.
  - intros f fd b d Hf Hb. pose proof (HB _ _ Hf) as H. unfold fun_b in H. do 4 apply andb_prop in H as [H _]. apply andb_prop in H as [_ H].
    pose proof (mall_ok _ _ _ _ H Hb) as H2. simpl in H2. apply andb_prop in H2 as [H2 _]. apply andb_prop in H2 as [_ H2].
    by apply bool_decide_eq_true_1 in H2.
  - intros f fd b b' d d' v Hf Hb Hb' Hv Hv'. pose proof (HB _ _ Hf) as H. unfold fun_b in H. do 4 apply andb_prop in H as [H _]. apply andb_prop in H as [_ H].
    pose proof (mall_ok _ _ _ _ H Hb) as H2. simpl in H2. apply andb_prop in H2 as [_ H2].
    pose proof (mall_ok _ _ _ _ H2 Hb') as H3. simpl in H3. apply orb_prop in H3 as [E|H3]; [by apply bool_decide_eq_true_1 in E|].
    pose proof (lall_ok _ _ _ H3 Hv) as H4. simpl in H4. by rewrite bool_decide_eq_true_2 in H4.
  - intros f fd Hf. pose proof (HB _ _ Hf) as H. unfold fun_b in H. do 2 apply andb_prop in H as [H _]. apply andb_prop in H as [_ H].
    by apply bool_decide_eq_true_1 in H.
  - intros f fd b Hf Hb. pose proof (HB _ _ Hf) as H. unfold fun_b in H. do 1 apply andb_prop in H as [H _]. apply andb_prop in H as [_ H].
    apply has_true. exact (lall_ok _ _ _ H Hb).
  - intros f fd b b' is is' v Hf Hb Hb' Hv Hv'. pose proof (HB _ _ Hf) as H. unfold fun_b in H. apply andb_prop in H as [_ H].
    pose proof (lall_ok _ _ _ H Hb) as H2. simpl in H2. apply andb_prop in H2 as [H2 _].
    pose proof (lall_ok _ _ _ H2 Hb') as H3. simpl in H3. apply orb_prop in H3 as [E|H3]; [by apply bool_decide_eq_true_1 in E|].
    pose proof (lall_ok _ _ _ H3 Hv) as H4. simpl in H4. by rewrite bool_decide_eq_true_2 in H4.
  - intros f fd b is v Hf Hb Hv. pose proof (HB _ _ Hf) as H. unfold fun_b in H. apply andb_prop in H as [_ H].
    pose proof (lall_ok _ _ _ H Hb) as H2. simpl in H2. apply andb_prop in H2 as [_ H2]. apply has_true. exact (lall_ok _ _ _ H2 Hv).
  - intros f fd u v d Hf (du & Hu & Hin) Hv. pose proof (HB _ _ Hf) as H. unfold fun_b in H. do 6 apply andb_prop in H as [H _].
    pose proof (mall_ok _ _ _ _ H Hu) as Hv'. simpl in Hv'. apply andb_prop in Hv' as [_ Hv'].
    pose proof (lall_ok _ _ _ Hv' Hin) as H2. simpl in H2. apply andb_prop in H2 as [_ H2]. rewrite Hv in H2. by apply negb_true_iff.
Qed.

(** ** Walks by computation *)
Definition teq (a b : task) : bool :=
  match a, b with TVal x, TVal y | TBlk x, TBlk y | TFunc x, TFunc y => N.eqb x y | _, _ => false end.
Definition tmem (t : task) (S : list task) : bool := existsb (teq t) S.
Lemma teq_ok a b : teq a b = true ↔ a = b.
Proof. destruct a, b; simpl; rewrite ?N.eqb_eq; split; congruence. Qed.
Lemma tmem_ok t S : tmem t S = true ↔ t ∈ S.
Proof.
  unfold tmem. rewrite existsb_exists. split.
  - intros (x & Hx & E). apply teq_ok in E as ->. by apply elem_of_list_In.
  - intros H. exists t. split; [by apply elem_of_list_In|by apply teq_ok].
Qed.
(** The values and blocks of the program, with their data. *)
Definition all_vals (p : program) : list (N * vdata) :=
  map_to_list (p_values p) ++ ((map_to_list (p_funcs p)).*2 ≫= λ fd, map_to_list (vals fd)).
Definition all_blks (p : program) : list (N * (bbdata * list value)) :=
  (map_to_list (p_funcs p)).*2 ≫= λ fd, l_bbs (f_layout fd) ≫= λ e,
    match blks fd !! e.1 with Some d => [(e.1, (d, e.2))] | None => [] end.
Fixpoint find_in {A} (k : N) (l : list (N * A)) : option A :=
  match l with [] => None | (k', x) :: l' => if (k' =? k)%N then Some x else find_in k l' end.
Lemma find_in_ok {A} k (l : list (N * A)) x : find_in k l = Some x → (k, x) ∈ l.
Proof.
  induction l as [|[k' y] l IH]; simpl; intros H; [done|]. destruct (N.eqb_spec k' k) as [->|]; [injection H as ->; by left|]. right. by apply IH.
Qed.
Lemma all_vals_ok p v d : (v, d) ∈ all_vals p → value_of p v d.
Proof.
  intros H. apply elem_of_app in H as [H|H]; [left; by apply elem_of_map_to_list|].
  apply elem_of_list_bind in H as (fd & Hv & Hf). apply elem_of_list_fmap in Hf as ([f fd'] & -> & Hf).
  right. exists f, fd'. split; by apply elem_of_map_to_list.
Qed.
Lemma all_blks_ok p b d is : (b, (d, is)) ∈ all_blks p → block_of p b d is.
Proof.
  intros H. apply elem_of_list_bind in H as (fd & Hv & Hf). apply elem_of_list_fmap in Hf as ([f fd'] & -> & Hf).
  apply elem_of_list_bind in Hv as ([b' is'] & Hv & Hin). simpl in Hv. destruct (blks fd' !! b') as [d'|] eqn:E; [|by apply elem_of_nil in Hv].
  apply elem_of_list_singleton in Hv. injection Hv as -> -> ->. exists f, fd'. split; [by apply elem_of_map_to_list|]. done.
Qed.
Fixpoint walk_b (p : program) (n : nat) (S : list task) (l : list task) : option (list task) :=
  match n with
  | O => None
  | Datatypes.S n =>
      match l with
      | [] => Some []
      | t :: l' =>
          if tmem t S then walk_b p n S l' else
          match t with
          | TVal v =>
              d ← find_in v (all_vals p);
              if TypingSpec.is_param (v_kind d) then None else
              o ← walk_b p n S (refs (v_kind d));
              o' ← walk_b p n (S ++ o ++ [TVal v]) l';
              Some ((o ++ [TVal v]) ++ o')
          | TBlk b =>
              x ← find_in b (all_blks p);
              o ← walk_b p n (S ++ TBlk b :: (TVal <$> bb_params x.1)) (TVal <$> x.2);
              o' ← walk_b p n (S ++ (TBlk b :: (TVal <$> bb_params x.1)) ++ o) l';
              Some (((TBlk b :: (TVal <$> bb_params x.1)) ++ o) ++ o')
          | TFunc f =>
              fd ← p_funcs p !! f;
              o ← walk_b p n (S ++ TFunc f :: (TVal <$> f_params fd)) (TBlk <$> (l_bbs (f_layout fd)).*1);
              o' ← walk_b p n (S ++ (TFunc f :: (TVal <$> f_params fd)) ++ o) l';
              Some (((TFunc f :: (TVal <$> f_params fd)) ++ o) ++ o')
          end
      end
  end.
Lemma walk_b_ok p n : ∀ S l o, walk_b p n S l = Some o → walk p S l o.
Proof.
  induction n as [|n IH]; intros S l o H; [discriminate H|]. cbn [walk_b] in H. destruct l as [|t l]; [injection H as <-; constructor|].
  destruct (tmem t S) eqn:Hm; [apply W_known; [by apply tmem_ok|by apply IH]|].
  assert (Hn : t ∉ S) by (intros Hin; apply tmem_ok in Hin; by rewrite Hm in Hin).
  destruct t as [v|b|f].
  - apply bind_Some in H as (d & Hd & H). destruct (TypingSpec.is_param (v_kind d)) eqn:Hk; [discriminate H|].
    apply bind_Some in H as (o1 & H1 & H). apply bind_Some in H as (o2 & H2 & H). injection H as <-.
    eapply W_value; [done|apply all_vals_ok, find_in_ok; exact Hd|done|by apply IH|by apply IH].
  - apply bind_Some in H as ([d is] & Hd & H).
    apply bind_Some in H as (o1 & H1 & H). apply bind_Some in H as (o2 & H2 & H). injection H as <-. cbn [fst snd] in *.
    eapply W_block; [done|apply all_blks_ok, find_in_ok; exact Hd|by apply IH|by apply IH].
  - apply bind_Some in H as (fd & Hd & H).
    apply bind_Some in H as (o1 & H1 & H). apply bind_Some in H as (o2 & H2 & H). injection H as <-.
    eapply W_func; [done|exact Hd|by apply IH|by apply IH].
Qed.
Definition in_order_b (p : program) (n : nat) : bool :=
  match walk_b p n [] ((TVal <$> p_inst_layout p) ++ (TFunc <$> p_func_layout p)) with
  | Some o => bool_decide (allocs_in p o = p_inst_layout p) && bool_decide (funcs_in o = p_func_layout p) &&
      mall (λ f _, bool_decide (blocks_in p o f = listed_blocks p f)) (p_funcs p)
  | None => false
  end.
Lemma in_order_b_ok p n : in_order_b p n = true → in_discovery_order p.
Proof.
  unfold in_order_b. destruct (walk_b _ _ _ _) as [o|] eqn:E; [|discriminate]. intros H. apply andb_prop in H as [H H3].
  apply andb_prop in H as [H1 H2]. apply bool_decide_eq_true_1 in H1. apply bool_decide_eq_true_1 in H2.
  exists o. split; [by eapply walk_b_ok|]. split; [done|]. split; [done|]. intros f [fd Hf].
  pose proof (mall_ok _ _ _ _ H3 Hf) as H. simpl in H. by apply bool_decide_eq_true_1 in H.
Qed.

(** ** Programs whose raw form can be made, by computation *)
Lemma all_vals_in p v d : value_of p v d → (v, d) ∈ all_vals p.
Proof.
  intros [H|(f & fd & Hf & Hv)]; apply elem_of_app; [left; by apply elem_of_map_to_list|right].
  apply elem_of_list_bind. exists fd. split; [by apply elem_of_map_to_list|]. apply elem_of_list_fmap. exists (f, fd). split; [done|].
  by apply elem_of_map_to_list.
Qed.
Definition c_name_b (s : string) : bool :=
  match s with
  | String c (String d r) => (Ascii.eqb c "%" || Ascii.eqb c "@") && forallb (λ c, negb (Ascii.eqb c Ascii.zero)) (String.list_ascii_of_string s)
  | _ => false
  end.
Lemma c_name_b_ok s : c_name_b s = true → c_name_ok s.
Proof.
  intros H. unfold c_name_b in H. destruct s as [|c [|d r]]; try discriminate H. apply andb_prop in H as [H1 H2]. split.
  - exists c, d, r. split; [done|]. apply orb_prop in H1 as [E|E]; apply Ascii.eqb_eq in E; [by left|by right].
  - intros Hin. pose proof (lall_ok _ _ _ H2 Hin) as E. discriminate E.
Qed.
Definition opt_name_b (n : option string) : bool := match n with Some s => c_name_b s | None => true end.
Definition buildable_b (p : program) (o : list task) : bool :=
  forallb (λ e, match refs (v_kind e.2) with [] => true | _ => tmem (TVal e.1) o end && opt_name_b (v_name e.2)) (all_vals p) &&
  mall (λ _ d, is_const (v_kind d) || is_global_alloc (v_kind d)) (p_values p) &&
  mall (λ _ fd, c_name_b (f_name fd) && mall (λ _ d, opt_name_b (bb_name d)) (blks fd) &&
    forallb (λ e : bblock * list value, once e.2) (l_bbs (f_layout fd)) &&
    match f_ty fd with TFun ts _ => forallb (λ t, negb (ty_eqb t TUnit)) ts | _ => true end) (p_funcs p).
Lemma buildable_b_ok p o : buildable_b p o = true → use_lists_exact p → buildable p o.
Proof.
  unfold buildable_b. intros H Hu. apply andb_prop in H as [H HF]. apply andb_prop in H as [HV HG].
  assert (HF' : ∀ f fd, p_funcs p !! f = Some fd → c_name_b (f_name fd) = true ∧ mall (λ _ d, opt_name_b (bb_name d)) (blks fd) = true ∧
    forallb (λ e : bblock * list value, once e.2) (l_bbs (f_layout fd)) = true ∧
    match f_ty fd with TFun ts _ => forallb (λ t, negb (ty_eqb t TUnit)) ts | _ => true end = true).
  { intros f fd Hf. pose proof (mall_ok _ _ _ _ HF Hf) as H. cbv beta in H. apply andb_prop in H as [H H4]. apply andb_prop in H as [H H3].
    apply andb_prop in H as [H1 H2]. done. }
  constructor.
  - done.
  - intros u d Hd Hr. pose proof (lall_ok _ _ _ HV (all_vals_in _ _ _ Hd)) as H. cbn [fst snd] in H. apply andb_prop in H as [H _].
    destruct (refs (v_kind d)); [done|]. by apply tmem_ok.
  - intros v d Hd. pose proof (mall_ok _ _ _ _ HG Hd) as H. cbv beta in H. apply orb_prop in H as [H|H]; [by left|right].
    destruct (v_kind d); try discriminate H. by eexists.
  - intros v d s Hd Hs. pose proof (lall_ok _ _ _ HV (all_vals_in _ _ _ Hd)) as H. cbn [fst snd] in H. apply andb_prop in H as [_ H].
    rewrite Hs in H. by apply c_name_b_ok.
  - intros f fd b d s Hf Hb Hs. destruct (HF' _ _ Hf) as (_ & H & _). pose proof (mall_ok _ _ _ _ H Hb) as H2. cbv beta in H2.
    rewrite Hs in H2. by apply c_name_b_ok.
  - intros f fd Hf. apply c_name_b_ok. by apply (HF' _ _ Hf).
  - intros f fd b is Hf Hin. destruct (HF' _ _ Hf) as (_ & _ & H & _). pose proof (lall_ok _ _ _ H Hin) as H2. by apply bool_decide_eq_true_1 in H2.
  - intros f fd ts r Hf Ht. destruct (HF' _ _ Hf) as (_ & _ & _ & H). rewrite Ht in H. intros Hin. pose proof (lall_ok _ _ _ H Hin) as H2. discriminate H2.
Qed.
(** What a walk through the whole program meets. *)
Definition met_b (p : program) (n : nat) : option (list task) :=
  walk_b p n [] ((TVal <$> p_inst_layout p) ++ (TFunc <$> p_func_layout p)).
Definition total_b (p : program) (n k : nat) : bool :=
  match met_b p n with Some o => buildable_b p o && (length o <? k)%nat | None => false end.
Lemma total_b_ok p n k : total_b p n k = true → use_lists_exact p → ∃ o, discovered p o ∧ buildable p o ∧ length o < k.
Proof.
  unfold total_b. destruct (met_b p n) as [o|] eqn:E; [|discriminate]. intros H Hu. apply andb_prop in H as [H1 H2].
  exists o. split; [by eapply walk_b_ok|]. split; [by apply buildable_b_ok|]. by apply Nat.ltb_lt.
Qed.
