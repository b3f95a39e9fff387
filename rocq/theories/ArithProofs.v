(** Proofs about constant folding (C41) and block parameters in the interpreter (C43). *)
From Verif Require Import Base IdModel TypeModel IrModel LayoutModel UsesSpec UsesProofs DfgSpec
  DfgProofs SkelProofs LayoutSpec LayoutProofs ArithModel ArithSpec.
From Coq Require Import Lia ZifyBool.

Ltac Zify.zify_post_hook ::= Z.div_mod_to_equations.

(** * One operation *)

Lemma fold_exec checks op l r c :
  fold_op checks op l r = Some (Some c) → exec_op checks op l r = Some c.
Proof.
  destruct op; simpl.
  all: try (intros [= <-]; done).
  all: try by destruct (arith _ _); simpl; intros [= <-].
  - destruct (r =? 0)%Z eqn:E; simpl; [done|]. by destruct (rdiv l r); simpl; [intros [= <-]|].
  - destruct (r =? 0)%Z eqn:E; simpl; [done|]. by destruct (rrem l r); simpl; [intros [= <-]|].
  - by destruct (shift_amount checks r); simpl; intros [= <-].
  - by destruct (shift_amount checks r); simpl; intros [= <-].
  - by destruct (shift_amount checks r); simpl; intros [= <-].
Qed.

Lemma fold_undef checks op l r :
  fold_op checks op l r = Some None ↔ (op = Div ∨ op = Mod_) ∧ r = 0%Z.
Proof.
  destruct op; simpl.
  all: try (split; [discriminate|intros [[?|?] _]; discriminate]).
  all: try (destruct (arith _ _); simpl; (split; [discriminate|intros [[?|?] _]; discriminate])).
  all: try (destruct (shift_amount _ _); simpl; (split; [discriminate|intros [[?|?] _]; discriminate])).
  - destruct (Z.eqb_spec r 0) as [->|Hr]; simpl; [by split; [split; auto|]|].
    by destruct (rdiv l r); simpl; split; [|intros [_ ?]| |intros [_ ?]].
  - destruct (Z.eqb_spec r 0) as [->|Hr]; simpl; [by split; [split; auto|]|].
    by destruct (rrem l r); simpl; split; [|intros [_ ?]| |intros [_ ?]].
Qed.

Lemma exec_undef_panics checks op l : op = Div ∨ op = Mod_ → exec_op checks op l 0 = None.
Proof. by intros [-> | ->]. Qed.

Lemma as_i32_range z : i32 (as_i32 z).
Proof. unfold i32, as_i32. lia. Qed.

Lemma as_i32_same z : same32 (as_i32 z) z.
Proof.
  unfold same32, as_i32. exists (- ((z + 2147483648) / 4294967296))%Z.
  rewrite Z.mod_eq by lia. lia.
Qed.

Lemma same32_refl z : same32 z z.
Proof. exists 0%Z. lia. Qed.

Lemma arith_spec checks z c : arith checks z = Some c → i32 c ∧ same32 c z.
Proof.
  unfold arith, in_i32, i32_min, i32_max. destruct (_ && _) eqn:E.
  - intros [= <-]. split; [unfold i32; lia|apply same32_refl].
  - destruct checks; [done|]. intros [= <-]. split; [apply as_i32_range|apply as_i32_same].
Qed.

Lemma shift_amount_spec checks r s : shift_amount checks r = Some s → s = (r mod 32)%Z.
Proof.
  unfold shift_amount. destruct (_ && _) eqn:E.
  - intros [= <-]. rewrite Z.mod_small; lia.
  - destruct checks; [done|]. by intros [= <-].
Qed.

Lemma i32_shiftr z : i32 z ↔ (Z.shiftr z 31 = 0 ∨ Z.shiftr z 31 = -1)%Z.
Proof.
  rewrite Z.shiftr_div_pow2 by lia. change (2 ^ 31)%Z with 2147483648%Z. unfold i32. lia.
Qed.

Lemma shiftr_in_range z s : i32 z → (0 ≤ s)%Z → i32 (Z.shiftr z s).
Proof.
  intros Hz Hs. rewrite i32_shiftr in *. rewrite Z.shiftr_shiftr by lia.
  rewrite Z.add_comm, <- Z.shiftr_shiftr by lia.
  destruct Hz as [-> | ->].
  - left. apply Z.shiftr_0_l.
  - right. apply Z.bits_inj'. intros n Hn. rewrite Z.shiftr_spec by lia.
    rewrite !Z.bits_m1 by lia. done.
Qed.

Lemma fold_meaning checks op l r c :
  i32 l → i32 r → fold_op checks op l r = Some (Some c) → i32 c ∧ meaning op l r c.
Proof.
  intros Hl Hr. destruct op; simpl.
  - intros [= <-]. destruct (Z.eqb_spec l r); simpl; (split; [unfold i32; lia|auto]).
  - intros [= <-]. destruct (Z.eqb_spec l r); simpl; (split; [unfold i32; lia|auto]).
  - intros [= <-]. destruct (l >? r)%Z eqn:E; simpl; (split; [unfold i32; lia|lia]).
  - intros [= <-]. destruct (l <? r)%Z eqn:E; simpl; (split; [unfold i32; lia|lia]).
  - intros [= <-]. destruct (l >=? r)%Z eqn:E; simpl; (split; [unfold i32; lia|lia]).
  - intros [= <-]. destruct (l <=? r)%Z eqn:E; simpl; (split; [unfold i32; lia|lia]).
  - destruct (arith _ _) eqn:E; simpl; [|done]. intros [= <-]. by eapply arith_spec.
  - destruct (arith _ _) eqn:E; simpl; [|done]. intros [= <-]. by eapply arith_spec.
  - destruct (arith _ _) eqn:E; simpl; [|done]. intros [= <-]. by eapply arith_spec.
  - destruct (Z.eqb_spec r 0) as [|Hr0]; simpl; [done|]. unfold rdiv.
    destruct (Z.eqb_spec r 0) as [|_]; [done|].
    destruct (_ && _) eqn:E; [done|]. simpl. intros [= <-].
    unfold i32 in *. unfold i32_min in E.
    pose proof (Z.quot_rem' l r) as Hq. pose proof (Z.rem_bound_abs l r Hr0) as Hb.
    pose proof (Z.rem_sign_mul l r Hr0) as Hs. split.
    + assert (r = -1 ∨ r ≠ -1)%Z as [-> | Hm1] by lia.
      * change (-1)%Z with (- (1))%Z. rewrite Z.quot_opp_r, Z.quot_1_r by lia. lia.
      * assert (r = 1 ∨ r ≠ 1)%Z as [-> | H1] by lia; [rewrite Z.quot_1_r; lia|].
        assert (Z.abs (Z.quot l r) ≤ 1073741824)%Z; [|lia].
        rewrite <- Z.quot_abs by done.
        transitivity (Z.quot (Z.abs l) 2)%Z.
        -- apply Z.quot_le_compat_l; lia.
        -- rewrite Z.quot_div_nonneg by lia. lia.
    + exists (Z.rem l r). lia.
  - destruct (Z.eqb_spec r 0) as [|Hr0]; simpl; [done|]. unfold rrem.
    destruct (Z.eqb_spec r 0) as [|_]; [done|].
    destruct (_ && _) eqn:E; [done|]. simpl. intros [= <-].
    unfold i32 in *.
    pose proof (Z.quot_rem' l r) as Hq. pose proof (Z.rem_bound_abs l r Hr0) as Hb.
    pose proof (Z.rem_sign_mul l r Hr0) as Hs. split; [lia|]. exists (Z.quot l r). lia.
  - intros [= <-]. split; [|intros i _; apply Z.land_spec].
    rewrite i32_shiftr in *. rewrite Z.shiftr_land.
    destruct Hl as [-> | ->], Hr as [-> | ->]; simpl; auto.
  - intros [= <-]. split; [|intros i _; apply Z.lor_spec].
    rewrite i32_shiftr in *. rewrite Z.shiftr_lor.
    destruct Hl as [-> | ->], Hr as [-> | ->]; simpl; auto.
  - intros [= <-]. split; [|intros i _; apply Z.lxor_spec].
    rewrite i32_shiftr in *. rewrite Z.shiftr_lxor.
    destruct Hl as [-> | ->], Hr as [-> | ->]; simpl; auto.
  - destruct (shift_amount _ _) as [s|] eqn:E; simpl; [|done].
    apply shift_amount_spec in E as ->. intros [= <-]. split; [apply as_i32_range|].
    rewrite <- Z.shiftl_mul_pow2 by lia. apply as_i32_same.
  - destruct (shift_amount _ _) as [s|] eqn:E; simpl; [|done].
    apply shift_amount_spec in E as ->. intros [= <-]. split; [apply as_i32_range|].
    exists (as_u32 l). rewrite <- Z.shiftr_div_pow2 by lia. split_and!.
    + unfold as_u32. lia.
    + unfold as_u32. lia.
    + unfold as_u32, same32. exists (l / 4294967296)%Z. lia.
    + apply as_i32_same.
  - destruct (shift_amount _ _) as [s|] eqn:E; simpl; [|done].
    apply shift_amount_spec in E as ->. intros [= <-].
    assert (0 ≤ r mod 32)%Z as Hnn by lia. split; [by apply shiftr_in_range|].
    rewrite Z.shiftr_div_pow2 by lia.
    set (q := (2 ^ (r mod 32))%Z). assert (0 < q)%Z by (apply Z.pow_pos_nonneg; lia).
    pose proof (Z.div_mod l q ltac:(lia)). pose proof (Z.mod_pos_bound l q ltac:(lia)). nia.
Qed.

(** * The pass *)

Definition fold_const (ans : option Z) : vkind :=
  match ans with Some c => KInteger c | None => KUndef end.

Notation keys es := (map (λ e : value * option Z * bblock, e.1.1) es).

Lemma fold_value_inv checks g d a :
  fold_value checks g d = Some a →
  match a with
  | Some ans => ∃ op x y, foldable g d op x y ∧ fold_op checks op x y = Some ans
  | None => ∀ op x y, ¬ foldable g d op x y
  end.
Proof.
  unfold fold_value, foldable. destruct (v_kind d) eqn:Hk; try (intros [= <-]; naive_solver).
  destruct (d_values g !! lhs) as [dl|] eqn:El; simpl; [|done].
  destruct (d_values g !! rhs) as [dr|] eqn:Er; simpl; [|done].
  destruct (v_kind dl) eqn:Kl, (v_kind dr) eqn:Kr; try done;
    try (intros [= <-]; naive_solver congruence).
  destruct (fold_op _ _ _ _) as [ans|] eqn:Ef; simpl; [|done]. intros [= <-].
  eexists _, _, _. split; [|done]. eexists _, _, _, _. naive_solver.
Qed.

Lemma collect_folds_spec checks g l vs es :
  collect_folds checks g l vs = Some es →
  (∀ v ans bb, (v, ans, bb) ∈ es →
    v ∈ vs ∧ l_inst_bb l !! v = Some bb ∧
    ∃ d op x y, d_values g !! v = Some d ∧ foldable g d op x y ∧
      fold_op checks op x y = Some ans) ∧
  (∀ v, v ∈ vs → v ∉ keys es → ∃ d, d_values g !! v = Some d ∧ ∀ op x y, ¬ foldable g d op x y) ∧
  (NoDup vs → NoDup (keys es)).
Proof.
  revert es. induction vs as [|v vs IH]; intros es H; simpl in H.
  - injection H as <-. split_and!.
    + intros v ans bb Hin. by apply elem_of_nil in Hin.
    + intros v Hin. by apply elem_of_nil in Hin.
    + intros _. apply NoDup_nil_2.
  - destruct (d_values g !! v) as [d|] eqn:Ed; simpl in H; [|done].
    destruct (fold_value checks g d) as [a|] eqn:Ef; simpl in H; [|done].
    apply fold_value_inv in Ef. destruct a as [ans|].
    + destruct (parent_bb l v) as [bb|] eqn:Eb; simpl in H; [|done].
      destruct (collect_folds _ _ _ _) as [es'|] eqn:Ec; simpl in H; [|done].
      injection H as <-. destruct (IH _ eq_refl) as (H1 & H2 & H3).
      destruct Ef as (op & x & y & Hf1 & Hf2). split_and!.
      * intros v' ans' bb' Hin. apply elem_of_cons in Hin as [[= -> -> ->]|Hin].
        -- split; [by left|]. split; [done|]. eauto 10.
        -- destruct (H1 _ _ _ Hin) as (? & ? & ?). split; [by right|]. by split.
      * intros v' Hin Hk. simpl in Hk. apply elem_of_cons in Hin as [->|Hin]; [set_solver|].
        apply H2; set_solver.
      * intros Hnd. apply list.NoDup_cons in Hnd as [Hn Hnd]. simpl. apply NoDup_cons_2; [|auto].
        intros Hin. apply elem_of_list_fmap in Hin as ([[v' ans'] bb'] & Hv & Hin). simpl in Hv.
        subst v'. apply H1 in Hin as (? & _). done.
    + destruct (IH _ H) as (H1 & H2 & H3). split_and!.
      * intros v' ans' bb' Hin. destruct (H1 _ _ _ Hin) as (? & ? & ?). split; [by right|]. by split.
      * intros v' Hin Hk. apply elem_of_cons in Hin as [->|Hin]; [eauto|]. by apply H2.
      * intros Hnd. apply list.NoDup_cons in Hnd as [Hn Hnd]. auto.
Qed.

Lemma replace_folds_spec es gs g gs' g' :
  NoDup (keys es) →
  replace_folds es gs g = Some (gs', g') →
  skm gs' = skm gs ∧ pbm (d_bbs g') = pbm (d_bbs g) ∧
  (∀ v ans bb, (v, ans, bb) ∈ es → skm (d_values g') !! v = Some (TInt32, fold_const ans)) ∧
  (∀ v, v ∉ keys es → skm (d_values g') !! v = skm (d_values g) !! v).
Proof.
  revert gs g. induction es as [|[[v ans] bb] es IH]; intros gs g Hnd H; simpl in H.
  - injection H as <- <-. split_and!; try done. intros v ans bb Hin. by apply elem_of_nil in Hin.
  - destruct (dfg_replace_value_with_data _ _ _ _) as [[gs1 g1]|] eqn:Er; simpl in H; [|done].
    apply replace_sk in Er as (_ & Eg & Ev & Ep & _).
    simpl in Hnd. apply list.NoDup_cons in Hnd as [Hn Hnd].
    destruct (IH _ _ Hnd H) as (H1 & H2 & H3 & H4). split_and!; [congruence|congruence| |].
    + intros v' ans' bb' Hin. apply elem_of_cons in Hin as [[= -> -> ->]|Hin].
      * rewrite H4 by done. rewrite Ev, lookup_insert. done.
      * by eapply H3.
    + intros v' Hk. simpl in Hk. rewrite H4 by set_solver.
      rewrite Ev, lookup_insert_ne by set_solver. done.
Qed.

Lemma skm_lookup (m : gmap N vdata) v t k :
  skm m !! v = Some (t, k) → ∃ d, m !! v = Some d ∧ v_ty d = t ∧ v_kind d = k.
Proof.
  rewrite lookup_fmap. destruct (m !! v) as [d|]; simpl; [|done].
  intros [= <- <-]. eauto.
Qed.

Lemma eval_const_spec checks order gs d ch gs' d' :
  is_value_order order →
  eval_const checks order gs d = Some (ch, gs', d') →
  (∀ v x, d_values (f_dfg d) !! v = Some x →
    ∃ x', d_values (f_dfg d') !! v = Some x' ∧
      ((v_ty x' = v_ty x ∧ v_kind x' = v_kind x ∧
        ∀ op a b, ¬ foldable (f_dfg d) x op a b) ∨
       (v_ty x' = TInt32 ∧ ∃ op a b, foldable (f_dfg d) x op a b ∧
        ((∃ c, v_kind x' = KInteger c ∧ exec_op checks op a b = Some c) ∨
         (v_kind x' = KUndef ∧ (op = Div ∨ op = Mod_) ∧ b = 0%Z))))) ∧
  (∀ v, is_Some (d_values (f_dfg d') !! v) ↔ is_Some (d_values (f_dfg d) !! v)) ∧
  (ch = false ↔ ∀ v x op a b, d_values (f_dfg d) !! v = Some x → ¬ foldable (f_dfg d) x op a b).
Proof.
  intros Ho H. unfold eval_const in H.
  destruct (collect_folds _ _ _ _) as [es|] eqn:Ec; simpl in H; [|done].
  destruct (replace_folds _ _ _) as [[gs1 g1]|] eqn:Er; simpl in H; [|done].
  destruct (remove_folds _ _) as [l1|] eqn:El; simpl in H; [|done].
  injection H as <- <- <-. simpl.
  destruct (Ho (d_values (f_dfg d))) as [Hnd Hor].
  apply collect_folds_spec in Ec as (H1 & H2 & H3). specialize (H3 Hnd).
  apply replace_folds_spec in Er as (E1 & E2 & E3 & E4); [|done].
  assert (Hin : ∀ v, v ∈ keys es ↔ ∃ ans bb, (v, ans, bb) ∈ es).
  { intros v. rewrite elem_of_list_fmap. split.
    - intros ([[v' ans] bb] & -> & ?). eauto.
    - intros (ans & bb & ?). by exists (v, ans, bb). }
  split_and!.
  - intros v x Hx. destruct (decide (v ∈ keys es)) as [Hk|Hk].
    + apply Hin in Hk as (ans & bb & He). pose proof (E3 _ _ _ He) as Hs.
      apply skm_lookup in Hs as (x' & Hx' & Ht & Hkd). exists x'. split; [done|].
      right. split; [done|]. destruct (H1 _ _ _ He) as (_ & _ & x0 & op & a & b & Hx0 & Hf & Hop).
      assert (x0 = x) as -> by congruence. exists op, a, b. split; [done|].
      destruct ans as [c|]; simpl in Hkd.
      * left. exists c. split; [done|]. by apply fold_exec.
      * right. split; [done|]. by apply fold_undef in Hop.
    + pose proof (E4 _ Hk) as Hs. rewrite (lookup_fmap _ (d_values (f_dfg d))), Hx in Hs. simpl in Hs.
      apply skm_lookup in Hs as (x' & Hx' & Ht & Hkd). exists x'. split; [done|]. left.
      split_and!; [done..|]. destruct (H2 v) as (x0 & Hx0 & Hn); [|done|].
      * apply Hor. by exists x.
      * by assert (x0 = x) as -> by congruence.
  - intros v. rewrite <- !(fmap_is_Some sk), <- !lookup_fmap.
    destruct (decide (v ∈ keys es)) as [Hk|Hk]; [|by rewrite E4].
    apply Hin in Hk as (ans & bb & He). rewrite (E3 _ _ _ He).
    destruct (H1 _ _ _ He) as (_ & _ & x0 & _ & _ & _ & Hx0 & _).
    rewrite lookup_fmap, Hx0. by split.
  - rewrite negb_false_iff, Nat.eqb_eq. split.
    + intros Hl. apply nil_length_inv in Hl as ->. intros v x op a b Hx Hf.
      destruct (H2 v) as (x0 & Hx0 & Hn); [apply Hor; by exists x|set_solver|].
      assert (x0 = x) as -> by congruence. by eapply Hn.
    + intros Hall. destruct es as [|[[v ans] bb] es]; [done|]. exfalso.
      destruct (H1 v ans bb) as (_ & _ & x0 & op & a & b & Hx0 & Hf & _); [by left|].
      by eapply Hall.
Qed.

(** The layout afterwards *)
Lemma rev_exact_layout l : layout_exact l → linv l.
Proof. intros [H1 H2]. split; [done|]. intros v b. by rewrite H2. Qed.

Lemma linv_layout_exact l : linv l → layout_exact l.
Proof. intros [H1 H2]. split; [done|]. intros v b. by rewrite (H2 v b). Qed.

Lemma filter_all {A} (P : A → Prop) `{∀ x, Decision (P x)} (l : list A) :
  (∀ x, x ∈ l → P x) → filter P l = l.
Proof.
  induction l as [|x l IH]; intros Hl; [done|].
  rewrite filter_cons_True by (apply Hl; by left). f_equal. apply IH. intros y Hy. apply Hl. by right.
Qed.

Lemma inst_remove_all bb v l l1 :
  linv l → l_inst_bb l !! v = Some bb → inst_remove bb v l = Some l1 →
  linv l1 ∧ l_bbs l1 = map (λ x, (x.1, filter (λ u, u ≠ v) x.2)) (l_bbs l) ∧
  ∀ u, u ≠ v → l_inst_bb l1 !! u = l_inst_bb l !! u.
Proof.
  intros Hl Hv E1. split.
  { eapply (lstep_linv (LRemove bb v) l l1); [done|exact I|]. simpl. done. }
  pose proof Hl as [[Hn1 Hn2] Hre]. pose proof (proj1 (Hre v bb) Hv) as (is & His & Hvi).
  destruct (inst_remove_spec bb v l is (conj Hn1 Hn2) His) as (l2 & E2 & Ho & _ & Hdel).
  assert (l2 = l1) as -> by congruence. specialize (Hdel Hvi). split.
  - destruct Ho as (a & b & Ha & Hb). rewrite Hb, Ha, map_app. simpl.
    assert (Hout : ∀ b0 is0, (b0, is0) ∈ a ++ b → v ∉ is0).
    { intros b0 is0 Hin Hv0.
      assert (Hin' : (b0, is0) ∈ l_bbs l).
      { rewrite Ha. rewrite elem_of_app in *. rewrite elem_of_cons. tauto. }
      assert (b0 = bb) as -> by (eapply linv_unique; [done|by exists is0|by exists is]).
      unfold blocks in Hn1. rewrite Ha, map_app in Hn1. simpl in Hn1.
      apply NoDup_app in Hn1 as (_ & Hd & Hn). apply list.NoDup_cons in Hn as [Hn _].
      apply elem_of_app in Hin as [Hin|Hin].
      - apply (Hd bb); [|by left]. apply elem_of_list_fmap. by exists (bb, is0).
      - apply Hn. apply elem_of_list_fmap. by exists (bb, is0). }
    assert (Hmap : ∀ c, (∀ b0 is0, (b0, is0) ∈ c → v ∉ is0) →
      map (λ x : N * list N, (x.1, filter (λ u, u ≠ v) x.2)) c = c).
    { intros c Hc. rewrite <- (map_id c) at 2. apply map_ext_in. intros [b0 is0] Hin. simpl.
      unfold id. f_equal. apply filter_all. intros x Hx ->. eapply Hc; [|done].
      by apply elem_of_list_In. }
    rewrite !Hmap; [done| |].
    + intros b0 is0 Hin. eapply Hout. apply elem_of_app. by right.
    + intros b0 is0 Hin. eapply Hout. apply elem_of_app. by left.
  - intros u Hu. rewrite Hdel. by apply lookup_delete_ne.
Qed.

Lemma remove_folds_spec es l l' :
  linv l → (∀ v ans bb, (v, ans, bb) ∈ es → l_inst_bb l !! v = Some bb) →
  NoDup (keys es) →
  remove_folds es l = Some l' →
  linv l' ∧
  l_bbs l' = map (λ x, (x.1, filter (λ v, v ∉ keys es) x.2)) (l_bbs l).
Proof.
  revert l. induction es as [|[[v ans] bb] es IH]; intros l Hl Hbb Hnd H.
  - injection H as <-. split; [done|]. rewrite <- (map_id (l_bbs l)) at 1. apply map_ext.
    intros [b is]. unfold id. simpl. f_equal. symmetry. apply filter_all. set_solver.
  - simpl in H. destruct (inst_remove bb v l) as [l1|] eqn:E1; simpl in H; [|done].
    simpl in Hnd. apply list.NoDup_cons in Hnd as [Hn Hnd].
    apply inst_remove_all in E1 as (Hl1 & Hb1 & Hi1); [|done|by eapply Hbb; left].
    destruct (IH l1) as [H1 H2]; [done| |done|done|].
    + intros u a b Hin. rewrite Hi1.
      * eapply Hbb. right. done.
      * intros ->. apply Hn. apply elem_of_list_fmap. by exists (v, a, b).
    + split; [done|]. rewrite H2, Hb1, map_map. apply map_ext. intros [b is]. simpl. f_equal.
      rewrite list_filter_filter. apply list_filter_iff. intros x. rewrite elem_of_cons. tauto.
Qed.

Lemma eval_const_layout checks order gs d ch gs' d' :
  is_value_order order → layout_exact (f_layout d) →
  eval_const checks order gs d = Some (ch, gs', d') →
  layout_exact (f_layout d') ∧
  ∃ folded : list N,
    (∀ v, v ∈ folded ↔ ∃ x op a b,
        d_values (f_dfg d) !! v = Some x ∧ foldable (f_dfg d) x op a b) ∧
    l_bbs (f_layout d') =
      map (λ x, (x.1, filter (λ v, v ∉ folded) x.2)) (l_bbs (f_layout d)).
Proof.
  intros Ho Hl H. unfold eval_const in H.
  destruct (collect_folds _ _ _ _) as [es|] eqn:Ec; simpl in H; [|done].
  destruct (replace_folds _ _ _) as [[gs1 g1]|] eqn:Er; simpl in H; [|done].
  destruct (remove_folds _ _) as [l1|] eqn:El; simpl in H; [|done].
  injection H as <- <- <-. simpl.
  destruct (Ho (d_values (f_dfg d))) as [Hnd Hor].
  apply collect_folds_spec in Ec as (H1 & H2 & H3). specialize (H3 Hnd).
  apply remove_folds_spec in El as [E1 E2]; [| |intros; by eapply H1|done].
  2: by apply rev_exact_layout.
  split; [by apply linv_layout_exact|]. exists (keys es). split; [|done].
  intros v. split.
  - intros Hk. apply elem_of_list_fmap in Hk as ([[v' ans] bb] & -> & Hin).
    destruct (H1 _ _ _ Hin) as (_ & _ & x & op & a & b & ? & ? & _). eauto 10.
  - intros (x & op & a & b & Hx & Hf). destruct (decide (v ∈ keys es)) as [|Hk]; [done|].
    destruct (H2 v) as (x0 & Hx0 & Hn); [apply Hor; by exists x|done|].
    assert (x0 = x) as -> by congruence. by apply Hn in Hf.
Qed.

(** The loop ends: every round that changes something removes a binary instruction. *)
Definition is_binary (k : vkind) : bool := match k with KBinary _ _ _ => true | _ => false end.

Definition binaries (g : dfg) : gset N :=
  dom (filter (λ x : N * vdata, is_binary (v_kind x.2) = true) (d_values g)).

Lemma elem_of_binaries g v :
  v ∈ binaries g ↔ ∃ d, d_values g !! v = Some d ∧ is_binary (v_kind d) = true.
Proof.
  unfold binaries. rewrite elem_of_dom. split.
  - intros [d Hd]. apply map_filter_lookup_Some in Hd. eauto.
  - intros (d & H1 & H2). exists d. apply map_filter_lookup_Some. by split.
Qed.

Lemma eval_const_decreases checks order gs d gs' d' :
  is_value_order order →
  eval_const checks order gs d = Some (true, gs', d') →
  (base.size (binaries (f_dfg d')) < base.size (binaries (f_dfg d)))%nat.
Proof.
  intros Ho H. apply eval_const_spec in H as (H1 & H2 & H3); [|done].
  apply subset_size.
  assert (Hsub : binaries (f_dfg d') ⊆ binaries (f_dfg d)).
  { intros v. rewrite !elem_of_binaries. intros (x' & Hx' & Hb).
    destruct (proj1 (H2 v)) as [x Hx]; [by exists x'|]. exists x. split; [done|].
    destruct (H1 _ _ Hx) as (x2 & Hx2 & [(_ & Hk & _)|(_ & op & a & b & Hf & _)]).
    - assert (x2 = x') as -> by congruence. by rewrite <- Hk.
    - destruct Hf as (l & r & dl & dr & -> & _). done. }
  split; [done|]. intros Hsup.
  assert (Hno : ∀ v x op a b, d_values (f_dfg d) !! v = Some x → ¬ foldable (f_dfg d) x op a b).
  { intros v x op a b Hx Hf.
    assert (Hv : v ∈ binaries (f_dfg d)).
    { apply elem_of_binaries. exists x. split; [done|]. by destruct Hf as (l & r & dl & dr & -> & _). }
    apply Hsup, elem_of_binaries in Hv as (x' & Hx' & Hb).
    destruct (H1 _ _ Hx) as (x2 & Hx2 & [(_ & _ & Hn)|(_ & op2 & a2 & b2 & _ & Hc)]); [by eapply Hn|].
    assert (x2 = x') as -> by congruence.
    destruct Hc as [(c & Hk & _)|[Hk _]]; rewrite Hk in Hb; done. }
  by apply H3 in Hno.
Qed.

Lemma fold_loop_terminates fuel checks order gs d r :
  is_value_order order → (base.size (binaries (f_dfg d)) < fuel)%nat →
  fold_loop fuel checks order gs d = Some r →
  r.2 = true ∧ ∀ v x op a b, d_values (f_dfg r.1.2) !! v = Some x →
    ¬ foldable (f_dfg r.1.2) x op a b.
Proof.
  intros Ho. revert gs d. induction fuel as [|n IH]; intros gs d Hlt H; [lia|].
  simpl in H. destruct (eval_const checks order gs d) as [[[ch gs1] d1]|] eqn:E; simpl in H; [|done].
  destruct ch.
  - apply (IH gs1 d1); [|done]. apply eval_const_decreases in E; [lia|done].
  - injection H as <-. simpl. split; [done|].
    apply eval_const_spec in E as (E1 & E2 & E3); [|done].
    pose proof (proj1 E3 eq_refl) as Hno. clear E3.
    intros v x' op a b Hx' (l & r & dl & dr & Hk & Hl & Hkl & Hr & Hkr).
    assert (Hback : ∀ u y', d_values (f_dfg d1) !! u = Some y' →
      ∃ y, d_values (f_dfg d) !! u = Some y ∧ v_kind y = v_kind y').
    { intros u y' Hy'. destruct (proj1 (E2 u)) as [y Hy]; [by exists y'|]. exists y. split; [done|].
      destruct (E1 _ _ Hy) as (y2 & Hy2 & [(_ & Hk2 & _)|(_ & op2 & a2 & b2 & Hf & _)]).
      - congruence.
      - by apply (Hno _ _ _ _ _ Hy) in Hf. }
    destruct (Hback _ _ Hx') as (x & Hx & Hkx). destruct (Hback _ _ Hl) as (dl0 & Hl0 & Hkl0).
    destruct (Hback _ _ Hr) as (dr0 & Hr0 & Hkr0).
    apply (Hno v x op a b Hx). exists l, r, dl0, dr0. split_and!; congruence.
Qed.

(** * Block parameters in the interpreter *)

(** If no argument is a non-constant parameter bound earlier in the same jump, the
    parameters end up with the values before the jump. *)
Lemma eval_value_insert fuel g gvars vals p x a :
  a ≠ p → eval_value fuel g gvars (<[p := x]> vals) a = eval_value fuel g gvars vals a.
Proof.
  intros Ha. unfold eval_value. destruct (is_global_id a); [done|].
  destruct (d_values g !! a); simpl; [|done].
  destruct (is_const _); [done|]. by rewrite lookup_insert_ne.
Qed.

Lemma bind_params_simultaneous fuel g gvars ps args vals vals' :
  bind_params fuel g gvars ps args vals = Some vals' →
  NoDup ps →
  (∀ i j p, ps !! i = Some p → args !! j = Some p → (j ≤ i)%nat) →
  (∀ i p a, ps !! i = Some p → args !! i = Some a →
    vals' !! p = eval_value fuel g gvars vals a) ∧
  (∀ p, p ∉ ps → vals' !! p = vals !! p).
Proof.
  revert args vals. induction ps as [|p ps IH]; intros args vals H Hnd Hord.
  - injection H as <-. split; [|done]. intros i p a Hp. by rewrite lookup_nil in Hp.
  - destruct args as [|a args].
    { injection H as <-. split; [|done]. intros i q a _ Ha. by rewrite lookup_nil in Ha. }
    simpl in H. destruct (eval_value fuel g gvars vals a) as [x|] eqn:Ex; simpl in H; [|done].
    apply list.NoDup_cons in Hnd as [Hn Hnd].
    destruct (IH _ _ H Hnd) as [H1 H2].
    { intros i j q Hq Ha. assert (S j ≤ S i)%nat; [|lia]. by apply (Hord (S i) (S j) q). }
    split.
    + intros [|i] q b Hq Hb; simpl in Hq, Hb.
      * injection Hq as <-. injection Hb as <-. rewrite H2, lookup_insert by done. by rewrite Ex.
      * rewrite (H1 _ _ _ Hq Hb). apply eval_value_insert. intros ->.
        specialize (Hord 0%nat (S i) p eq_refl Hb). lia.
    + intros q Hq. rewrite H2, lookup_insert_ne by set_solver. done.
Qed.
