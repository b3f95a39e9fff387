(** Proofs about the name manager (C17, C18). *)
From Verif Require Import Base NameModel NameSpec.
From Coq Require Import Lia.

(** * Candidates are found *)

Lemma append_inj_l (a b c : string) : a +:+ b = a +:+ c → b = c.
Proof. induction a as [|x a IH]; simpl; [done|]. intros [= H]. auto. Qed.

Lemma next_free_Some fuel name id names n :
  next_free fuel name id names = Some n →
  n ∉ names ∧ ∃ j : N, n = name +:+ "_" +:+ pretty j.
Proof.
  revert id. induction fuel as [|f IH]; simpl; intros id H; [done|].
  destruct (decide _) as [Hi|Hi]; [by eapply IH|].
  injection H as <-. split; [done|by eexists].
Qed.

Arguments next_free : simpl never.

Definition cand (name : string) (j : N) : string := name +:+ "_" +:+ pretty j.

Lemma cand_inj name j k : cand name j = cand name k → j = k.
Proof.
  unfold cand. intros H. apply append_inj_l in H. apply append_inj_l in H.
  by apply (inj pretty) in H.
Qed.

Lemma next_free_None fuel name id names :
  next_free fuel name id names = None →
  ∀ j, (id ≤ j < id + N.of_nat fuel)%N → cand name j ∈ names.
Proof.
  revert id. induction fuel as [|f IH]; intros id H j Hj; [lia|].
  unfold next_free in H; fold next_free in H.
  destruct (decide _) as [Hi|Hi]; [|done].
  destruct (decide (j = id)) as [->|Hne]; [done|].
  apply (IH _ H). lia.
Qed.

(** The loop of [next_name_str] always finds a name within the first [size names + 1]
    candidates. *)
Lemma next_free_ok name names : is_Some (next_free (S (size names)) name 0 names).
Proof.
  destruct (next_free _ _ _ _) eqn:H; [done|]. exfalso.
  pose proof (next_free_None _ _ _ _ H) as Hall.
  set (l := map (λ i, cand name (N.of_nat i)) (seq 0 (S (size names)))).
  assert (Hnd : NoDup l).
  { apply NoDup_fmap_2; [|apply NoDup_seq]. intros i j Hij. apply cand_inj in Hij. lia. }
  assert (Hsub : list_to_set l ⊆ names).
  { intros s Hs. apply elem_of_list_to_set in Hs. apply elem_of_list_fmap in Hs as (i & -> & Hi).
    apply elem_of_seq in Hi. apply Hall. lia. }
  apply subseteq_size in Hsub. rewrite size_list_to_set in Hsub by done.
  unfold l in Hsub. rewrite map_length, seq_length in Hsub. lia.
Qed.

Lemma next_name_str_Some p name names n names' :
  next_name_str p name names = Some (n, names') →
  n ∉ names ∧ names' = {[n]} ∪ names ∧
  ∃ s, prefix_name p name = Some s ∧
    (n = s ∨ (s ∈ names ∧ ∃ j : N, n = s +:+ "_" +:+ pretty j)).
Proof.
  unfold next_name_str. destruct (prefix_name p name) as [s|]; simpl; [|done].
  destruct (decide _) as [Hi|Hi].
  - destruct (next_free _ _ _ _) as [n'|] eqn:Hn; simpl; [|done].
    intros [= <- <-]. apply next_free_Some in Hn as [Hn (j & Hj)].
    split_and!; [done|done|]. eexists; split; [done|]. right. eauto.
  - intros [= <- <-]. split_and!; [done|done|]. eauto.
Qed.

Lemma next_name_str_total p name names :
  is_Some (prefix_name p name) → is_Some (next_name_str p name names).
Proof.
  intros [s Hs]. unfold next_name_str. rewrite Hs. simpl. destruct (decide _); [|done].
  destruct (next_free_ok s names) as [n ->]. by eexists.
Qed.

(** * The unconditional invariant: the maps are the live names *)

Record inv1 (i : nat) (L : list (entity * string)) (m : nm) : Prop := {
  i1_funcs p s : nm_funcs m !! p = Some s ↔ (EFunc p, s) ∈ L;
  i1_gvars p s : nm_gvars m !! p = Some s ↔ (EGlobal p, s) ∈ L;
  i1_bbs p s : nm_bbs m !! p = Some s ↔ (EBlock p, s) ∈ L;
  i1_values p s : nm_in_func m = true → nm_values m !! p = Some s ↔ (ELocal p, s) ∈ L;
  i1_scope : nm_in_func m = false → ∀ e s, (e, s) ∈ L → is_scoped e = false;
  i1_gnames s : s ∈ nm_global_names m → ∃ e, (e, s) ∈ L ∧ is_block e = false;
  i1_bnames s : s ∈ nm_bb_names m → ∃ e, (e, s) ∈ L ∧ is_block e = true;
  i1_temps j s : (ETemp j, s) ∈ L → (j < i)%nat;
  i1_temps_fun j s s' : (ETemp j, s) ∈ L → (ETemp j, s') ∈ L → s = s';
}.

Lemma inv1_nm0 : inv1 0 [] nm0.
Proof.
  split; simpl; intros; try rewrite lookup_empty in *; try set_solver.
  all: split; [done|set_solver].
Qed.

(** What one request does to the live names. *)
Definition live1 (i : nat) (r : nreq) (a : option string) (L : list (entity * string)) :=
  match r with
  | QEnter | QExit => filter (λ x, is_scoped x.1 = false) L
  | _ => match asked i r, a with Some e, Some s => (e, s) :: L | _, _ => L end
  end.

Lemma live_cons i r a h L : live i ((r, a) :: h) L = live (S i) h (live1 i r a L).
Proof. done. Qed.

Lemma filter_scoped_id (L : list (entity * string)) :
  (∀ e s, (e, s) ∈ L → is_scoped e = false) → filter (λ x, is_scoped x.1 = false) L = L.
Proof.
  induction L as [|[e s] L IH]; intros H; [done|].
  rewrite filter_cons_True.
  - rewrite IH; [done|]. intros e' s' H'. eapply H. by right.
  - simpl. eapply H. by left.
Qed.

Definition ok_scope (b : bool) (r : nreq) : bool :=
  match r with QLocal _ _ | QBB _ _ => b | _ => true end.

Lemma inv1_weaken i L m : inv1 i L m → inv1 (S i) L m.
Proof. intros []. split; auto. intros j s Hj. apply i1_temps0 in Hj. lia. Qed.

(** asking again for a name that is already there changes nothing *)
Lemma inv1_again i L m e s : (e, s) ∈ L → inv1 i L m → inv1 (S i) ((e, s) :: L) m.
Proof.
  intros He HI. apply inv1_weaken in HI.
  assert (Hx : ∀ x, x ∈ (e, s) :: L ↔ x ∈ L) by set_solver.
  destruct HI. split; intros *; rewrite ?Hx; auto.
  - intros Hf e' s'. rewrite Hx. eauto.
  - intros H. destruct (i1_gnames0 _ H) as (e' & ? & ?). exists e'. by rewrite Hx.
  - intros H. destruct (i1_bnames0 _ H) as (e' & ? & ?). exists e'. by rewrite Hx.
  - apply i1_temps0.
  - eauto.
Qed.

Lemma next_name_names p id name names n id' names' :
  next_name p id name names = Some (n, id', names') → names' = {[n]} ∪ names.
Proof.
  unfold next_name. destruct name as [name|].
  - destruct (next_name_str _ _ _) as [[n0 ns]|] eqn:H; simpl; [|done].
    intros [= <- <- <-]. apply next_name_str_Some in H as (_ & -> & _). done.
  - intros [= <- <- <-]. done.
Qed.

Ltac ins p0 p :=
  destruct (decide (p0 = p)) as [->|?];
  [rewrite lookup_insert | rewrite lookup_insert_ne by done].

Lemma inv1_func i L m p n m' s :
  inv1 i L m → func_name p n m = Some (s, m') → inv1 (S i) ((EFunc p, s) :: L) m'.
Proof.
  intros HI. unfold func_name. destruct (nm_funcs m !! p) as [s0|] eqn:Hp.
  - intros [= <- <-]. apply inv1_again; [|done]. by apply (i1_funcs _ _ _ HI).
  - destruct (next_name_str _ _ _) as [[n0 ns]|] eqn:Hn; simpl; [|done]. intros [= <- <-].
    apply next_name_str_Some in Hn as (_ & -> & _).
    apply inv1_weaken in HI. destruct HI.
    split; simpl; intros *; rewrite ?elem_of_cons; auto.
    + ins p0 p.
      * split; [intros [= <-]; by left|].
        intros [[= ->]|Hl]; [done|]. apply i1_funcs0 in Hl. congruence.
      * rewrite i1_funcs0. split; [by right|intros [[= ]|?]; [congruence|done]].
    + rewrite i1_gvars0. split; [by right|intros [[= ]|?]; done].
    + rewrite i1_bbs0. split; [by right|intros [[= ]|?]; done].
    + intros Hf. rewrite i1_values0 by done. split; [by right|intros [[= ]|?]; done].
    + intros Hf e s. rewrite elem_of_cons. intros [[= -> ->]|?]; [done|eauto].
    + rewrite elem_of_union, elem_of_singleton. intros [->|H].
      * eexists. rewrite elem_of_cons. by split; [left|].
      * apply i1_gnames0 in H as (e & ? & ?). exists e. rewrite elem_of_cons. by split; [right|].
    + intros H. apply i1_bnames0 in H as (e & ? & ?). exists e. rewrite elem_of_cons. by split; [right|].
    + intros [[= ]|?]; eauto.
    + intros [[= ]|?] [[= ]|?]; eauto.
Qed.

Lemma inv1_bb i L m p n m' s :
  inv1 i L m → nm_in_func m = true →
  bb_name_ p n m = Some (s, m') → inv1 (S i) ((EBlock p, s) :: L) m'.
Proof.
  intros HI Hin. unfold bb_name_. destruct (nm_bbs m !! p) as [s0|] eqn:Hp.
  - intros [= <- <-]. apply inv1_again; [|done]. by apply (i1_bbs _ _ _ HI).
  - destruct (next_name _ _ _ _) as [[[n0 id] ns]|] eqn:Hn; simpl; [|done]. intros [= <- <-].
    apply next_name_names in Hn as ->.
    apply inv1_weaken in HI. destruct HI.
    split; simpl; intros *; rewrite ?elem_of_cons; auto.
    + rewrite i1_funcs0. split; [by right|intros [[= ]|?]; done].
    + rewrite i1_gvars0. split; [by right|intros [[= ]|?]; done].
    + ins p0 p.
      * split; [intros [= <-]; by left|].
        intros [[= ->]|Hl]; [done|]. apply i1_bbs0 in Hl. congruence.
      * rewrite i1_bbs0. split; [by right|intros [[= ]|?]; [congruence|done]].
    + intros Hf. rewrite i1_values0 by done. split; [by right|intros [[= ]|?]; done].
    + congruence.
    + intros H. apply i1_gnames0 in H as (e & ? & ?). exists e. rewrite elem_of_cons. by split; [right|].
    + rewrite elem_of_union, elem_of_singleton. intros [->|H].
      * eexists. rewrite elem_of_cons. by split; [left|].
      * apply i1_bnames0 in H as (e & ? & ?). exists e. rewrite elem_of_cons. by split; [right|].
    + intros [[= ]|?]; eauto.
    + intros [[= ]|?] [[= ]|?]; eauto.
Qed.

Lemma inv1_global i L m p n m' s :
  inv1 i L m → value_name true p n m = Some (s, m') → inv1 (S i) ((EGlobal p, s) :: L) m'.
Proof.
  intros HI. unfold value_name. destruct (nm_gvars m !! p) as [s0|] eqn:Hp.
  - intros [= <- <-]. apply inv1_again; [|done]. by apply (i1_gvars _ _ _ HI).
  - destruct (next_name _ _ _ _) as [[[n0 id] ns]|] eqn:Hn; simpl; [|done]. intros [= <- <-].
    apply next_name_names in Hn as ->.
    apply inv1_weaken in HI. destruct HI.
    split; simpl; intros *; rewrite ?elem_of_cons; auto.
    + rewrite i1_funcs0. split; [by right|intros [[= ]|?]; done].
    + ins p0 p.
      * split; [intros [= <-]; by left|].
        intros [[= ->]|Hl]; [done|]. apply i1_gvars0 in Hl. congruence.
      * rewrite i1_gvars0. split; [by right|intros [[= ]|?]; [congruence|done]].
    + rewrite i1_bbs0. split; [by right|intros [[= ]|?]; done].
    + intros Hf. rewrite i1_values0 by done. split; [by right|intros [[= ]|?]; done].
    + intros Hf e s. rewrite elem_of_cons. intros [[= -> ->]|?]; [done|eauto].
    + rewrite elem_of_union, elem_of_singleton. intros [->|H].
      * eexists. rewrite elem_of_cons. by split; [left|].
      * apply i1_gnames0 in H as (e & ? & ?). exists e. rewrite elem_of_cons. by split; [right|].
    + intros H. apply i1_bnames0 in H as (e & ? & ?). exists e. rewrite elem_of_cons. by split; [right|].
    + intros [[= ]|?]; eauto.
    + intros [[= ]|?] [[= ]|?]; eauto.
Qed.

Lemma inv1_local i L m p n m' s :
  inv1 i L m → nm_in_func m = true →
  value_name false p n m = Some (s, m') → inv1 (S i) ((ELocal p, s) :: L) m'.
Proof.
  intros HI Hin. unfold value_name. destruct (nm_values m !! p) as [s0|] eqn:Hp.
  - intros [= <- <-]. apply inv1_again; [|done]. by apply (i1_values _ _ _ HI).
  - destruct (next_name _ _ _ _) as [[[n0 id] ns]|] eqn:Hn; simpl; [|done]. intros [= <- <-].
    apply next_name_names in Hn as ->.
    apply inv1_weaken in HI. destruct HI.
    split; simpl; intros *; rewrite ?elem_of_cons; auto.
    + rewrite i1_funcs0. split; [by right|intros [[= ]|?]; done].
    + rewrite i1_gvars0. split; [by right|intros [[= ]|?]; done].
    + rewrite i1_bbs0. split; [by right|intros [[= ]|?]; done].
    + intros Hf. ins p0 p.
      * split; [intros [= <-]; by left|].
        intros [[= ->]|Hl]; [done|]. apply i1_values0 in Hl; [congruence|done].
      * rewrite i1_values0 by done. split; [by right|intros [[= ]|?]; [congruence|done]].
    + congruence.
    + rewrite elem_of_union, elem_of_singleton. intros [->|H].
      * eexists. rewrite elem_of_cons. by split; [left|].
      * apply i1_gnames0 in H as (e & ? & ?). exists e. rewrite elem_of_cons. by split; [right|].
    + intros H. apply i1_bnames0 in H as (e & ? & ?). exists e. rewrite elem_of_cons. by split; [right|].
    + intros [[= ]|?]; eauto.
    + intros [[= ]|?] [[= ]|?]; eauto.
Qed.

Lemma inv1_temp i L m m' s :
  inv1 i L m → temp_value_name m = Some (s, m') → inv1 (S i) ((ETemp i, s) :: L) m'.
Proof.
  intros HI. unfold temp_value_name, next_name. simpl. intros [= <- <-].
  assert (Ht : ∀ s, (ETemp i, s) ∉ L).
  { intros s Hs. apply (i1_temps _ _ _ HI) in Hs. lia. }
  apply inv1_weaken in HI. destruct HI.
  split; simpl; intros *; rewrite ?elem_of_cons; auto.
  + rewrite i1_funcs0. split; [by right|intros [[= ]|?]; done].
  + rewrite i1_gvars0. split; [by right|intros [[= ]|?]; done].
  + rewrite i1_bbs0. split; [by right|intros [[= ]|?]; done].
  + intros Hf. rewrite i1_values0 by done. split; [by right|intros [[= ]|?]; done].
  + intros Hf e s. rewrite elem_of_cons. intros [[= -> ->]|?]; [done|eauto].
  + rewrite elem_of_union, elem_of_singleton. intros [->|H].
    * eexists. rewrite elem_of_cons. by split; [left|].
    * apply i1_gnames0 in H as (e & ? & ?). exists e. rewrite elem_of_cons. by split; [right|].
  + intros H. apply i1_bnames0 in H as (e & ? & ?). exists e. rewrite elem_of_cons. by split; [right|].
  + intros [[= -> ->]|?]; [lia|eauto].
  + intros [[= -> ->]|H1] [[= ]|H2]; subst; try done; [by apply Ht in H2|by apply Ht in H1|eauto].
Qed.

Lemma elem_of_values_names (vs : gmap N string) s :
  s ∈ (list_to_set (map snd (map_to_list vs)) : gset string) ↔ ∃ p, vs !! p = Some s.
Proof.
  rewrite elem_of_list_to_set, elem_of_list_fmap. split.
  - intros ([p s'] & -> & Hp). apply elem_of_map_to_list in Hp. eauto.
  - intros (p & Hp). exists (p, s). split; [done|]. by apply elem_of_map_to_list.
Qed.

Lemma inv1_enter i L m m' :
  inv1 i L m → enter_func_scope m = Some m' →
  inv1 (S i) (filter (λ x, is_scoped x.1 = false) L) m'.
Proof.
  intros HI. unfold enter_func_scope. destruct (nm_in_func m) eqn:Hf; [done|].
  intros [= <-]. rewrite filter_scoped_id by exact (i1_scope _ _ _ HI Hf).
  apply inv1_weaken in HI. destruct HI. split; simpl; auto; [|done].
  intros p s _. rewrite lookup_empty. split; [done|]. intros H.
  by pose proof (i1_scope0 Hf _ _ H).
Qed.

Lemma inv1_exit i L m m' :
  inv1 i L m → exit_func_scope m = Some m' →
  inv1 (S i) (filter (λ x, is_scoped x.1 = false) L) m'.
Proof.
  intros HI. unfold exit_func_scope. destruct (nm_in_func m) eqn:Hf; [|done].
  intros [= <-]. apply inv1_weaken in HI. destruct HI.
  split; simpl; intros *; rewrite ?elem_of_list_filter; simpl.
  - rewrite i1_funcs0. naive_solver.
  - rewrite i1_gvars0. naive_solver.
  - rewrite lookup_empty. naive_solver.
  - done.
  - intros _ e s. rewrite elem_of_list_filter. naive_solver.
  - rewrite elem_of_difference, elem_of_values_names. intros [Hs Hn].
    destruct (i1_gnames0 _ Hs) as (e & He & Hb). exists e. split; [|done].
    rewrite elem_of_list_filter. split; [|done]. simpl.
    destruct e; try done. destruct Hn. exists p. by apply i1_values0.
  - set_solver.
  - intros [_ ?]. eauto.
  - intros [_ ?] [_ ?]. eauto.
Qed.

Lemma inv1_step i L m r a m' :
  inv1 i L m → ok_scope (nm_in_func m) r = true →
  serve_name r m = Some (a, m') → inv1 (S i) (live1 i r a L) m'.
Proof.
  intros HI Hs. destruct r; simpl.
  - destruct (enter_func_scope m) as [m1|] eqn:H; simpl; [|done]. intros [= <- <-].
    by eapply inv1_enter.
  - destruct (exit_func_scope m) as [m1|] eqn:H; simpl; [|done]. intros [= <- <-].
    by eapply inv1_exit.
  - intros [= <- <-]. apply inv1_weaken in HI. destruct HI. by split.
  - destruct (func_name _ _ _) as [[s m1]|] eqn:H; simpl; [|done]. intros [= <- <-].
    by eapply inv1_func.
  - destruct (bb_name_ _ _ _) as [[s m1]|] eqn:H; simpl; [|done]. intros [= <- <-].
    by eapply inv1_bb.
  - destruct (value_name _ _ _ _) as [[s m1]|] eqn:H; simpl; [|done]. intros [= <- <-].
    by eapply inv1_global.
  - destruct (value_name _ _ _ _) as [[s m1]|] eqn:H; simpl; [|done]. intros [= <- <-].
    by eapply inv1_local.
  - intros [= <- <-]. by eapply inv1_temp.
Qed.

Lemma serve_name_scope r m a m' :
  serve_name r m = Some (a, m') →
  nm_in_func m' = match r with QEnter => true | QExit => false | _ => nm_in_func m end.
Proof.
  destruct r; simpl.
  - unfold enter_func_scope. destruct (nm_in_func m); simpl; [done|]. by intros [= <- <-].
  - unfold exit_func_scope. destruct (nm_in_func m); simpl; [|done]. by intros [= <- <-].
  - by intros [= <- <-].
  - unfold func_name. destruct (nm_funcs m !! _); simpl; [by intros [= <- <-]|].
    destruct (next_name_str _ _ _) as [[]|]; simpl; [|done]. by intros [= <- <-].
  - unfold bb_name_. destruct (nm_bbs m !! _); simpl; [by intros [= <- <-]|].
    destruct (next_name _ _ _ _) as [[[]]|]; simpl; [|done]. by intros [= <- <-].
  - unfold value_name. destruct (nm_gvars m !! _); simpl; [by intros [= <- <-]|].
    destruct (next_name _ _ _ _) as [[[]]|]; simpl; [|done]. by intros [= <- <-].
  - unfold value_name. destruct (nm_values m !! _); simpl; [by intros [= <- <-]|].
    destruct (next_name _ _ _ _) as [[[]]|]; simpl; [|done]. by intros [= <- <-].
  - by intros [= <- <-].
Qed.

Lemma serve_name_prefix r m a m' :
  serve_name r m = Some (a, m') →
  nm_prefix m' = match r with QPrefix p => p | _ => nm_prefix m end.
Proof.
  destruct r; simpl.
  - unfold enter_func_scope. destruct (nm_in_func m); simpl; [done|]. by intros [= <- <-].
  - unfold exit_func_scope. destruct (nm_in_func m); simpl; [|done]. by intros [= <- <-].
  - by intros [= <- <-].
  - unfold func_name. destruct (nm_funcs m !! _); simpl; [by intros [= <- <-]|].
    destruct (next_name_str _ _ _) as [[]|]; simpl; [|done]. by intros [= <- <-].
  - unfold bb_name_. destruct (nm_bbs m !! _); simpl; [by intros [= <- <-]|].
    destruct (next_name _ _ _ _) as [[[]]|]; simpl; [|done]. by intros [= <- <-].
  - unfold value_name. destruct (nm_gvars m !! _); simpl; [by intros [= <- <-]|].
    destruct (next_name _ _ _ _) as [[[]]|]; simpl; [|done]. by intros [= <- <-].
  - unfold value_name. destruct (nm_values m !! _); simpl; [by intros [= <- <-]|].
    destruct (next_name _ _ _ _) as [[[]]|]; simpl; [|done]. by intros [= <- <-].
  - by intros [= <- <-].
Qed.

Lemma well_scoped_cons b r rs :
  well_scoped b (r :: rs) =
  ok_scope b r && well_scoped (match r with QEnter => true | QExit => false | _ => b end) rs.
Proof. by destruct r. Qed.

Lemma serve_names_cons r rs m h m' :
  serve_names (r :: rs) m = Some (h, m') →
  ∃ a m1 h1, serve_name r m = Some (a, m1) ∧ serve_names rs m1 = Some (h1, m') ∧
    h = (r, a) :: h1.
Proof.
  simpl. destruct (serve_name r m) as [[a m1]|] eqn:H1; simpl; [|done].
  destruct (serve_names rs m1) as [[h1 m2]|] eqn:H2; simpl; [|done].
  intros [= <- <-]. eauto 10.
Qed.

Lemma inv1_run rs i L m h m' :
  inv1 i L m → well_scoped (nm_in_func m) rs = true →
  serve_names rs m = Some (h, m') → inv1 (i + length rs) (live i h L) m'.
Proof.
  revert i L m h. induction rs as [|r rs IH]; intros i L m h HI Hw H.
  - injection H as <- <-. simpl. by rewrite Nat.add_0_r.
  - rewrite well_scoped_cons in Hw. apply andb_true_iff in Hw as [Ho Hw].
    apply serve_names_cons in H as (a & m1 & h1 & Hs & Hr & ->).
    rewrite live_cons. simpl. rewrite Nat.add_succ_r, <- Nat.add_succ_l.
    eapply IH; [by eapply inv1_step| |done].
    by rewrite (serve_name_scope _ _ _ _ Hs).
Qed.

Lemma inv1_fun i L m e s s' : inv1 i L m → (e, s) ∈ L → (e, s') ∈ L → s = s'.
Proof.
  intros HI H1 H2. destruct e.
  - apply (i1_funcs _ _ _ HI) in H1, H2. congruence.
  - apply (i1_gvars _ _ _ HI) in H1, H2. congruence.
  - destruct (nm_in_func m) eqn:Hf; [|by pose proof (i1_scope _ _ _ HI Hf _ _ H1)].
    apply (i1_values _ _ _ HI) in H1, H2; [congruence|done..].
  - apply (i1_bbs _ _ _ HI) in H1, H2. congruence.
  - by eapply (i1_temps_fun _ _ _ HI).
Qed.

(** C18, first half *)
Lemma name_stable rs h m e s s' :
  serve_names rs nm0 = Some (h, m) → well_scoped false rs = true →
  (e, s) ∈ live_names h → (e, s') ∈ live_names h → s = s'.
Proof. intros H Hw. eapply inv1_fun. eapply inv1_run; [apply inv1_nm0|done|done]. Qed.

(** C18, second half *)
Lemma next_name_kept p id n names x id' names' s :
  next_name p id (Some n) names = Some (x, id', names') →
  prefix_name p n = Some s → s ∉ names → x = s.
Proof.
  simpl. unfold next_name_str. intros H Hp Hs. rewrite Hp in H. simpl in H.
  destruct (decide _) as [|]; [done|]. simpl in H. congruence.
Qed.

Lemma last_cons_indep {A} (x : A) l d d' : List.last (x :: l) d = List.last (x :: l) d'.
Proof. revert x. induction l as [|y l IH]; intros x; [done|]. simpl in *. apply IH. Qed.

Lemma serve_names_prefix rs m h m' :
  serve_names rs m = Some (h, m') →
  nm_prefix m' = List.last (omap (λ r, match r with QPrefix p => Some p | _ => None end) rs)
                   (nm_prefix m).
Proof.
  revert m h. induction rs as [|r rs IH]; intros m h H; [injection H as <- <-; done|].
  apply serve_names_cons in H as (a & m1 & h1 & Hs & Hr & ->).
  rewrite (IH _ _ Hr), (serve_name_prefix _ _ _ _ Hs).
  destruct r; try done. simpl. change (list_omap nreq prefix) with (@omap list _ nreq prefix).
  destruct (omap _ rs) as [|x l]; [done|]. apply last_cons_indep.
Qed.

Lemma serve_names_app rs1 rs2 m h m' :
  serve_names (rs1 ++ rs2) m = Some (h, m') →
  ∃ h1 h2 m1, serve_names rs1 m = Some (h1, m1) ∧ serve_names rs2 m1 = Some (h2, m') ∧
    h = h1 ++ h2.
Proof.
  revert m h. induction rs1 as [|r rs IH]; intros m h H.
  - eexists [], _, _. done.
  - simpl app in H. apply serve_names_cons in H as (a & m1 & h1 & Hs & Hr & ->).
    apply IH in Hr as (h2 & h3 & m2 & H1 & H2 & ->).
    eexists ((r, a) :: h2), h3, m2. split; [|done]. simpl. rewrite Hs. simpl. by rewrite H1.
Qed.

Lemma name_kept rs r h a m e n s :
  serve_names (rs ++ [r]) nm0 = Some (h ++ [(r, a)], m) →
  well_scoped false (rs ++ [r]) = true →
  asked (length rs) r = Some e → given r = Some n →
  prefix_name (List.last (prefixes rs) PDefault) n = Some s →
  (∀ s0, (e, s0) ∉ live_names h) →
  (∀ e', is_block e' = is_block e → (e', s) ∉ live_names h) →
  a = Some s.
Proof.
  intros H Hw He Hn Hp Hfresh Huniq.
  apply serve_names_app in H as (h1 & h2 & m1 & H1 & H2 & Happ).
  apply serve_names_cons in H2 as (a' & m2 & h3 & Hs & Hr & ->).
  injection Hr as <- <-.
  apply app_inj_tail in Happ as [-> [= ->]].
  assert (Hpre : nm_prefix m1 = List.last (prefixes rs) PDefault).
  { rewrite (serve_names_prefix _ _ _ _ H1). unfold prefixes. simpl.
    by destruct (omap _ rs). }
  assert (Hws : ∀ b, well_scoped b (rs ++ [r]) = true → well_scoped b rs = true).
  { clear. induction rs as [|r0 rs IH]; intros b; [done|]. simpl app.
    rewrite !well_scoped_cons, !andb_true_iff. intros [? ?]. eauto. }
  assert (Hsc : ∀ rs' b m h m', serve_names rs' m = Some (h, m') → nm_in_func m = b →
            well_scoped b (rs' ++ [r]) = true → ok_scope (nm_in_func m') r = true).
  { clear. induction rs' as [|r0 rs IH]; intros b m h m' H <-.
    - injection H as _ <-. simpl app. rewrite well_scoped_cons, andb_true_iff. by intros [? _].
    - apply serve_names_cons in H as (a1 & m1 & h1 & Hs & Hr & ->).
      simpl app. rewrite well_scoped_cons, andb_true_iff. intros [_ Hw].
      rewrite <- (serve_name_scope _ _ _ _ Hs) in Hw. eapply IH; [done|reflexivity|done]. }
  pose proof (Hsc rs false nm0 _ _ H1 eq_refl Hw) as Hok. apply Hws in Hw.
  pose proof (inv1_run rs 0 [] nm0 _ _ inv1_nm0 Hw H1) as HI.
  rewrite <- Hpre in Hp.
  assert (Hg : is_block e = false → s ∉ nm_global_names m1).
  { intros Hb Hin. apply (i1_gnames _ _ _ HI) in Hin as (e' & ? & ?).
    eapply Huniq; [|done]. congruence. }
  assert (Hb : is_block e = true → s ∉ nm_bb_names m1).
  { intros Hb Hin. apply (i1_bnames _ _ _ HI) in Hin as (e' & ? & ?).
    eapply Huniq; [|done]. congruence. }
  clear Huniq. destruct r; simpl in He, Hn; try done; injection He as <-; subst.
  - injection Hn as ->. simpl in Hs. unfold func_name in Hs.
    destruct (nm_funcs m1 !! ptr) as [s0|] eqn:Hl.
    { apply (i1_funcs _ _ _ HI) in Hl. by apply Hfresh in Hl. }
    unfold next_name_str in Hs. rewrite Hp in Hs. simpl in Hs.
    rewrite decide_False in Hs by auto. simpl in Hs. congruence.
  - simpl in Hs. unfold bb_name_ in Hs.
    destruct (nm_bbs m1 !! ptr) as [s0|] eqn:Hl.
    { apply (i1_bbs _ _ _ HI) in Hl. by apply Hfresh in Hl. }
    destruct (next_name _ _ _ _) as [[[n0 id] ns]|] eqn:Hx; [|done]. simpl in Hs.
    apply (next_name_kept _ _ _ _ _ _ _ s) in Hx; [congruence|done|auto].
  - simpl in Hs. unfold value_name in Hs.
    destruct (nm_gvars m1 !! ptr) as [s0|] eqn:Hl.
    { apply (i1_gvars _ _ _ HI) in Hl. by apply Hfresh in Hl. }
    destruct (next_name _ _ _ _) as [[[n0 id] ns]|] eqn:Hx; [|done]. simpl in Hs.
    apply (next_name_kept _ _ _ _ _ _ _ s) in Hx; [congruence|done|auto].
  - simpl in Hs. unfold value_name in Hs.
    destruct (nm_values m1 !! ptr) as [s0|] eqn:Hl.
    { apply (i1_values _ _ _ HI) in Hl; [|done]. by apply Hfresh in Hl. }
    destruct (next_name _ _ _ _) as [[[n0 id] ns]|] eqn:Hx; [|done]. simpl in Hs.
    apply (next_name_kept _ _ _ _ _ _ _ s) in Hx; [congruence|done|auto].
Qed.

(** * Uniqueness *)

Record inv2 (ps : list prefix) (L : list (entity * string)) (m : nm) : Prop := {
  i2_pre : nm_prefix m ∈ ps;
  i2_g e s : (e, s) ∈ L → is_block e = false → s ∈ nm_global_names m;
  i2_b e s : (e, s) ∈ L → is_block e = true → s ∈ nm_bb_names m;
  i2_inj e e' s : (e, s) ∈ L → (e', s) ∈ L → is_block e = is_block e' → e = e';
  i2_temp e p k : p ∈ ps → (e, temp_name p k) ∈ L → (k < nm_next m)%N;
}.

Definition req_ok (ps : list prefix) (r : nreq) : Prop :=
  (∀ p, r = QPrefix p → p ∈ ps) ∧
  (∀ n p s, given r = Some n → p ∈ ps → prefix_name p n = Some s →
    ¬ temp_like ps s ∧ ∀ j : N, ¬ temp_like ps (s +:+ "_" +:+ pretty j)).

(** A fresh name for an entity that is not yet there keeps everything distinct. *)
Lemma next_name_fresh ps p id name names n id' names' :
  p ∈ ps → temps_distinct ps →
  (∀ k, ∀ p', p' ∈ ps → temp_name p' k ∈ names → (k < id)%N) →
  (∀ nm0 s, name = Some nm0 → prefix_name p nm0 = Some s →
    ¬ temp_like ps s ∧ ∀ j : N, ¬ temp_like ps (s +:+ "_" +:+ pretty j)) →
  next_name p id name names = Some (n, id', names') →
  n ∉ names ∧ (id ≤ id')%N ∧ (∀ p' k, p' ∈ ps → n = temp_name p' k → (k < id')%N).
Proof.
  intros Hp Htd Hold Hok. unfold next_name. destruct name as [name|].
  - destruct (next_name_str _ _ _) as [[n0 ns]|] eqn:H; simpl; [|done].
    intros [= <- <- <-]. apply next_name_str_Some in H as (Hn & -> & s & Hs & Hc).
    destruct (Hok _ _ eq_refl Hs) as [H1 H2].
    split_and!; [done|lia|]. intros p' k Hp' ->. exfalso.
    destruct Hc as [<-|(_ & j & Hj)].
    + apply H1. by exists p', k.
    + apply (H2 j). exists p', k. by rewrite <- Hj.
  - intros [= <- <- <-]. split_and!; [|lia|].
    + intros H. apply Hold in H; [lia|done].
    + intros p' k Hp' Hk. apply Htd in Hk; [lia|done..].
Qed.

Lemma inv2_again ps L m e s : (e, s) ∈ L → inv2 ps L m → inv2 ps ((e, s) :: L) m.
Proof.
  intros He [].
  assert (Hx : ∀ x, x ∈ (e, s) :: L ↔ x ∈ L) by set_solver.
  split; intros *; rewrite ?Hx; eauto.
Qed.

(** Adding one new name to the right set. *)
Lemma inv2_new ps i L m e n id' m' :
  inv1 i L m → inv2 ps L m →
  n ∉ (if is_block e then nm_bb_names m else nm_global_names m) →
  (nm_next m ≤ id')%N → (∀ p k, p ∈ ps → n = temp_name p k → (k < id')%N) →
  nm_next m' = id' → nm_prefix m' = nm_prefix m →
  nm_global_names m' = (if is_block e then nm_global_names m else {[n]} ∪ nm_global_names m) →
  nm_bb_names m' = (if is_block e then {[n]} ∪ nm_bb_names m else nm_bb_names m) →
  inv2 ps ((e, n) :: L) m'.
Proof.
  intros HI1 [] Hn Hle Htmp Hnx Hpr Hg Hb. split.
  - by rewrite Hpr.
  - intros e' s. rewrite elem_of_cons, Hg. intros [[= -> ->]|H] Hf.
    + rewrite Hf. set_solver.
    + specialize (i2_g0 _ _ H Hf). destruct (is_block e); set_solver.
  - intros e' s. rewrite elem_of_cons, Hb. intros [[= -> ->]|H] Hf.
    + rewrite Hf. set_solver.
    + specialize (i2_b0 _ _ H Hf). destruct (is_block e); set_solver.
  - intros e1 e2 s. rewrite !elem_of_cons. intros [H1|H1] [H2|H2] Hbb; simplify_eq; try done.
    + exfalso. apply Hn. destruct (is_block e); eauto.
    + exfalso. apply Hn. destruct (is_block e) eqn:?; eauto.
    + eauto.
  - intros e' p k Hp. rewrite elem_of_cons. intros [[= -> H]|H].
    + rewrite Hnx. by eapply Htmp.
    + rewrite Hnx. specialize (i2_temp0 _ _ _ Hp H). lia.
Qed.

Lemma inv2_old_g ps i L m : inv1 i L m → inv2 ps L m →
  ∀ k p', p' ∈ ps → temp_name p' k ∈ nm_global_names m → (k < nm_next m)%N.
Proof.
  intros H1 H2 k p' Hp Hi. apply (i1_gnames _ _ _ H1) in Hi as (e & He & _).
  by eapply (i2_temp _ _ _ H2).
Qed.

Lemma inv2_old_b ps i L m : inv1 i L m → inv2 ps L m →
  ∀ k p', p' ∈ ps → temp_name p' k ∈ nm_bb_names m → (k < nm_next m)%N.
Proof.
  intros H1 H2 k p' Hp Hi. apply (i1_bnames _ _ _ H1) in Hi as (e & He & _).
  by eapply (i2_temp _ _ _ H2).
Qed.

Lemma inv2_step ps i L m r a m' :
  temps_distinct ps → req_ok ps r → inv1 i L m → inv2 ps L m →
  ok_scope (nm_in_func m) r = true →
  serve_name r m = Some (a, m') → inv2 ps (live1 i r a L) m'.
Proof.
  intros Htd [Hrp Hrn] H1 H2 Hok. destruct r; simpl.
  - destruct (enter_func_scope m) as [m1|] eqn:H; simpl; [|done]. intros [= <- <-].
    unfold enter_func_scope in H. destruct (nm_in_func m) eqn:Hf; [done|]. injection H as <-.
    rewrite filter_scoped_id by exact (i1_scope _ _ _ H1 Hf). destruct H2. by split.
  - destruct (exit_func_scope m) as [m1|] eqn:H; simpl; [|done]. intros [= <- <-].
    unfold exit_func_scope in H. destruct (nm_in_func m) eqn:Hf; [|done]. injection H as <-.
    destruct H2. split; simpl.
    + done.
    + intros e s. rewrite elem_of_list_filter. simpl. intros [He Hin] Hb.
      rewrite elem_of_difference, elem_of_values_names. split; [by eapply i2_g0|].
      intros (p & Hp). apply (i1_values _ _ _ H1) in Hp; [|done].
      pose proof (i2_inj0 _ _ _ Hp Hin) as Heq. simpl in Heq.
      rewrite <- Heq in He; [done|by rewrite Hb].
    + intros e s. rewrite elem_of_list_filter. simpl. intros [He Hin] Hb. by destruct e.
    + intros e e' s. rewrite !elem_of_list_filter. intros [_ ?] [_ ?]. eauto.
    + intros e p k Hp. rewrite elem_of_list_filter. intros [_ ?]. eauto.
  - intros [= <- <-]. destruct H2. split; simpl; auto.
  - destruct (func_name _ _ _) as [[s m1]|] eqn:H; simpl; [|done]. intros [= <- <-].
    unfold func_name in H. destruct (nm_funcs m !! ptr) as [s0|] eqn:Hp.
    + injection H as <- <-. apply inv2_again; [|done]. by apply (i1_funcs _ _ _ H1).
    + destruct (next_name_str _ _ _) as [[n0 ns]|] eqn:Hn; simpl in H; [|done].
      injection H as <- <-.
      assert (Hn' : next_name (nm_prefix m) (nm_next m) (Some name) (nm_global_names m)
                    = Some (n0, nm_next m, ns)) by (simpl; by rewrite Hn).
      pose proof (next_name_names _ _ _ _ _ _ _ Hn') as ->.
      eapply (next_name_fresh ps) in Hn' as (Hf & Hle & Hk);
        [| exact (i2_pre _ _ _ H2) | done | intros k p'; by eapply inv2_old_g
         | intros nm1 s [= <-]; apply Hrn; [done|exact (i2_pre _ _ _ H2)]].
      eapply inv2_new; simpl; try done.
  - destruct (bb_name_ _ _ _) as [[s m1]|] eqn:H; simpl; [|done]. intros [= <- <-].
    unfold bb_name_ in H. destruct (nm_bbs m !! ptr) as [s0|] eqn:Hp.
    + injection H as <- <-. apply inv2_again; [|done]. by apply (i1_bbs _ _ _ H1).
    + destruct (next_name _ _ _ _) as [[[n0 id] ns]|] eqn:Hn; simpl in H; [|done].
      injection H as <- <-.
      pose proof (next_name_names _ _ _ _ _ _ _ Hn) as ->.
      eapply (next_name_fresh ps) in Hn as (Hf & Hle & Hk);
        [| exact (i2_pre _ _ _ H2) | done | intros k p'; by eapply inv2_old_b
         | intros nm1 s ->; apply Hrn; [done|exact (i2_pre _ _ _ H2)]].
      eapply inv2_new; simpl; try done.
  - destruct (value_name _ _ _ _) as [[s m1]|] eqn:H; simpl; [|done]. intros [= <- <-].
    unfold value_name in H. destruct (nm_gvars m !! ptr) as [s0|] eqn:Hp.
    + injection H as <- <-. apply inv2_again; [|done]. by apply (i1_gvars _ _ _ H1).
    + destruct (next_name _ _ _ _) as [[[n0 id] ns]|] eqn:Hn; simpl in H; [|done].
      injection H as <- <-.
      pose proof (next_name_names _ _ _ _ _ _ _ Hn) as ->.
      eapply (next_name_fresh ps) in Hn as (Hf & Hle & Hk);
        [| exact (i2_pre _ _ _ H2) | done | intros k p'; by eapply inv2_old_g
         | intros nm1 s ->; apply Hrn; [done|exact (i2_pre _ _ _ H2)]].
      eapply inv2_new; simpl; try done.
  - destruct (value_name _ _ _ _) as [[s m1]|] eqn:H; simpl; [|done]. intros [= <- <-].
    unfold value_name in H. destruct (nm_values m !! ptr) as [s0|] eqn:Hp.
    + injection H as <- <-. apply inv2_again; [|done]. by apply (i1_values _ _ _ H1).
    + destruct (next_name _ _ _ _) as [[[n0 id] ns]|] eqn:Hn; simpl in H; [|done].
      injection H as <- <-.
      pose proof (next_name_names _ _ _ _ _ _ _ Hn) as ->.
      eapply (next_name_fresh ps) in Hn as (Hf & Hle & Hk);
        [| exact (i2_pre _ _ _ H2) | done | intros k p'; by eapply inv2_old_g
         | intros nm1 s ->; apply Hrn; [done|exact (i2_pre _ _ _ H2)]].
      eapply inv2_new; simpl; try done.
  - intros [= <- <-].
    assert (Hn : next_name (nm_prefix m) (nm_next m) None (nm_global_names m)
                 = Some (temp_name (nm_prefix m) (nm_next m), (nm_next m + 1)%N,
                         {[temp_name (nm_prefix m) (nm_next m)]} ∪ nm_global_names m)) by done.
    eapply (next_name_fresh ps) in Hn as (Hf & Hle & Hk);
      [| exact (i2_pre _ _ _ H2) | done | intros k p'; by eapply inv2_old_g
       | done].
    eapply inv2_new; simpl; try done.
Qed.

Lemma inv2_run ps rs i L m h m' :
  temps_distinct ps → Forall (req_ok ps) rs →
  inv1 i L m → inv2 ps L m → well_scoped (nm_in_func m) rs = true →
  serve_names rs m = Some (h, m') → inv2 ps (live i h L) m'.
Proof.
  intros Htd Hall. revert i L m h. induction Hall as [|r rs Hr Hrs IH]; intros i L m h H1 H2 Hw H.
  - injection H as <- <-. done.
  - rewrite well_scoped_cons in Hw. apply andb_true_iff in Hw as [Ho Hw].
    apply serve_names_cons in H as (a & m1 & h1 & Hs & Hrr & ->).
    rewrite live_cons.
    eapply IH; [by eapply inv1_step|by eapply inv2_step| |done].
    by rewrite (serve_name_scope _ _ _ _ Hs).
Qed.

Lemma inv2_nm0 ps : PDefault ∈ ps → inv2 ps [] nm0.
Proof. intros H. split; [done|set_solver..]. Qed.

(** C17 *)
Lemma name_unique rs h m e e' s :
  serve_names rs nm0 = Some (h, m) → well_scoped false rs = true →
  temps_distinct (prefixes rs) → no_temp_like (prefixes rs) rs →
  (e, s) ∈ live_names h → (e', s) ∈ live_names h → is_block e = is_block e' → e = e'.
Proof.
  intros H Hw Htd Hnt. eapply i2_inj. eapply inv2_run; [exact Htd| |apply inv1_nm0| |done|done].
  - apply list.Forall_forall. intros r Hr. split.
    + intros p ->. right. apply elem_of_list_omap. by exists (QPrefix p).
    + intros n p s0 Hg Hp Hs. by eapply Hnt.
  - apply inv2_nm0. by left.
Qed.

(** * The default prefix *)

Lemma list_ascii_app s t :
  list_ascii_of_string (s +:+ t) = list_ascii_of_string s ++ list_ascii_of_string t.
Proof.
  induction s as [|c s IH]; [done|]. simpl. f_equal. exact IH.
Qed.

Definition is_digit_char (c : ascii) : Prop :=
  let n := N_of_ascii c in (48 ≤ n ≤ 57)%N.

Lemma pretty_N_char_digit k : (k < 10)%N → is_digit_char (pretty_N_char k).
Proof.
  intros H. unfold is_digit_char.
  assert (Hk : k ∈ [0; 1; 2; 3; 4; 5; 6; 7; 8; 9]%N).
  { rewrite !elem_of_cons. lia. }
  repeat (apply elem_of_cons in Hk as [->|Hk]; [vm_compute; split; discriminate|]).
  by apply elem_of_nil in Hk.
Qed.

Lemma pretty_N_go_digits k s :
  Forall is_digit_char (list_ascii_of_string s) →
  Forall is_digit_char (list_ascii_of_string (pretty_N_go k s)).
Proof.
  revert s. induction (N.lt_wf_0 k) as [k _ IH]. intros s Hs.
  destruct (decide (k = 0)%N) as [->|Hk]; [by rewrite pretty_N_go_0|].
  rewrite pretty_N_go_step by lia. apply IH; [apply N.div_lt; lia|].
  simpl. constructor; [|done]. apply pretty_N_char_digit. apply N.mod_lt. lia.
Qed.

Lemma pretty_N_digits (k : N) : Forall is_digit_char (list_ascii_of_string (pretty k)).
Proof.
  unfold pretty, pretty_N. destruct (decide (k = 0)%N) as [->|Hk].
  - constructor; [vm_compute; split; discriminate|constructor].
  - apply pretty_N_go_digits; constructor.
Qed.

Lemma underscore_not_temp s (j k : N) : s +:+ "_" +:+ pretty j ≠ "%" +:+ pretty k.
Proof.
  intros H. assert (Hc : "_"%char ∈ list_ascii_of_string ("%" +:+ pretty k)).
  { rewrite <- H. rewrite !list_ascii_app. set_solver. }
  simpl in Hc. apply elem_of_cons in Hc as [Hc|Hc]; [done|].
  pose proof (proj1 (list.Forall_forall _ _) (pretty_N_digits k) _ Hc) as Hd.
  vm_compute in Hd. destruct Hd as [_ Hd]. by apply Hd.
Qed.

Lemma name_unique_default rs h m e e' s :
  serve_names rs nm0 = Some (h, m) → well_scoped false rs = true →
  (∀ p, QPrefix p ∉ rs) →
  (∀ r n k, r ∈ rs → given r = Some n → n ≠ "%" +:+ pretty (k : N)) →
  (e, s) ∈ live_names h → (e', s) ∈ live_names h → is_block e = is_block e' → e = e'.
Proof.
  intros H Hw Hp Hn.
  assert (Hps : prefixes rs = [PDefault]).
  { unfold prefixes. f_equal. clear -Hp. induction rs as [|r rs IH]; [done|].
    assert (∀ p, QPrefix p ∉ rs) by set_solver.
    destruct r; simpl; try by apply IH. exfalso. by apply (Hp p); left. }
  eapply name_unique; [done|done|rewrite Hps..].
  - intros p p' k k' ->%elem_of_list_singleton ->%elem_of_list_singleton Hk.
    simpl in Hk. injection Hk as Hk. by apply (inj pretty) in Hk.
  - intros r n p s0 Hr Hg ->%elem_of_list_singleton [= <-].
    split; [|intros j]; intros (p & k & ->%elem_of_list_singleton & Hk).
    + by eapply Hn.
    + by eapply underscore_not_temp.
Qed.
