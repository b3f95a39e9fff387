(** A calculus for the text generators: what a method writes, described by the names that the
    name manager has handed out. *)
From Verif Require Import Base IdModel TypeModel IrModel LayoutModel DfgSpec UsesSpec LayoutSpec
  NameModel NameSpec NameProofs LexerModel KoopaModel LlvmModel LlvmSpec.
From Coq Require Import Lia.

Definition naming_of (m : nm) : naming :=
  Naming (nm_funcs m) (nm_gvars m) (nm_values m) (nm_bbs m).

(** More names *)
Record nle (a b : naming) : Prop := {
  nle_fun : nv_fun a ⊆ nv_fun b;
  nle_global : nv_global a ⊆ nv_global b;
  nle_local : nv_local a ⊆ nv_local b;
  nle_block : nv_block a ⊆ nv_block b;
}.
Lemma nle_refl a : nle a a.
Proof. by split. Qed.
Lemma nle_trans a b c : nle a b → nle b c → nle a c.
Proof. intros [] []. split; by etrans. Qed.

(** A request made while a function is written: the names it gives satisfy [G]. *)
Definition inner (G : string → Prop) (r : nreq) : Prop :=
  r ≠ QEnter ∧ r ≠ QExit ∧
  (∀ p, r = QPrefix p → p = global_prefix ∨ p = local_prefix) ∧
  (∀ n, given r = Some n → G n).
(** The temporary names in a history *)
Definition temps_of (h : list (nreq * option string)) : list string :=
  omap (λ x, match x.1 with QTemp => x.2 | _ => None end) h.

Lemma serve_name_nle G r m a m' :
  inner G r → serve_name r m = Some (a, m') → nle (naming_of m) (naming_of m').
Proof.
  intros (H1 & H2 & _) H. destruct r; simpl in H; try done.
  - injection H as <- <-. by split.
  - apply bind_Some in H as ([s m1] & H & Hx). injection Hx as <- <-.
    unfold func_name in H. destruct (nm_funcs m !! ptr) eqn:E.
    + injection H as <- <-. apply nle_refl.
    + apply bind_Some in H as ([n' ns] & _ & H). injection H as <- <-. split; simpl; try done.
      by apply insert_subseteq.
  - apply bind_Some in H as ([s m1] & H & Hx). injection Hx as <- <-.
    unfold bb_name_ in H. destruct (nm_bbs m !! ptr) eqn:E.
    + injection H as <- <-. apply nle_refl.
    + apply bind_Some in H as ([[n' id] ns] & _ & H). injection H as <- <-. split; simpl; try done.
      by apply insert_subseteq.
  - apply bind_Some in H as ([s m1] & H & Hx). injection Hx as <- <-.
    unfold value_name in H. destruct (nm_gvars m !! ptr) eqn:E.
    + injection H as <- <-. apply nle_refl.
    + apply bind_Some in H as ([[n' id] ns] & _ & H). injection H as <- <-. split; simpl; try done.
      by apply insert_subseteq.
  - apply bind_Some in H as ([s m1] & H & Hx). injection Hx as <- <-.
    unfold value_name in H. destruct (nm_values m !! ptr) eqn:E.
    + injection H as <- <-. apply nle_refl.
    + apply bind_Some in H as ([[n' id] ns] & _ & H). injection H as <- <-. split; simpl; try done.
      by apply insert_subseteq.
  - injection H as <- <-. by split.
Qed.
Lemma serve_names_nle G rs : ∀ m h m', Forall (inner G) rs →
  serve_names rs m = Some (h, m') → nle (naming_of m) (naming_of m').
Proof.
  induction rs as [|r rs IH]; intros m h m' HF H.
  - injection H as <- <-. apply nle_refl.
  - apply serve_names_cons in H as (a & m1 & h1 & Hs & Hr & ->).
    apply list.Forall_cons in HF as [H1 H2].
    eapply nle_trans; [by eapply serve_name_nle|by eapply IH].
Qed.
Lemma serve_names_join rs1 rs2 : ∀ m h1 m1 h2 m2,
  serve_names rs1 m = Some (h1, m1) → serve_names rs2 m1 = Some (h2, m2) →
  serve_names (rs1 ++ rs2) m = Some (h1 ++ h2, m2).
Proof.
  induction rs1 as [|r rs1 IH]; intros m h1 m1 h2 m2 H1 H2.
  - injection H1 as <- <-. done.
  - apply serve_names_cons in H1 as (a & m3 & h3 & Hs & Hr & ->). simpl. rewrite Hs. simpl.
    rewrite (IH _ _ _ _ _ Hr H2). done.
Qed.
Lemma temps_of_app h1 h2 : temps_of (h1 ++ h2) = temps_of h1 ++ temps_of h2.
Proof. apply omap_app. Qed.

(** ** What a method says *)
(** The requests of [c] are [inner], and its result is described by [T] in terms of the names
    handed out so far and of the temporary names it asked for. *)
Definition says {A} (G : string → Prop) (T : naming → list string → A → Prop) (c : M nm A) : Prop :=
  ∀ m r m', c m = (r, m') → ∃ rs h, serve_names rs m = Some (h, m') ∧ Forall (inner G) rs ∧
    ∀ a, r = Rok a → T (naming_of m') (temps_of h) a.
Definition mono {A} (T : naming → list string → A → Prop) : Prop :=
  ∀ ν ν' ts a, nle ν ν' → T ν ts a → T ν' ts a.

Lemma says_weaken {A} G (T U : naming → list string → A → Prop) c :
  says G T c → (∀ ν ts a, T ν ts a → U ν ts a) → says G U c.
Proof.
  intros H HU m r m' Hc. destruct (H _ _ _ Hc) as (rs & h & H1 & H2 & H3).
  exists rs, h. split; [done|]. split; [done|]. intros a Ha. by apply HU, H3.
Qed.
Lemma says_ok {A} G (a : A) (T : naming → list string → A → Prop) :
  (∀ ν, T ν [] a) → says G T (mok a).
Proof.
  intros HT m r m' [= <- <-]. exists [], []. split; [done|]. split; [constructor|].
  intros a' [= <-]. apply HT.
Qed.
Lemma says_some {A} G (o : option A) : says G (λ _ ts a, ts = [] ∧ o = Some a) (p_some o).
Proof.
  intros m r m' H. unfold p_some in H. exists [], []. destruct o; injection H as <- <-.
  - split; [done|]. split; [constructor|]. intros a' [= <-]. done.
  - split; [done|]. split; [constructor|]. done.
Qed.
Lemma says_then {A B} G (T : naming → list string → A → Prop)
    (U : A → naming → list string → B → Prop) c k :
  mono T → says G T c → (∀ a, says G (U a) (k a)) →
  says G (λ ν ts b, ∃ a t1 t2, ts = t1 ++ t2 ∧ T ν t1 a ∧ U a ν t2 b) (mthen c k).
Proof.
  intros HM Hc Hk m r m' H. unfold mthen in H. destruct (c m) as [r1 m1] eqn:E.
  destruct (Hc _ _ _ E) as (rs & h & H1 & H2 & H3).
  destruct r1 as [a|f| |].
  2-4: injection H as <- <-; exists rs, h; (split; [done|]); (split; [done|done]).
  destruct (Hk a _ _ _ H) as (rs2 & h2 & G1 & G2 & G3).
  exists (rs ++ rs2), (h ++ h2). split; [by eapply serve_names_join|].
  split; [by apply list.Forall_app|]. intros b Hb. exists a, (temps_of h), (temps_of h2).
  split; [apply temps_of_app|]. split; [|by apply G3].
  eapply HM; [by eapply serve_names_nle|]. by apply H3.
Qed.
Lemma says_map {A} G (T : A → naming → list string → string → Prop) (f : A → PR) l :
  (∀ x, mono (T x)) → (∀ x, x ∈ l → says G (T x) (f x)) →
  says G (λ ν ts ss, ∃ tss, ts = concat tss ∧ length tss = length ss ∧
    Forall2 (λ x (y : list string * string), T x ν y.1 y.2) l (zip tss ss)) (p_map f l).
Proof.
  intros HM. induction l as [|x l IH]; intros Hf; simpl.
  - apply says_ok. intros ν. exists []. split; [done|]. split; [done|]. constructor.
  - eapply says_weaken.
    + apply says_then; [apply (HM x)|apply Hf; by left|]. intros y.
      apply (says_then G (λ ν ts ss, ∃ tss, ts = concat tss ∧ length tss = length ss ∧
        Forall2 (λ x (y : list string * string), T x ν y.1 y.2) l (zip tss ss))
        (λ ys ν ts r, ts = [] ∧ r = y :: ys)).
      * intros ν ν' ts ss Hn (tss & H1 & H2 & H3). exists tss. split; [done|]. split; [done|].
        eapply Forall2_impl; [done|]. intros z w Hz. by eapply HM.
      * apply IH. intros z Hz. apply Hf. by right.
      * intros ys. by apply says_ok.
    + simpl. intros ν ts ss (y & t1 & t2 & -> & H1 & ys & t3 & t4 & -> & (tss & -> & H2 & H3) & -> & ->).
      exists (t1 :: tss). split; [by rewrite app_nil_r|]. split; [simpl; lia|].
      simpl. by constructor.
Qed.

(** The calls of the name manager *)
Lemma says_request {A} G (c : M nm A) q (f : A → option string) (T : naming → list string → A → Prop) :
  inner G q →
  (∀ m, (∃ a m', c m = (Rok a, m') ∧ serve_name q m = Some (f a, m') ∧
           T (naming_of m') (match q, f a with QTemp, Some s => [s] | _, _ => [] end) a) ∨
        c m = (Rpanic, m)) →
  says G T c.
Proof.
  intros Hq Hc m r m' H. destruct (Hc m) as [(a & m1 & H1 & H2 & H3)|H1].
  - rewrite H1 in H. injection H as <- <-. exists [q], [(q, f a)].
    split; [simpl; by rewrite H2|]. split; [by constructor|]. intros a' [= <-].
    unfold temps_of. simpl. destruct q; try apply H3.
  - rewrite H1 in H. injection H as <- <-. exists [], []. split; [done|]. split; [constructor|done].
Qed.

Lemma says_func_name (G : string → Prop) f n :
  G n → says G (λ ν ts s, ts = [] ∧ nv_fun ν !! f = Some s) (p_name (func_name f n)).
Proof.
  intros HG. apply (says_request _ _ (QFunc f n) Some).
  { split_and!; try done. by intros ? [= <-]. }
  intros m. unfold p_name. destruct (func_name f n m) as [[s m']|] eqn:E; [left|by right].
  exists s, m'. split; [done|]. split; [simpl; by rewrite E|]. split; [done|]. simpl.
  unfold func_name in E. destruct (nm_funcs m !! f) eqn:Ef.
  - by injection E as <- <-.
  - apply bind_Some in E as ([n' ns] & _ & E). injection E as <- <-. simpl. by rewrite lookup_insert.
Qed.
Lemma says_bb_name_ (G : string → Prop) b n :
  (∀ x, n = Some x → G x) →
  says G (λ ν ts s, ts = [] ∧ nv_block ν !! b = Some s) (p_name (bb_name_ b n)).
Proof.
  intros HG. apply (says_request _ _ (QBB b n) Some).
  { split_and!; done. }
  intros m. unfold p_name. destruct (bb_name_ b n m) as [[s m']|] eqn:E; [left|by right].
  exists s, m'. split; [done|]. split; [simpl; by rewrite E|]. split; [done|]. simpl.
  unfold bb_name_ in E. destruct (nm_bbs m !! b) eqn:Ef.
  - by injection E as <- <-.
  - apply bind_Some in E as ([[n' id] ns] & _ & E). injection E as <- <-. simpl. by rewrite lookup_insert.
Qed.
Lemma says_value_name (G : string → Prop) v d :
  (∀ x, v_name d = Some x → G x) →
  says G (λ ν ts s, ts = [] ∧ value_called ν v d s) (p_value_name v d).
Proof.
  intros HG. unfold p_value_name. destruct (is_const (v_kind d)) eqn:Ec.
  { eapply says_weaken; [apply says_some|]. simpl. by intros ν ts a [_ ?]. }
  apply (says_request _ _ (if is_global_alloc (v_kind d) then QGlobal v (v_name d)
    else QLocal v (v_name d)) Some).
  { destruct (is_global_alloc _); split_and!; done. }
  intros m. unfold p_name.
  destruct (value_name (is_global_alloc (v_kind d)) v (v_name d) m) as [[s m']|] eqn:E; [left|by right].
  exists s, m'. split; [done|]. unfold value_called. unfold value_name in E.
  destruct (is_global_alloc (v_kind d)) eqn:Eg.
  - split; [simpl; unfold value_name; by rewrite E|]. split; [done|]. split; [done|]. simpl.
    destruct (nm_gvars m !! v) eqn:Ef.
    + by injection E as <- <-.
    + apply bind_Some in E as ([[n' id] ns] & _ & E). injection E as <- <-. simpl. by rewrite lookup_insert.
  - split; [simpl; unfold value_name; by rewrite E|]. split; [done|]. split; [done|]. simpl.
    destruct (nm_values m !! v) eqn:Ef.
    + by injection E as <- <-.
    + apply bind_Some in E as ([[n' id] ns] & _ & E). injection E as <- <-. simpl. by rewrite lookup_insert.
Qed.
Lemma says_temp_name G : says G (λ _ ts s, ts = [s]) (p_name temp_value_name).
Proof.
  apply (says_request _ _ QTemp Some). { by split_and!. }
  intros m. unfold p_name. destruct (temp_value_name m) as [[s m']|] eqn:E; [left|by right].
  exists s, m'. split; [done|]. split; [cbn [serve_name]; by rewrite E|done].
Qed.
Lemma says_prefix G p :
  p = global_prefix ∨ p = local_prefix → says G (λ _ ts _, ts = []) (p_prefix p).
Proof.
  intros Hp. apply (says_request _ _ (QPrefix p) (λ _, None)).
  { split_and!; try done. by intros ? [= ->]. }
  intros m. left. exists tt, (set_prefix p m). done.
Qed.
