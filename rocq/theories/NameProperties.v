(** C17, C18: names handed out during text generation. *)
From Verif Require Import Base NameModel NameSpec NameProofs.

(** C17, any prefixes: no two live entities of the same namespace share a name. *)
Theorem C17_names_unique : ∀ rs h m e e' s,
  serve_names rs nm0 = Some (h, m) → well_scoped false rs = true →
  temps_distinct (prefixes rs) → no_temp_like (prefixes rs) rs →
  (e, s) ∈ live_names h → (e', s) ∈ live_names h → is_block e = is_block e' → e = e'.
Proof. exact name_unique. Qed.
Print Assumptions C17_names_unique.

(** C17 for the Koopa text generator, which never changes the prefix: enough that no
    user-given name is [%] followed by a decimal number. *)
Theorem C17_names_unique_koopa : ∀ rs h m e e' s,
  serve_names rs nm0 = Some (h, m) → well_scoped false rs = true →
  (∀ p, QPrefix p ∉ rs) →
  (∀ r n k, r ∈ rs → given r = Some n → n ≠ "%" +:+ pretty (k : N)) →
  (e, s) ∈ live_names h → (e', s) ∈ live_names h → is_block e = is_block e' → e = e'.
Proof. exact name_unique_default. Qed.
Print Assumptions C17_names_unique_koopa.

(** A function [@f] with parameter [@x], two blocks [%entry], a temporary, a second
    function with another [@x] and a block. *)
Definition name_history : list nreq :=
  [QGlobal 1 (Some "@x"); QGlobal 2 None; QEnter; QFunc 1 "@f"; QLocal 1 (Some "@x");
   QBB 1 (Some "%entry"); QBB 2 (Some "%entry"); QLocal 2 None; QLocal 1 (Some "@x"); QExit;
   QEnter; QFunc 2 "@f"; QLocal 3 (Some "@x"); QBB 3 (Some "%entry"); QLocal 4 None;
   QTemp]%N.

(** Does serving [rs] succeed with a history satisfying [P]? *)
Definition serveb (rs : list nreq) (P : list (nreq * option string) → bool) : bool :=
  match serve_names rs nm0 with Some (h, _) => P h | None => false end.

Lemma serveb_true rs P :
  serveb rs P = true → ∃ h m, serve_names rs nm0 = Some (h, m) ∧ P h = true.
Proof. unfold serveb. destruct (serve_names rs nm0) as [[h m]|]; [eauto|discriminate]. Qed.

#[global] Instance entity_eq_dec : EqDecision entity.
Proof. solve_decision. Defined.
#[global] Instance prefix_eq_dec : EqDecision prefix.
Proof. solve_decision. Defined.
#[global] Instance nreq_eq_dec : EqDecision nreq.
Proof. solve_decision. Defined.

Example C17_example :
  ∃ h m, serve_names name_history nm0 = Some (h, m) ∧ well_scoped false name_history = true ∧
    (∀ p, QPrefix p ∉ name_history) ∧
    (∀ r n k, r ∈ name_history → given r = Some n → n ≠ "%" +:+ pretty (k : N)) ∧
    live_names h = [(ETemp 15, "%3"); (ELocal 4, "%2"); (EBlock 3, "%entry");
      (ELocal 3, "@x_0"); (EFunc 2, "@f_0"); (EFunc 1, "@f");
      (EGlobal 2, "%0"); (EGlobal 1, "@x")].
Proof.
  assert (Hc : serveb name_history (λ h, bool_decide (live_names h =
      [(ETemp 15, "%3"); (ELocal 4, "%2"); (EBlock 3, "%entry");
      (ELocal 3, "@x_0"); (EFunc 2, "@f_0"); (EFunc 1, "@f");
      (EGlobal 2, "%0"); (EGlobal 1, "@x")])) = true) by (vm_compute; reflexivity).
  apply serveb_true in Hc as (h & m & Hs & Hl). apply bool_decide_eq_true in Hl.
  exists h, m. split; [exact Hs|]. split; [reflexivity|]. split; [|split; [|exact Hl]].
  all: clear Hs Hl.
  - intros p H. unfold name_history in H.
    repeat (apply elem_of_cons in H as [H|H]; [discriminate H|]). by apply elem_of_nil in H.
  - intros r n k H Hg Hn. unfold name_history in H.
    assert (Hp : n ∈ ["@x"; "@f"; "%entry"]).
    { repeat (apply elem_of_cons in H as [->|H];
        [simpl in Hg; first [discriminate Hg | injection Hg as <-; set_solver]|]).
      by apply elem_of_nil in H. }
    subst n. rewrite !elem_of_cons in Hp. destruct Hp as [Hp|[Hp|[Hp|Hp]]].
    + discriminate Hp.
    + discriminate Hp.
    + change ("%entry" : string) with ("%" +:+ "entry") in Hp.
      apply append_inj_l in Hp. pose proof (pretty_N_digits k) as Hd. rewrite Hp in Hd.
      apply list.Forall_cons in Hd as [[_ Hd] _]. vm_compute in Hd. by apply Hd.
    + by apply elem_of_nil in Hp.
Qed.

(** Without the proviso names do clash: temporary names are not checked against names
    already in use. *)
Theorem C17_without_proviso_refuted : ∃ rs h m e e' s,
  serve_names rs nm0 = Some (h, m) ∧ well_scoped false rs = true ∧
  (e, s) ∈ live_names h ∧ (e', s) ∈ live_names h ∧ is_block e = is_block e' ∧ e ≠ e'.
Proof.
  assert (Hc : serveb [QGlobal 1 (Some "%0"); QGlobal 2 None]%N (λ h, bool_decide
      (live_names h = [(EGlobal 2, "%0"); (EGlobal 1, "%0")])) = true)
    by (vm_compute; reflexivity).
  apply serveb_true in Hc as (h & m & Hs & Hl). apply bool_decide_eq_true in Hl.
  exists [QGlobal 1 (Some "%0"); QGlobal 2 None]%N, h, m, (EGlobal 1), (EGlobal 2), "%0".
  split; [exact Hs|]. clear Hs. rewrite Hl. split_and!; [reflexivity|set_solver..|done|done].
Qed.
Print Assumptions C17_without_proviso_refuted.

(** The search for a free name always ends: naming only fails where the prefix
    replacement panics. *)
Theorem C17_name_found : ∀ p name names,
  is_Some (prefix_name p name) → is_Some (next_name_str p name names).
Proof. exact next_name_str_total. Qed.
Print Assumptions C17_name_found.

Example C17_name_found_example :
  next_name_str (PCustom "%" "%$" (Some 4)) "@xyzw" (list_to_set ["%xyz"; "%xyz_0"])
  = Some ("%xyz_1", {["%xyz_1"]} ∪ list_to_set ["%xyz"; "%xyz_0"]).
Proof. vm_compute. reflexivity. Qed.

(** C18: all answers about one entity agree while it is alive (the list of live names
    holds one entry per answer). *)
Theorem C18_names_stable : ∀ rs h m e s s',
  serve_names rs nm0 = Some (h, m) → well_scoped false rs = true →
  (e, s) ∈ live_names h → (e, s') ∈ live_names h → s = s'.
Proof. exact name_stable. Qed.
Print Assumptions C18_names_stable.

Example C18_stable_example :
  ∃ h m, serve_names (take 9 name_history) nm0 = Some (h, m) ∧
    well_scoped false (take 9 name_history) = true ∧
    filter (λ x, x.1 = ELocal 1) (live_names h) = [(ELocal 1, "@x_0"); (ELocal 1, "@x_0")].
Proof.
  assert (Hc : serveb (take 9 name_history) (λ h, bool_decide
      (filter (λ x, x.1 = ELocal 1) (live_names h) = [(ELocal 1, "@x_0"); (ELocal 1, "@x_0")]))
      = true) by (vm_compute; reflexivity).
  apply serveb_true in Hc as (h & m & Hs & Hl). apply bool_decide_eq_true in Hl.
  exists h, m. split; [exact Hs|]. split; [reflexivity|exact Hl].
Qed.

(** C18: an entity asked about for the first time whose (prefixed) given name is not the
    name of a live entity of its namespace gets that name. *)
Theorem C18_given_name_kept : ∀ rs r h a m e n s,
  serve_names (rs ++ [r]) nm0 = Some (h ++ [(r, a)], m) →
  well_scoped false (rs ++ [r]) = true →
  asked (length rs) r = Some e → given r = Some n →
  prefix_name (List.last (prefixes rs) PDefault) n = Some s →
  (∀ s0, (e, s0) ∉ live_names h) →
  (∀ e', is_block e' = is_block e → (e', s) ∉ live_names h) →
  a = Some s.
Proof. exact name_kept. Qed.
Print Assumptions C18_given_name_kept.

(** The parameter [@y] of a second function, when an earlier function had a [@y]. *)
Example C18_kept_example :
  let rs := [QEnter; QFunc 1 "@f"; QLocal 1 (Some "@y"); QExit; QEnter; QFunc 2 "@g"]%N in
  let r := QLocal 2 (Some "@y") in
  ∃ h a m, serve_names (rs ++ [r]) nm0 = Some (h ++ [(r, a)], m) ∧
    well_scoped false (rs ++ [r]) = true ∧
    prefix_name (List.last (prefixes rs) PDefault) "@y" = Some "@y" ∧
    (∀ s0, (ELocal 2, s0) ∉ live_names h) ∧
    (∀ e', is_block e' = is_block (ELocal 2) → (e', "@y") ∉ live_names h).
Proof.
  intros rs r.
  set (h := [(QEnter, None); (QFunc 1 "@f", Some "@f"); (QLocal 1 (Some "@y"), Some "@y");
    (QExit, None); (QEnter, None); (QFunc 2 "@g", Some "@g")]%N).
  assert (Hc : serveb (rs ++ [r]) (λ h', bool_decide (h' = h ++ [(r, Some "@y")])) = true)
    by (vm_compute; reflexivity).
  apply serveb_true in Hc as (h' & m & Hs & Hl). apply bool_decide_eq_true in Hl. subst h'.
  exists h, (Some "@y"), m. split; [exact Hs|]. clear Hs. split; [reflexivity|].
  split; [reflexivity|].
  assert (live_names h = [(EFunc 2, "@g"); (EFunc 1, "@f")]) as -> by (vm_compute; reflexivity).
  split.
  - intros s0 H. rewrite !elem_of_cons in H. by destruct H as [H|[H|H%elem_of_nil]].
  - intros e' _ H. rewrite !elem_of_cons in H. by destruct H as [H|[H|H%elem_of_nil]].
Qed.
