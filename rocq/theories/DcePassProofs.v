(** Dead code elimination on programs. *)
From Verif Require Import Base IdModel TypeModel IrModel LayoutModel BuilderModel WorldModel
  UsesSpec DfgSpec LayoutSpec UsesProofs DfgProofs LayoutProofs WorldSpec WorldProofs
  DceModel DceSpec DceGraphProofs DceSweepProofs DceParamProofs DceProofs DceTotalProofs.
From Coq Require Import Lia.

Lemma winv_separated i p F : winv i p F → separated p.
Proof.
  intros HW. assert (Hsub : ∀ f fd, p_funcs p !! f = Some fd → F !! f = Some fd).
  { intros f fd Hf. eapply lookup_weaken; [done|apply HW]. }
  constructor.
  - intros f fd v Hf%Hsub Hv. destruct (vals fd !! v) eqn:E; [|done].
    pose proof (wi_lid _ _ _ HW _ _ v Hf (ex_intro _ _ E)). pose proof (wi_gid _ _ _ HW _ Hv).
    pose proof (wi_gv _ _ _ HW). lia.
  - intros f f' fd fd' v Hf%Hsub Hf'%Hsub. by apply (wi_disj _ _ _ HW f f').
  - intros f fd v Hf%Hsub. by apply (wi_irr _ _ _ HW f).
Qed.

Lemma program_graph p f fd : use_lists_exact p → no_dangling p → separated p →
  p_funcs p !! f = Some fd → graph_ok (outside p (p_funcs p) f) (p_values p) (vals fd) (blks fd).
Proof.
  intros (U1 & U2 & U3) (D1 & D2 & D3) [S1 S2 S3] Hf. constructor.
  - intros v d Hv u. rewrite (U1 _ _ Hv). unfold global_user, outside. split.
    + intros [?|(f' & fd' & Hf' & Hu)]; [naive_solver|].
      destruct (decide (f' = f)) as [->|]; [right; by simplify_eq|]. left. right. by eauto.
    + intros [[?|(f' & fd' & Hne & Hf' & Hu)]|?]; [by left| |]; right; by eauto.
  - intros v d. by apply (U2 f).
  - intros v d. by apply (U3 f).
  - intros u v. by apply (D2 f).
  - intros u v. by apply (D3 f).
  - intros v. by apply (S1 f).
  - intros v. by apply (S3 f).
  - intros v u [(d & Hd & _)|(f' & fd' & Hne & Hf' & d & Hd & _)].
    + apply (S1 f); [done|]. by eauto.
    + apply (S2 f' f fd' fd); [done..|]. by eauto.
Qed.

Definition put (p : program) (f : func) (gs : gmap N vdata) (d : fdata) : program :=
  set_func (Program gs (p_inst_layout p) (p_funcs p) (p_func_tys p) (p_func_layout p)) f d.

Lemma put_sound p f fd gs' fd' : use_lists_exact p → no_dangling p → separated p →
  p_funcs p !! f = Some fd → trimmed_to (outside p (p_funcs p) f) (p_values p) fd gs' fd' →
  use_lists_exact (put p f gs' fd') ∧ no_dangling (put p f gs' fd') ∧ separated (put p f gs' fd').
Proof.
  intros HU HD HS Hf T. pose proof (program_graph _ _ _ HU HD HS Hf) as Hok.
  destruct HU as (U1 & U2 & U3), HD as (D1 & D2 & D3), HS as [S1 S2 S3].
  pose proof (tt_skel _ _ _ _ _ T) as Hsk. pose proof (tt_graph _ _ _ _ _ T) as Hok'.
  assert (Hsub : ∀ v, is_Some (vals fd' !! v) → is_Some (vals fd !! v)).
  { intros v. eapply shrunk_sub. apply T. }
  assert (Hfs : ∀ g gd, p_funcs (put p f gs' fd') !! g = Some gd →
    (g = f ∧ gd = fd') ∨ (g ≠ f ∧ p_funcs p !! g = Some gd)).
  { intros g gd. simpl. destruct (decide (g = f)) as [->|Hg].
    - rewrite lookup_insert. intros [= <-]. by left.
    - rewrite lookup_insert_ne by done. by right. }
  assert (Hg : ∀ v, is_Some (gs' !! v) ↔ is_Some (p_values p !! v)).
  { intros v. symmetry. by apply same_skel_is_Some. }
  assert (Hgu : ∀ u v, uses gs' u v ↔ uses (p_values p) u v).
  { intros u v. symmetry. by apply same_skel_uses. }
  split; [split; [|split]|split; [split; [|split]|constructor]].
  - intros v d Hv u. rewrite (go_glob _ _ _ _ Hok' _ _ Hv). unfold outside, global_user. simpl.
    rewrite Hgu. split.
    + intros [[?|(g & gd & Hne & Hg' & Hu)]|Hu]; [by left|right|right].
      * exists g, gd. by rewrite lookup_insert_ne.
      * exists f, fd'. by rewrite lookup_insert.
    + intros [?|(g & gd & Hg' & Hu)]; [by left; left|].
      apply Hfs in Hg' as [[-> ->]|[Hne Hg']]; [by right|]. left. right. by eauto.
  - intros g gd v d [[-> ->]|[Hne Hg']]%Hfs; [apply (go_loc _ _ _ _ Hok')|by apply (U2 g)].
  - intros g gd v d [[-> ->]|[Hne Hg']]%Hfs; [apply (go_bb _ _ _ _ Hok')|by apply (U3 g)].
  - intros u v. simpl. rewrite Hgu, Hg. apply D1.
  - intros g gd u v [[-> ->]|[Hne Hg']]%Hfs; [apply (go_ex _ _ _ _ Hok')|].
    simpl. rewrite Hg. by apply (D2 g).
  - intros g gd u v [[-> ->]|[Hne Hg']]%Hfs; [apply (go_bex _ _ _ _ Hok')|by apply (D3 g)].
  - intros g gd v [[-> ->]|[Hne Hg']]%Hfs Hv; [by apply (go_disj _ _ _ _ Hok')|].
    apply (S1 g); [done|]. by apply Hg.
  - intros g h gd hd v [[-> ->]|[Hne Hg']]%Hfs [[-> ->]|[Hne' Hh']]%Hfs Hgh Hv; [done| | |].
    + apply (S2 f h fd hd); [done..|]. by apply Hsub.
    + destruct (vals fd' !! v) eqn:E; [|done]. exfalso.
      assert (is_Some (vals fd !! v)) as Hv' by (apply Hsub; by eauto).
      apply (S2 f g fd gd) in Hv'; [|done..]. rewrite Hv' in Hv. by destruct Hv.
    + by apply (S2 g h gd hd).
  - intros g gd v [[-> ->]|[Hne Hg']]%Hfs; [apply (go_irr _ _ _ _ Hok')|by apply (S3 g)].
Qed.

Lemma shrunk_self p f fd : shapes_ok p → p_funcs p !! f = Some fd → cleaned fd fd.
Proof.
  intros Hs Hf. specialize (Hs _ _ Hf). constructor; try done.
  - apply shrunk_refl. intros b bd q Hb Hq. destruct (so_param _ _ _ Hs _ _ _ Hb Hq) as (x & i & Hx & _). by exists x.
  - intros v Hn. destruct Hn; [by eexists|done..].
  - split.
    + rewrite <- (map_id (l_bbs (f_layout fd))) at 1. apply map_ext_in.
      intros [b is] Hb%elem_of_list_In. simpl. f_equal. symmetry. apply filter_all_in.
      intros v Hv. destruct (so_listed _ _ _ Hs v b) as (x & Hx & Hi); [by exists is|]. by exists x.
    + intros v. destruct (decide (alive (vals fd) v)) as [Hal|Hal]; [done|].
      destruct (l_inst_bb (f_layout fd) !! v) as [b|] eqn:Hb; [|done]. exfalso. apply Hal.
      apply (so_parent _ _ _ Hs) in Hb. destruct (so_listed _ _ _ Hs _ _ Hb) as (x & Hx & Hi).
      by exists x.
  - intros v x Hx. left. by exists x.
Qed.
Lemma trimmed_cleaned E gs d gs' d' : trimmed_to E gs d gs' d' → cleaned d d'.
Proof. intros T. constructor; apply T. Qed.
Lemma cleaned_trans d d1 d2 : cleaned d d1 → cleaned d1 d2 → cleaned d d2.
Proof.
  intros T1 T2. constructor.
  - eapply shrunk_trans; [apply T1|apply T2].
  - intros v Hv. apply (cl_needed _ _ T2). eapply needed_shrunk; [apply T1|apply T1|done].
  - eapply relisted_trans; [|apply T1|apply T2]. intros v. eapply shrunk_sub. apply T2.
  - by rewrite (cl_ty _ _ T2), (cl_ty _ _ T1).
  - by rewrite (cl_name _ _ T2), (cl_name _ _ T1).
  - by rewrite (cl_params _ _ T2), (cl_params _ _ T1).
  - eapply kept_trans; [apply T1|apply T1|apply T2].
Qed.

Lemma put_shapes p f E fd gs' fd' : shapes_ok p → trimmed_to E (p_values p) fd gs' fd' →
  shapes_ok (put p f gs' fd').
Proof.
  intros Hs T g gd. simpl. destruct (decide (g = f)) as [->|Hg].
  - rewrite lookup_insert. intros [= <-]. apply T.
  - rewrite lookup_insert_ne by done. apply Hs.
Qed.
Lemma put_tame p f E fd gs' fd' : all_tame p → graph_ok E (p_values p) (vals fd) (blks fd) →
  p_funcs p !! f = Some fd →
  trimmed_to E (p_values p) fd gs' fd' → all_tame (put p f gs' fd').
Proof.
  intros Hs Hok Hf T g gd. simpl. destruct (decide (g = f)) as [->|Hg].
  - rewrite lookup_insert. intros [= <-]. eapply trimmed_tame; [done| |done]. by eapply Hs.
  - rewrite lookup_insert_ne by done. apply Hs.
Qed.
Lemma put_cleaned p f E fd gs' fd' : shapes_ok p → p_funcs p !! f = Some fd →
  trimmed_to E (p_values p) fd gs' fd' → cleaned_program p (put p f gs' fd').
Proof.
  intros Hs Hf T. constructor; try done.
  - intros v. symmetry. apply (tt_skel _ _ _ _ _ T).
  - intros g. simpl. destruct (decide (g = f)) as [->|Hg].
    + rewrite lookup_insert, Hf. by eapply trimmed_cleaned.
    + rewrite lookup_insert_ne by done. destruct (p_funcs p !! g) as [gd|] eqn:E'; [|done].
      by eapply shrunk_self.
Qed.
Lemma cleaned_program_refl p : shapes_ok p → cleaned_program p p.
Proof.
  intros Hs. constructor; try done. intros f. destruct (p_funcs p !! f) eqn:E; [|done]. by eapply shrunk_self.
Qed.
Lemma cleaned_program_trans p p1 p2 : cleaned_program p p1 → cleaned_program p1 p2 → cleaned_program p p2.
Proof.
  intros [A1 A2 A3 A4 A5] [B1 B2 B3 B4 B5]. constructor; try congruence.
  intros f. specialize (A5 f). specialize (B5 f).
  destruct (p_funcs p !! f), (p_funcs p1 !! f), (p_funcs p2 !! f); try done. by eapply cleaned_trans.
Qed.

Lemma dce_pass_ok o order : fair o → ∀ live p live' p',
  use_lists_exact p → no_dangling p → separated p → shapes_ok p →
  dce_pass o order live p = Dok (live', p') →
  use_lists_exact p' ∧ no_dangling p' ∧ separated p' ∧ shapes_ok p' ∧ cleaned_program p p'.
Proof.
  intros F. induction order as [|f order IH]; intros live p live' p' HU HD HS Hsh H;
    cbn [dce_pass] in H.
  - injection H as <- <-. split_and!; [done..|]. by apply cleaned_program_refl.
  - destruct (p_funcs p !! f) as [fd|] eqn:Hf; [|done]. cbn [dopt dthen] in H.
    destruct (dce_run_on o live (p_values p) fd) as [[[live1 gs1] fd1]| |] eqn:Hr; [|done..].
    cbn [dopt dthen fst snd] in H.
    pose proof (rounds_trims _ _ _ F _ _ _ _ _ _ (program_graph _ _ _ HU HD HS Hf) (Hsh _ _ Hf) Hr) as T.
    change (set_func _ f fd1) with (put p f gs1 fd1) in H.
    destruct (put_sound _ _ _ _ _ HU HD HS Hf T) as (HU1 & HD1 & HS1).
    destruct (IH _ _ _ _ HU1 HD1 HS1 (put_shapes _ _ _ _ _ _ Hsh T) H) as (HU2 & HD2 & HS2 & Hsh2 & C2).
    split_and!; [done..|]. eapply cleaned_program_trans; [|done]. by eapply put_cleaned.
Qed.

(** The marks stay within the functions visited so far. *)
Lemma rounds_live o n : fair o → ∀ E live gs d live' gs' d', graph_ok E gs (vals d) (blks d) →
  shape_ok (vals d) (blks d) (f_layout d) →
  dce_rounds n o live gs d = Dok (live', gs', d') →
  ∀ v, v ∈ live' → v ∈ live ∨ alive (vals d) v.
Proof.
  intros F. induction n as [|n IH]; intros E live gs d live' gs' d' Hok Hsh H v Hv; [done|].
  cbn [dce_rounds] in H.
  destruct (dce_round o live gs d) as [[[[c live1] gs1] d1]| |] eqn:Hr; try done.
  cbn [dthen fst snd] in H.
  destruct (round_trims _ _ _ _ _ _ _ _ _ F Hok Hsh Hr) as [T1 _].
  assert (H1 : ∀ v, v ∈ live1 → v ∈ live ∨ alive (vals d) v).
  { unfold dce_round in Hr. destruct (dce_mark o (vals d) live) as [live2| |] eqn:Hm; try done.
    cbn [dthen] in Hr. destruct (dce_mark_ok _ _ _ _ F Hm) as (_ & Hl & _).
    destruct (dce_sweep _ _ _) as [[[] ]|]; [|done]. cbn [dopt dthen fst snd] in Hr.
    destruct (opt_bb_params _ _ _) as [[[] ]|]; [|done]. cbn [dopt dthen fst snd] in Hr.
    injection Hr as <- <- <- <-. done. }
  destruct c.
  - destruct (IH _ _ _ _ _ _ _ (tt_graph _ _ _ _ _ T1) (tt_shape _ _ _ _ _ T1) H v Hv) as [?|Ha]; [by auto|].
    right. eapply shrunk_sub; [apply T1|done].
  - injection H as <- <- <-. by auto.
Qed.

Lemma dce_pass_total o order : fair o → ∀ live p, NoDup order →
  (∀ f, f ∈ order → is_Some (p_funcs p !! f)) →
  use_lists_exact p → no_dangling p → separated p → shapes_ok p → all_tame p →
  (∀ f fd, f ∈ order → p_funcs p !! f = Some fd → foreign live (vals fd)) →
  ∃ r, dce_pass o order live p = Dok r.
Proof.
  intros F. induction order as [|f order IH]; intros live p Hn Hin HU HD HS Hsh Ht Hfor;
    cbn [dce_pass]; [by eauto|].
  apply list.NoDup_cons in Hn as [Hn1 Hn2].
  destruct (Hin f) as [fd Hf]; [by left|]. rewrite Hf. cbn [dopt dthen].
  pose proof (program_graph _ _ _ HU HD HS Hf) as Hok.
  destruct (dce_run_on_total _ o live (p_values p) fd F Hok (Hsh _ _ Hf) (Ht _ _ Hf)) as [[[live1 gs1] fd1] Hr].
  { eapply (Hfor f); [by left|done]. }
  rewrite Hr. cbn [dopt dthen fst snd].
  pose proof (rounds_trims _ _ _ F _ _ _ _ _ _ Hok (Hsh _ _ Hf) Hr) as T.
  change (set_func _ f fd1) with (put p f gs1 fd1).
  destruct (put_sound _ _ _ _ _ HU HD HS Hf T) as (HU1 & HD1 & HS1).
  apply IH; [done|..|done|done|done|by eapply put_shapes|by eapply put_tame|].
  - intros g Hg. simpl. rewrite lookup_insert_ne by (by intros ->). apply Hin. by right.
  - intros g gd Hg. simpl. rewrite lookup_insert_ne by (by intros ->). intros Hgd v Hv.
    destruct (rounds_live _ _ F _ _ _ _ _ _ _ Hok (Hsh _ _ Hf) Hr v Hv) as [Hl|Ha].
    + by apply (Hfor g gd); [right|done|].
    + apply (sp_local _ HS f g fd gd); [done..|by intros ->|done].
Qed.

(** An instruction with an effect and a global operand makes the pass panic. *)
Lemma dce_pass_globals o order f fd u x v : fair o → ∀ live p, NoDup order →
  use_lists_exact p → no_dangling p → separated p → shapes_ok p →
  (∀ y, y ∈ live → p_values p !! y = None) → f ∈ order → p_funcs p !! f = Some fd →
  vals fd !! u = Some x → effectful (v_kind x) → v ∈ operands (v_kind x) → is_Some (p_values p !! v) →
  dce_pass o order live p = Dpanic.
Proof.
  intros F. induction order as [|g order IH]; intros live p Hn HU HD HS Hsh Hl Hin Hf Hx He Hv Hs;
    cbn [dce_pass]; [by apply elem_of_nil in Hin|].
  apply list.NoDup_cons in Hn as [Hn1 Hn2].
  destruct (p_funcs p !! g) as [gd|] eqn:Hg; [|done]. cbn [dopt dthen].
  pose proof (program_graph _ _ _ HU HD HS Hg) as Hok.
  apply elem_of_cons in Hin as [->|Hin].
  - rewrite Hf in Hg. injection Hg as ->.
    rewrite (dce_global_panics _ o live _ _ u x v F Hok (Hsh _ _ Hf) Hx He Hv Hs); [done|].
    intros Hlv. destruct Hs as [y Hy]. by rewrite (Hl v Hlv) in Hy.
  - assert (f ≠ g) as Hne by (by intros ->).
    pose proof (dce_rounds_fuel _ o (S (base.size (vals gd))) F live _ _ Hok (Hsh _ _ Hg) ltac:(lia)) as Hfu.
    fold (dce_run_on o live (p_values p) gd) in Hfu.
    destruct (dce_run_on o live (p_values p) gd) as [[[live1 gs1] gd1]| |] eqn:Hr; [|done..].
    cbn [dopt dthen fst snd].
    pose proof (rounds_trims _ _ _ F _ _ _ _ _ _ Hok (Hsh _ _ Hg) Hr) as T.
    change (set_func _ g gd1) with (put p g gs1 gd1).
    destruct (put_sound _ _ _ _ _ HU HD HS Hg T) as (HU1 & HD1 & HS1).
    assert (Hsk : ∀ y, is_Some (gs1 !! y) ↔ is_Some (p_values p !! y)).
    { intros y. symmetry. apply same_skel_is_Some, T. }
    apply IH; [done|done|done|done|by eapply put_shapes| |done| |done|done|done|].
    + intros y Hy. simpl. destruct (gs1 !! y) as [z|] eqn:Ez; [|done]. exfalso.
      assert (is_Some (p_values p !! y)) as Hp by (apply Hsk; by eauto).
      destruct (rounds_live _ _ F _ _ _ _ _ _ _ Hok (Hsh _ _ Hg) Hr y Hy) as [Hly|[z' Ha]].
      * rewrite (Hl _ Hly) in Hp. by destruct Hp.
      * by rewrite (sp_global _ HS _ _ y Hg Hp) in Ha.
    + simpl. by rewrite lookup_insert_ne.
    + simpl. by apply Hsk.
Qed.
