(** C66: programs that keep their pointers use only memory that is there. *)
From Coq Require Import Lia.
From stdpp Require Import list gmap.
From Verif Require Import Base IdModel TypeModel IrModel LayoutModel LexerModel LexerProofs ParserModel ParserSpec FrontModel DriverModel DriverSpec
  ArithModel InterpModel DfgSpec UsesSpec TypingSpec ScopeSpec ScopeProofs DominSpec FaithSpec FaithTopProofs TreeWfProofs DceProperties InterpProperties RegularProofs
  DominCheckProofs DominProperties SoundSpec SoundTopProofs SoundProperties KeepSpec KeepTopProofs.

(** Every accepted text of ASCII characters in which nothing is undefined, arrays are not
    stored, pointers are stored only in what the function itself allocated, functions return
    integers or nothing, and foreign functions get integers: the interpreter never follows a
    pointer to memory that was dropped, moves none out of its buffer, and touches no foreign
    memory.  Definitions need not dominate uses. *)
Theorem C66_memory_safe : ∀ E (C : xconfig E) r p fuel order e,
  returned r p → (∀ c, RByte c ∈ r → is_ascii c) → no_undef p → keeping p →
  interpret C fuel order p e ≠ XBeyond.
Proof.
  intros E C r p fuel order e (n & b & s & ts & s' & H1 & H2 & H3 & H4) Ha HU HT.
  apply (front_sane C p fuel order e); [by eapply read_front|by eapply read_returns|exact HU|exact HT].
Qed.
Print Assumptions C66_memory_safe.
(** With the conditions of C65 as well, a run ends with a result or an error that it reports,
    or it recurses without end. *)
Theorem C66_safe : ∀ E (C : xconfig E) r p fuel order e,
  returned r p → (∀ c, RByte c ∈ r → is_ascii c) →
  (∀ f fd, p_funcs p !! f = Some fd → dominated fd) →
  no_undef p → only_data p → no_traps (c_checks C) p → plain_main p → keeping p →
  (∃ z e', interpret C fuel order p e = XOk (z, e')) ∨ interpret C fuel order p e = XErr ∨ interpret C fuel order p e = XDeep.
Proof.
  intros E C r p fuel order e Hr Ha HD HU HO HN HM HT.
  pose proof (C65_no_panic E C r p fuel order e Hr Ha HD HU HO HN HM) as H1.
  pose proof (C66_memory_safe E C r p fuel order e Hr Ha HU HT) as H2.
  destruct (interpret C fuel order p e) as [[z e']| | | |]; [left; by eexists _, _|by right; left|done|done|by right; right].
Qed.
Print Assumptions C66_safe.

(** A check of [keeping] *)
Definition keeping_b (p : program) : bool :=
  forallb (λ e : N * fdata,
    forallb (λ e' : N * vdata,
      match v_kind e'.2 with
      | KStore x dest =>
          match e_ty (local_env p e.2) x with
          | None | Some TInt32 => true
          | Some (TPtr _) => match vals e.2 !! dest with
                             | Some d => match v_kind d with KAlloc => true | _ => false end
                             | None => false
                             end
          | _ => false
          end
      | _ => true
      end) (map_to_list (vals e.2)) &&
    match f_ty e.2 with
    | TFun ts t =>
        match t with TInt32 | TUnit => true | _ => false end &&
        match l_bbs (f_layout e.2) with
        | [] => forallb (λ t, match t with TInt32 => true | _ => false end) ts
        | _ => true
        end
    | _ => true
    end) (map_to_list (p_funcs p)).
Lemma keeping_b_ok p : keeping_b p = true → keeping p.
Proof.
  unfold keeping_b. rewrite forallb_forall. intros H.
  assert (Hfun : ∀ f fd, p_funcs p !! f = Some fd → In (f, fd) (map_to_list (p_funcs p))) by (intros f fd Hf; by apply elem_of_list_In, elem_of_map_to_list).
  constructor.
  - intros f fd v d x dest t Hf Hd Hk Ht. specialize (H _ (Hfun _ _ Hf)). apply andb_true_iff in H as [H _]. rewrite forallb_forall in H.
    specialize (H (v, d) ltac:(by apply elem_of_list_In, elem_of_map_to_list)). cbn [snd] in H. rewrite Hk, Ht in H.
    destruct t as [| | |t'|]; try discriminate; [by left|right]. destruct (vals fd !! dest) as [e|] eqn:He; [|discriminate].
    exists t', e. split; [done|]. split; [done|]. by destruct (v_kind e).
  - intros f fd ts t Hf Ht. specialize (H _ (Hfun _ _ Hf)). apply andb_true_iff in H as [_ H]. cbn [snd] in H. rewrite Ht in H.
    apply andb_true_iff in H as [H _]. destruct t; try discriminate; auto.
  - intros f fd ts t Hf Hl Ht. specialize (H _ (Hfun _ _ Hf)). apply andb_true_iff in H as [_ H]. cbn [snd] in H. rewrite Ht, Hl in H.
    apply andb_true_iff in H as [_ H]. rewrite forallb_forall in H. apply list.Forall_forall. intros t' Ht'. specialize (H t' ltac:(by apply elem_of_list_In)). by destruct t'.
Qed.
(** The program of C65 keeps a pointer in memory, passes pointers to a function, and stores
    through them. *)
Example C66_example : ∃ p,
  returned (RByte <$> String.list_ascii_of_string sound_text) p ∧
  (∀ c, RByte c ∈ RByte <$> String.list_ascii_of_string sound_text → is_ascii c) ∧
  (∀ f fd, p_funcs p !! f = Some fd → dominated fd) ∧
  no_undef p ∧ only_data p ∧ no_traps (c_checks wrapping) p ∧ plain_main p ∧ keeping p ∧
  interpret wrapping 40 (p_func_layout p) p [] = XOk (5%Z, [3; 5]%N).
Proof.
  destruct (returned_check sound_text) as [p Hr]; [vm_compute; reflexivity..|].
  pose proof (program_of_ok _ _ _ eq_refl Hr) as E.
  assert (H1 : dominated_all p = true) by (rewrite E; vm_compute; reflexivity).
  assert (H2 : sound_b p = true) by (rewrite E; vm_compute; reflexivity).
  assert (H3 : outcome_is (interpret wrapping 40 (p_func_layout p) p []) 5 [3; 5]%N = true) by (rewrite E; vm_compute; reflexivity).
  assert (H4 : ∀ c, RByte c ∈ RByte <$> String.list_ascii_of_string sound_text → is_ascii c) by (apply ascii_check; vm_compute; reflexivity).
  assert (H5 : keeping_b p = true) by (rewrite E; vm_compute; reflexivity).
  clear E. destruct (sound_b_ok _ H2) as (S1 & S2 & S3 & S4). exists p. split; [exact Hr|]. split; [exact H4|]. split; [exact (dominated_all_ok _ H1)|].
  split; [exact S1|]. split; [exact S2|]. split; [exact S3|]. split; [exact S4|]. split; [exact (keeping_b_ok _ H5)|]. exact (outcome_is_ok _ _ _ H3).
Qed.

(** Without [keeping], programs that C65 covers follow pointers to memory that was dropped. *)
Definition beyond_b (p : program) : bool :=
  match interpret wrapping 40 (p_func_layout p) p [] with XBeyond => true | _ => false end.
Lemma beyond_ok p : beyond_b p = true → interpret wrapping 40 (p_func_layout p) p [] = XBeyond.
Proof. unfold beyond_b. by destruct (interpret _ _ _ _ _). Qed.
Definition beyond (text : string) : Prop := ∃ p,
  returned (RByte <$> String.list_ascii_of_string text) p ∧
  (∀ c, RByte c ∈ RByte <$> String.list_ascii_of_string text → is_ascii c) ∧
  (∀ f fd, p_funcs p !! f = Some fd → dominated fd) ∧
  no_undef p ∧ only_data p ∧ no_traps (c_checks wrapping) p ∧ plain_main p ∧
  interpret wrapping 40 (p_func_layout p) p [] = XBeyond.
Lemma beyond_check text p : returned (RByte <$> String.list_ascii_of_string text) p →
  (∀ c, RByte c ∈ RByte <$> String.list_ascii_of_string text → is_ascii c) →
  dominated_all p && sound_b p && beyond_b p = true → beyond text.
Proof.
  intros Hr Ha [[H1 H2]%andb_true_iff H3]%andb_true_iff. destruct (sound_b_ok _ H2) as (S1 & S2 & S3 & S4). exists p.
  split; [exact Hr|]. split; [exact Ha|]. split; [exact (dominated_all_ok _ H1)|]. split; [exact S1|]. split; [exact S2|]. split; [exact S3|]. split; [exact S4|].
  exact (beyond_ok _ H3).
Qed.
(** A pointer to a local variable is left behind in a global one; *)
Definition escape_text : string :=
  "global @g = alloc *i32, zeroinit
   fun @f() {
   %e: %x = alloc i32 store %x, @g ret
   }
   fun @main(): i32 {
   %e: call @f() %p = load @g %v = load %p ret %v
   }".
Theorem C66_escape_refuted : ∃ text, beyond text ∧
  ∀ p, returned (RByte <$> String.list_ascii_of_string text) p →
    ∀ f fd v d, p_funcs p !! f = Some fd → vals fd !! v = Some d → ∀ t n, v_ty d ≠ TArray t n ∧ v_ty d ≠ TPtr (TArray t n).
Proof.
  exists escape_text. destruct (returned_check escape_text) as [p Hr]; [vm_compute; reflexivity..|].
  pose proof (program_of_ok _ _ _ eq_refl Hr) as E. split.
  - eapply beyond_check; [exact Hr|apply ascii_check; vm_compute; reflexivity|]. rewrite E. vm_compute. reflexivity.
  - clear p Hr E. intros p Hr. pose proof (program_of_ok _ _ _ eq_refl Hr) as E.
    assert (H : every_value_b p (λ d, match v_ty d with TArray _ _ | TPtr (TArray _ _) => false | _ => true end) = true) by (rewrite E; vm_compute; reflexivity).
    clear E. apply (every_value_ok p (λ d, ∀ t n, v_ty d ≠ TArray t n ∧ v_ty d ≠ TPtr (TArray t n))) in H; [exact (proj2 H)|].
    intros d Hd t n. split; intros Hk; by rewrite Hk in Hd.
Qed.
Print Assumptions C66_escape_refuted.
(** an array is stored while there is a pointer to an element: the variable is still there,
    but its elements are in another buffer. *)
Definition buffer_text : string :=
  "fun @main(): i32 {
   %e: %a = alloc [i32, 2] %p = getelemptr %a, 1 store zeroinit, %a %v = load %p ret %v
   }".
Theorem C66_array_store_refuted : ∃ text, beyond text ∧
  ∀ p, returned (RByte <$> String.list_ascii_of_string text) p →
    ∀ f fd v d, p_funcs p !! f = Some fd → vals fd !! v = Some d → ∀ g l, v_kind d ≠ KCall g l.
Proof.
  exists buffer_text. destruct (returned_check buffer_text) as [p Hr]; [vm_compute; reflexivity..|].
  pose proof (program_of_ok _ _ _ eq_refl Hr) as E. split.
  - eapply beyond_check; [exact Hr|apply ascii_check; vm_compute; reflexivity|]. rewrite E. vm_compute. reflexivity.
  - clear p Hr E. intros p Hr. pose proof (program_of_ok _ _ _ eq_refl Hr) as E.
    assert (H : every_value_b p (λ d, match v_kind d with KCall _ _ => false | _ => true end) = true) by (rewrite E; vm_compute; reflexivity).
    clear E. apply (every_value_ok p (λ d, ∀ g l, v_kind d ≠ KCall g l)) in H; [exact (proj2 H)|]. intros d Hd g l Hk. by rewrite Hk in Hd.
Qed.
Print Assumptions C66_array_store_refuted.
