(** C54: dead code elimination does not change what programs do. *)
From Coq Require Import Lia.
From Verif Require Import Base IdModel TypeModel IrModel LayoutModel WorldModel LexerModel LexerProofs
  ParserModel ParserSpec ParserProofs FrontModel DriverModel DriverSpec UsesSpec DfgSpec WorldSpec
  TypingSpec FlowSpec DriverProperties FrontProperties DceModel DceSpec DcePassProofs DceFrontProofs KoopaModel
  FaithSpec FaithTopProofs OrderProofs DceProperties ArithModel InterpModel InterpSimProofs InterpDceProofs InterpFuelProofs.

(** The names and the parameters of the functions of a program that the front end returns. *)
Lemma returned_names r p : returned r p →
  (∀ f fd q d, p_funcs p !! f = Some fd → q ∈ f_params fd → vals fd !! q = Some d → ¬ removable (v_kind d)) ∧
  (∀ f g fd gd, p_funcs p !! f = Some fd → p_funcs p !! g = Some gd → f_name fd = f_name gd → f = g).
Proof.
  intros (n & b & s & ts & s' & H1 & H2 & H3 & H4).
  pose proof (read_faithful _ _ _ _ _ _ _ H1 H2 H3 H4) as (G & Fn & _ & HF & _ & _ & _ & HU).
  assert (Hin : ∀ f, is_Some (p_funcs p !! f) → f ∈ p_func_layout p).
  { clear -H1. apply read_olds in H1 as (w & HO & <-). intros f. apply (od_funcs _ HO). }
  clear H1 H2 H3 H4. split.
  - intros f fd q d Hf Hq Hd. assert (f ∈ p_func_layout p) as Hl by (apply Hin; by exists fd).
    apply elem_of_list_lookup in Hl as (i & Hi). destruct (Forall2_lookup_l _ _ _ _ _ HF Hi) as (t & _ & fd0 & Hf0 & _ & Hfun).
    rewrite Hf in Hf0. injection Hf0 as <-. destruct t as [| | | |]; try done.
    2: { destruct Hfun as (_ & _ & Hv & _). by rewrite Hv in Hd. }
    + destruct Hfun as (_ & _ & _ & L & B & l & _ & _ & _ & _ & _ & HP & _).
      apply elem_of_list_lookup in Hq as (j & Hj). destruct (Forall2_lookup_l _ _ _ _ _ HP Hj) as (x & _ & _ & t & k & Hk & _).
      unfold datas in Hk. rewrite lookup_fmap, Hd in Hk. injection Hk as _ Hk.
      intros [Hr|[m Hr]]; rewrite Hk in Hr; discriminate Hr.
  - intros f g fd gd Hf Hg Hn.
    assert (∀ f fd, p_funcs p !! f = Some fd → Fn !! f = Some (f_name fd)) as Hnm.
    { clear -HF Hin. intros f fd Hf. assert (f ∈ p_func_layout p) as Hl by (apply Hin; by exists fd).
      apply elem_of_list_lookup in Hl as (i & Hi). destruct (Forall2_lookup_l _ _ _ _ _ HF Hi) as (t & _ & fd0 & Hf0 & Hm & _).
      rewrite Hf in Hf0. by injection Hf0 as <-. }
    apply (HU f g (f_name fd)); [by apply Hnm|]. rewrite Hn. by apply Hnm.
Qed.

(** C54: if the example interpreter runs a program of the front end to its end, then it runs
    what dead code elimination makes of the program to its end: with the same result, and with
    the same calls of foreign functions, in the same order, with the same arguments and
    results (the state of the foreign world is the same, whatever foreign functions are).  It
    does not need deeper recursion.  In whatever order hash tables are visited. *)
Theorem C54_same_behaviour : ∀ E (C : xconfig E) o order live r p live' p' fuel fns fns' e z e1,
  fair o → returned r p → dce_pass o order live p = Dok (live', p') →
  (∀ f, f ∈ fns ↔ is_Some (p_funcs p !! f)) → (∀ f, f ∈ fns' ↔ is_Some (p_funcs p' !! f)) →
  interpret C fuel fns p e = XOk (z, e1) → interpret C fuel fns' p' e = XOk (z, e1).
Proof.
  intros E C o order live r p live' p' fuel fns fns' e z e1 F Hr Hd Hf Hf' H.
  destruct (returned_ok _ _ Hr) as (HU & HD & HS & Hsh & _). destruct (returned_names _ _ Hr) as [Hpar Hnm].
  destruct (dce_pass_ok o order F live p live' p' HU HD HS Hsh Hd) as (_ & HD' & _ & _ & Hcp).
  apply (interpret_cleaned C fuel fns fns' p p' e z e1 Hcp HD' HS Hsh Hpar Hnm); [|exact H].
  intros f _ Hs. apply Hf'. pose proof (cp_funcs _ _ Hcp f) as Hc. destruct Hs as [fd Hfd]. rewrite Hfd in Hc.
  destruct (p_funcs p' !! f) as [fd'|]; [by exists fd'|done].
Qed.
Print Assumptions C54_same_behaviour.
(** C54, for any program without what [cleaned_program] allows to be missing. *)
Theorem C54_cleaned : ∀ E (C : xconfig E) fuel fns fns' p p' e z e1,
  cleaned_program p p' → no_dangling p' → separated p → shapes_ok p →
  (∀ f fd q d, p_funcs p !! f = Some fd → q ∈ f_params fd → vals fd !! q = Some d → ¬ removable (v_kind d)) →
  (∀ f g fd gd, p_funcs p !! f = Some fd → p_funcs p !! g = Some gd → f_name fd = f_name gd → f = g) →
  (∀ f, f ∈ fns → is_Some (p_funcs p !! f) → f ∈ fns') →
  interpret C fuel fns p e = XOk (z, e1) → interpret C fuel fns' p' e = XOk (z, e1).
Proof. exact @interpret_cleaned. Qed.
Print Assumptions C54_cleaned.
(** The bound on the recursion of the interpreter has no influence on any other outcome. *)
Theorem C54_bound : ∀ E (C : xconfig E) fuel more fns p e r,
  interpret C fuel fns p e = r → r ≠ XDeep → interpret C (fuel + more) fns p e = r.
Proof. exact @interpret_more. Qed.
Print Assumptions C54_bound.

(** A loop that fills an array and calls a function and a foreign function; dead are %u, %t,
    the division, the parameter %w and a multiplication in @square. *)
Definition run_source : string :=
  "decl @p(i32)
   fun @square(@x: i32): i32 { %e: %d = mul @x, 3 %y = mul @x, @x ret %y
   }
   fun @main(): i32 {
   %entry: %a = alloc [i32, 3] %u = alloc [i32, 2] jump %loop(0, 7)
   %loop(%i: i32, %w: i32): %c = lt %i, 3 br %c, %body, %end
   %body: %q = getelemptr %a, %i %s = call @square(%i) store %s, %q call @p(%s) %j = add %i, 1 %z = div 6, %j
     jump %loop(%j, %i)
   %end: %r = getelemptr %a, 2 %l = load %r %t = load %a ret %l
   }".
(** The foreign function [p] records its arguments. *)
Definition recorder : xconfig (list N) :=
  XConfig (list N) true 8 (λ n, if String.eqb n "p" then Some (λ ws e, (e ++ ws, 0%N)) else None).
(** The outcome before, the text after dead code elimination, and the outcome after. *)
Definition around_dce (t : string) : xres (Z * list N) * option string * xres (Z * list N) :=
  let p := program_of t in
  match dce_pass some_orders (p_func_layout p) ∅ p with
  | Dok (_, p') => (interpret recorder 40 (p_func_layout p) p [],
      match print_program p' with Rok s => Some s | _ => None end,
      interpret recorder 40 (p_func_layout p') p' [])
  | _ => (XErr, None, XErr)
  end.
Lemma around_dce_ok t a s b : around_dce t = (a, Some s, b) → ∃ live' p',
  dce_pass some_orders (p_func_layout (program_of t)) ∅ (program_of t) = Dok (live', p') ∧
  interpret recorder 40 (p_func_layout (program_of t)) (program_of t) [] = a ∧
  interpret recorder 40 (p_func_layout p') p' [] = b.
Proof.
  unfold around_dce. generalize (program_of t) as p. intros p H.
  destruct (dce_pass some_orders (p_func_layout p) ∅ p) as [[l p']| |]; [|discriminate H..].
  injection H as H1 _ H2. exists l, p'. split; [reflexivity|]. split; [exact H1|exact H2].
Qed.
Definition run_result : string :=
"decl @p(i32)

fun @square(@x: i32): i32 {
%e:
  %y = mul @x, @x
  ret %y
}

fun @main(): i32 {
%entry:
  %a = alloc [i32, 3]
  jump %loop(0)

%loop(%i: i32):
  %c = lt %i, 3
  br %c, %body, %end

%body:
  %q = getelemptr %a, %i
  %s = call @square(%i)
  store %s, %q
  call @p(%s)
  %j = add %i, 1
  jump %loop(%j)

%end:
  %r = getelemptr %a, 2
  %l = load %r
  ret %l
}
".
Definition layout_lists_b (p : program) : bool :=
  forallb (λ f, match p_funcs p !! f with Some _ => true | None => false end) (p_func_layout p) &&
  forallb (λ x, bool_decide (x.1 ∈ p_func_layout p)) (map_to_list (p_funcs p)).
Lemma layout_lists p : layout_lists_b p = true → ∀ f, f ∈ p_func_layout p ↔ is_Some (p_funcs p !! f).
Proof.
  unfold layout_lists_b. rewrite andb_true_iff, !forallb_forall. intros [H1 H2] f. split.
  - intros Hf. specialize (H1 f (proj1 (elem_of_list_In _ _) Hf)). destruct (p_funcs p !! f); [by eauto|discriminate].
  - intros [fd Hf]. specialize (H2 (f, fd)). rewrite bool_decide_eq_true in H2. apply H2.
    apply elem_of_list_In. by apply elem_of_map_to_list.
Qed.
(** The hypotheses of C54, met by that program, and its outcomes. *)
Example C54_example : ∃ r p live' p', returned r p ∧
  dce_pass some_orders (p_func_layout p) ∅ p = Dok (live', p') ∧
  (∀ f, f ∈ p_func_layout p ↔ is_Some (p_funcs p !! f)) ∧
  interpret recorder 40 (p_func_layout p) p [] = XOk (4%Z, [0; 1; 4]%N) ∧
  interpret recorder 40 (p_func_layout p') p' [] = XOk (4%Z, [0; 1; 4]%N) ∧
  around_dce run_source = (XOk (4%Z, [0; 1; 4]%N), Some run_result, XOk (4%Z, [0; 1; 4]%N)).
Proof.
  assert (A : around_dce run_source = (XOk (4%Z, [0; 1; 4]%N), Some run_result, XOk (4%Z, [0; 1; 4]%N)))
    by (vm_compute; reflexivity).
  assert (L : layout_lists_b (program_of run_source) = true) by (vm_compute; reflexivity).
  destruct (returned_check run_source) as [p Hr]; [vm_compute; reflexivity..|].
  pose proof (program_of_ok _ _ _ eq_refl Hr) as E.
  destruct (around_dce_ok _ _ _ _ A) as (live' & p' & H1 & H2 & H3).
  pose proof (layout_lists _ L) as H4. clear L. rewrite <- E in H1, H2, H4. clear E.
  exists (RByte <$> String.list_ascii_of_string run_source), p, live', p'.
  split; [exact Hr|]. split; [exact H1|]. split; [exact H4|]. split; [exact H2|]. split; [exact H3|exact A].
Qed.
(** The converse of C54 is false: a program may panic in code that is then eliminated. *)
Definition failing_source : string := "fun @main(): i32 { %entry: %x = div 1, 0 ret 5
   }".
Theorem C54_converse_refuted : ∃ r p live' p', returned r p ∧
  dce_pass some_orders (p_func_layout p) ∅ p = Dok (live', p') ∧
  interpret recorder 40 (p_func_layout p) p [] = XPanic ∧
  interpret recorder 40 (p_func_layout p') p' [] = XOk (5%Z, []).
Proof.
  destruct (returned_check failing_source) as [p Hr]; [vm_compute; reflexivity..|].
  pose proof (program_of_ok _ _ _ eq_refl Hr) as E.
  destruct (around_dce_ok failing_source XPanic "fun @main(): i32 {
%entry:
  ret 5
}
" (XOk (5%Z, []))) as (live' & p' & H1 & H2 & H3); [vm_compute; reflexivity|].
  rewrite <- E in H1, H2. clear E. exists (RByte <$> String.list_ascii_of_string failing_source), p, live', p'.
  split; [exact Hr|]. split; [exact H1|]. split; [exact H2|exact H3].
Qed.
Print Assumptions C54_converse_refuted.
