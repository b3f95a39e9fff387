(** C52: which texts are accepted; C31: arguments are never too few. *)
From Coq Require Import Lia ZifyBool ZifyNat ZifyN.
From Verif Require Import Base IdModel TypeModel IrModel WorldModel LexerModel ParserModel ParserSpec ParserProofs FrontModel
  FlowSpec DriverModel DriverSpec DriverProofs DriverProperties FrontProperties HistoryProofs FaithSpec AcceptSpec AcceptTopProofs AcceptProperties
  TameSpec TreeWfProofs ScopeProofs ReadAgainProofs SourceProofs.

(** C52: a text in ASCII of at most 2^30 parts is well formed, and parsed without errors, exactly if it is accepted
    and none of the mistakes that are not checked is in it. *)
Theorem C52_accepted_exactly : ∀ r s ts s',
  (∀ c, RByte c ∈ r → is_ascii c) → driver_new r = (Rok s, 0%N) → parses s ts s' → small ts →
  ((∃ p n b, read_program r = (Rok p, n, b)) ∧ tame ts ↔ perrs s' = 0%N ∧ well_formed ts).
Proof.
  intros r s ts s' Ha Hd Hp Hs. split.
  - intros [(p & n & b & Hr) Ht]. by eapply read_well_formed.
  - intros [He Hw]. split; [|by apply well_formed_tame]. destruct (C49_well_formed_accepted r s ts s' Hd Hp He Hw Hs) as (p & b & Hr). by exists p, 0%N, b.
Qed.
Print Assumptions C52_accepted_exactly.
(** ... so a text with a mistake, but none of those, is rejected. *)
Theorem C52_mistakes_rejected : ∀ r s ts s',
  (∀ c, RByte c ∈ r → is_ascii c) → driver_new r = (Rok s, 0%N) → parses s ts s' → small ts → tame ts →
  ¬ well_formed ts → ∀ p n b, read_program r ≠ (Rok p, n, b).
Proof. intros r s ts s' Ha Hd Hp Hs Ht Hw p n b Hr. apply Hw. by eapply read_well_formed. Qed.
Print Assumptions C52_mistakes_rejected.

(** C31, the part that holds: in accepted texts calls, jumps and branches, in blocks that can
    be reached, pass at least as many arguments as there are parameters.  That there are not
    more is false: [C31_argument_count_refuted]. *)
Theorem C31_enough_arguments_partial : ∀ r p n b s ts s' pre m ps t bbs post first a st,
  read_program r = (Rok p, n, b) → driver_new r = (Rok s, 0%N) → parses s ts s' → small ts →
  ts = pre ++ TFunDef m ps t bbs :: post → head bbs = Some first → a ∈ bbs → reachable bbs first a → st ∈ b_stmts a →
  no_shortage (pre ++ [TFunDef m ps t bbs]) bbs st.
Proof.
  intros r p n b s ts s' pre m ps t bbs post first a st Hr Hd Hp Hs. apply small_globals in Hs.
  destruct (read_builds _ _ _ _ _ _ _ Hr Hd Hp) as (_ & Hb & He & _). by eapply built_enough.
Qed.
Print Assumptions C31_enough_arguments_partial.

Lemma ascii_check t : forallb (λ c, (N_of_ascii c <? 128)%N) (String.list_ascii_of_string t) = true →
  ∀ c, RByte c ∈ (RByte <$> String.list_ascii_of_string t) → is_ascii c.
Proof. rewrite forallb_forall. intros H c Hc. apply elem_of_list_fmap in Hc as (c' & [= <-] & Hc). apply elem_of_list_In, H, N.ltb_lt in Hc. exact Hc. Qed.
Lemma parsed_check t ts : trees_text t = Some ts → ∃ s s', driver_new (RByte <$> String.list_ascii_of_string t) = (Rok s, 0%N) ∧ parses s ts s'.
Proof.
  unfold trees_text. intros H. destruct (driver_new _) as [[s| | |] n] eqn:E; try discriminate H.
  pose proof (driver_spec _ _ _ E) as (_ & _ & H3 & _). destruct (H3 s eq_refl) as (_ & _ & ->). apply trees_of_parses in H as [s' Hp]. by exists s, s'.
Qed.
(** A well-formed text, and so an accepted one *)
Example C52_example : ∃ s s', let r := RByte <$> String.list_ascii_of_string loop_text in
  (∀ c, RByte c ∈ r → is_ascii c) ∧ driver_new r = (Rok s, 0%N) ∧ parses s (lpre ++ [lmain]) s' ∧ small (lpre ++ [lmain]) ∧
  perrs s' = 0%N ∧ well_formed (lpre ++ [lmain]) ∧ tame (lpre ++ [lmain]).
Proof.
  destruct C49_example as (s & s' & Hd & Hp & He & Hw & Hs). exists s, s'. cbv zeta. split; [apply ascii_check; vm_compute; reflexivity|].
  split; [exact Hd|]; split; [exact Hp|]; split; [exact Hs|]; split; [exact He|]; split; [exact Hw|]. exact (well_formed_tame _ Hw).
Qed.
(** A text with a mistake: [%y] is computed in a block from which control does not reach the
    use. *)
Definition wrong_text : string := "fun @f(@n: i32): i32 { %e: br @n, %a, %b
  %a: %y = add @n, 1 ret %y
  %b: %z = mul %y, 2 ret %z }"%string.
Definition wrong_blocks : list ablock :=
  [ABlock "%e" [] [SBr (VSym "@n") "%a" [] "%b" []]; ABlock "%a" [] [SDef "%y" (EBin Add (VSym "@n") (VInt 1)); SRet (Some (VSym "%y"))];
   ABlock "%b" [] [SDef "%z" (EBin Mul (VSym "%y") (VInt 2)); SRet (Some (VSym "%z"))]]%string.
Definition wrong_trees : list atop := [TFunDef "@f" [("@n", AInt)] (Some AInt) wrong_blocks]%string.
Lemma wrong_tame : tame wrong_trees.
Proof.
  intros pre t post E. destruct pre as [|? [|? ?]]; try discriminate E. injection E as <- <-. split; [by intros x _ ?%elem_of_nil|].
  intros first b _ Hb _. split.
  - repeat (apply elem_of_cons in Hb as [-> |Hb]); [..|by apply elem_of_nil in Hb]; by intros x ?%elem_of_nil.
  - repeat (apply elem_of_cons in Hb as [-> |Hb]); [..|by apply elem_of_nil in Hb]; repeat constructor; simpl; intros; lia.
Qed.
Lemma rejected_check t : fst (run_text t) ≠ "program"%string → ∀ p n b, read_program (RByte <$> String.list_ascii_of_string t) ≠ (Rok p, n, b).
Proof. unfold run_text. intros H p n b E. rewrite E in H. by apply H. Qed.
Example C52_wrong_example : ∃ s s', let r := RByte <$> String.list_ascii_of_string wrong_text in
  (∀ c, RByte c ∈ r → is_ascii c) ∧ driver_new r = (Rok s, 0%N) ∧ parses s wrong_trees s' ∧ small wrong_trees ∧ tame wrong_trees ∧
  ¬ (perrs s' = 0%N ∧ well_formed wrong_trees) ∧ ∀ p n b, read_program r ≠ (Rok p, n, b).
Proof.
  destruct (parsed_check wrong_text wrong_trees) as (s & s' & Hd & Hp); [vm_compute; reflexivity|].
  exists s, s'. cbv zeta. assert (Ha := ascii_check wrong_text ltac:(vm_compute; reflexivity)).
  assert (Hs : small wrong_trees) by (vm_compute; reflexivity).
  assert (Hr : ∀ p n b, read_program (RByte <$> String.list_ascii_of_string wrong_text) ≠ (Rok p, n, b)).
  { apply rejected_check. vm_compute. intros H. discriminate H. }
  split; [exact Ha|]; split; [exact Hd|]; split; [exact Hp|]; split; [exact Hs|]; split; [exact wrong_tame|]. split; [|exact Hr].
  intros Hw. destruct (proj2 (C52_accepted_exactly _ _ _ _ Ha Hd Hp Hs) Hw) as [(p & n & b & Hx) _]. exact (Hr p n b Hx).
Qed.
(** Calls, jumps and branches with arguments *)
Example C31_enough_example : ∃ p n b s s' first, let r := RByte <$> String.list_ascii_of_string loop_text in
  read_program r = (Rok p, n, b) ∧ driver_new r = (Rok s, 0%N) ∧ parses s (lpre ++ [lmain]) s' ∧ small (lpre ++ [lmain]) ∧
  head [le; ll; lb; lx] = Some first ∧ reachable [le; ll; lb; lx] first le ∧ SJump "%loop" [VSym "@n"] ∈ b_stmts le.
Proof.
  destruct (accepted_check loop_text (lpre ++ [lmain])) as (s & s' & p & b & Hd & Hp & Hr & _); [vm_compute; reflexivity|exact loop_trees|].
  exists p, 0%N, b, s, s', le. cbv zeta. split; [exact Hr|]; split; [exact Hd|]; split; [exact Hp|]. clear.
  split; [vm_compute; reflexivity|]. split; [done|]. split; [exists 0; constructor|by left].
Qed.
