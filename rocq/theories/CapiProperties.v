(** C60, C61: the C interface. *)
From Coq Require Import Lia ZifyBool ZifyNat ZifyN.
From stdpp Require Import list gmap.
From Verif Require Import Base IdModel TypeModel IrModel WorldModel WorldProofs HistoryProofs ViewProofs LexerModel ParserModel ParserSpec FrontModel
  LayoutModel DriverModel DriverSpec DriverProperties FrontProperties PrintSpec KoopaModel CanonProperties CanonSpec
  TreeWfProofs AcceptSpec AgainProperties RawModel RawSpec RawTotalSpec FlowSpec WorldSpec FrontProofs BuildCleanProofs DceFrontProofs DriverProofs DceProperties RawProperties DominSpec DominCheckProofs DominProperties CapiModel CapiSpec CapiProofs CapiTextProofs.

(** ** C60: strings *)
(** The check of strings accepts exactly UTF-8. *)
Theorem C60_utf8 : ∀ l, valid_utf8 (Ascii.N_of_ascii <$> l) = true ↔ is_utf8 l.
Proof. exact valid_utf8_exact. Qed.
Print Assumptions C60_utf8.

(** A C string that is not UTF-8 gives the code for that, and nothing changes.  Otherwise the
    driver reads exactly the bytes before the zero byte: if it returns a program, that is
    stored behind a new pointer that is not null; if it returns an error, the programs are as
    before and no pointer is stored. *)
Theorem C60_parse : ∀ alloc a l s, allocator alloc → c_text (c_mem s) a l →
  (¬ is_utf8 l → parse_from_string alloc a s = Returns (CInvalidUtf8String, None, s)) ∧
  (is_utf8 l → ∀ d e, driver_new (RByte <$> l) = (d, e) →
    match (generate (c_ids s) d e 0).1.1 with
    | Rok p => ∃ x s', parse_from_string alloc a s = Returns (CSuccess, Some x, s') ∧
        x ≠ 0%N ∧ c_progs s !! x = None ∧ c_progs s' = <[x := p]> (c_progs s) ∧ c_mem s' = c_mem s
    | Rerr _ => ∃ s', parse_from_string alloc a s = Returns (CInvalidKoopaProgram, None, s') ∧
        c_progs s' = c_progs s ∧ c_mem s' = c_mem s
    | Rpanic => parse_from_string alloc a s = Aborts
    | Rfuel => False
    end).
Proof.
  intros alloc a l s Ha Ht. unfold parse_from_string. rewrite (cstr_ok _ _ _ Ht). split.
  - intros Hu. destruct (valid_utf8 _) eqn:E; [|reflexivity]. destruct Hu. apply valid_utf8_exact. exact E.
  - intros Hu d e Hd. rewrite (proj2 (valid_utf8_exact l) Hu). cbn [negb]. rewrite Hd.
    pose proof (proj2 (C23_terminates _ _ _ (c_ids s) e 0%N Hd)) as Hf.
    destruct (generate (c_ids s) d e 0) as [[[p|f| |] n] b]; cbn [fst] in *.
    + destruct (Ha (dom (c_progs s))) as [H1 H2]. eexists _, _. split; [reflexivity|]. split; [exact H2|]. split; [apply not_elem_of_dom; exact H1|]. split; reflexivity.
    + eexists. split; [reflexivity|]. split; reflexivity.
    + reflexivity.
    + destruct Hf. reflexivity.
Qed.
Print Assumptions C60_parse.

(** Deleting the program that was parsed leaves the programs that there were; deleting it twice
    is undefined. *)
Theorem C60_delete : ∀ alloc a s x s', allocator alloc →
  parse_from_string alloc a s = Returns (CSuccess, Some x, s') →
  ∃ s'', delete_program x s' = Returns s'' ∧ c_progs s'' = c_progs s ∧ c_mem s'' = c_mem s ∧ delete_program x s'' = Undefined.
Proof.
  intros alloc a s x s' Ha H. unfold parse_from_string in H. destruct (cstr (c_mem s) a) as [l|]; [|discriminate H].
  destruct (negb _); [discriminate H|]. destruct (driver_new _) as [d e]. destruct (generate _ _ _ _) as [[[p|f| |] n] b]; try discriminate H.
  unfold new_pointer in H. injection H as <- <-. unfold delete_program. cbn [c_progs c_mem c_ids]. rewrite lookup_insert.
  destruct (Ha (dom (c_progs s))) as [H _]. apply not_elem_of_dom in H.
  eexists. split; [reflexivity|]. cbn [c_progs c_mem]. rewrite delete_insert by exact H. split; [reflexivity|]. split; [reflexivity|].
  rewrite H. reflexivity.
Qed.
Print Assumptions C60_delete.

(** A call with a null buffer tells the length of the text. *)
Theorem C60_dump_length : ∀ print x len s p u, c_progs s !! x = Some p → print p = Rok u →
  Ascii.zero ∉ String.list_ascii_of_string u →
  dump_to_string print x 0 len s = Returns (CSuccess, N.of_nat (length (String.list_ascii_of_string u)), s).
Proof.
  intros print x len s p u Hx Hu Hz. unfold dump_to_string. rewrite Hx, Hu. rewrite bool_decide_eq_false_2 by exact Hz.
  cbn [N.eqb]. do 2 f_equal. f_equal. rewrite app_length. simpl. lia.
Qed.
Print Assumptions C60_dump_length.
(** A call with a buffer of [len] bytes writes the text and a zero byte if they fit, otherwise
    nothing; nothing else is written, in particular nothing outside the buffer. *)
Theorem C60_dump : ∀ print x buffer len s p u, c_progs s !! x = Some p → print p = Rok u →
  Ascii.zero ∉ String.list_ascii_of_string u → buffer ≠ 0%N → mapped (c_mem s) buffer len →
  let k := N.of_nat (length (String.list_ascii_of_string u)) in
  ((len ≤ k)%N → dump_to_string print x buffer len s = Returns (CInsufficientBufferLength, len, s)) ∧
  ((k < len)%N → ∃ s', dump_to_string print x buffer len s = Returns (CSuccess, len, s') ∧
     c_text (c_mem s') buffer (String.list_ascii_of_string u) ∧
     (∀ a, (a < buffer ∨ buffer + k + 1 ≤ a)%N → c_mem s' !! a = c_mem s !! a) ∧
     c_progs s' = c_progs s ∧ c_ids s' = c_ids s).
Proof.
  intros print x buffer len s p u Hx Hu Hz Hb Hm k. unfold dump_to_string. rewrite Hx, Hu. rewrite bool_decide_eq_false_2 by exact Hz.
  rewrite (proj2 (N.eqb_neq buffer 0) Hb). rewrite app_length. cbn [length]. subst k. set (n := length (String.list_ascii_of_string u)) in *. split; intros Hk.
  - rewrite (proj2 (N.ltb_lt _ _)) by lia. reflexivity.
  - rewrite (proj2 (N.ltb_ge _ _)) by lia.
    destruct (copy_to_ok (String.list_ascii_of_string u ++ [Ascii.zero]) (c_mem s) buffer) as (m' & E & H1 & H2 & _).
    { intros y Hy. apply Hm. rewrite app_length in Hy. simpl in Hy. lia. }
    rewrite E. eexists. split; [reflexivity|]. split; [split; [exact Hz|exact H1]|]. split; [|split; reflexivity].
    intros y Hy. apply H2. rewrite app_length. simpl. lia.
Qed.
Print Assumptions C60_dump.
(** A text with a zero byte is refused. *)
Theorem C60_dump_zero : ∀ print x buffer len s p u, c_progs s !! x = Some p → print p = Rok u →
  Ascii.zero ∈ String.list_ascii_of_string u →
  dump_to_string print x buffer len s = Returns (CNullByteError, len, s).
Proof. intros print x buffer len s p u Hx Hu Hz. unfold dump_to_string. rewrite Hx, Hu. rewrite bool_decide_eq_true_2 by exact Hz. reflexivity. Qed.
Print Assumptions C60_dump_zero.
(** The length that is told is never enough for the buffer. *)
Theorem C60_told_length : ∀ print x buffer len s p u k s', c_progs s !! x = Some p → print p = Rok u →
  buffer ≠ 0%N → dump_to_string print x 0 len s = Returns (CSuccess, k, s') →
  dump_to_string print x buffer k s' = Returns (CInsufficientBufferLength, k, s').
Proof.
  intros print x buffer len s p u k s' Hx Hu Hb H. unfold dump_to_string in *. rewrite Hx, Hu in H.
  case_bool_decide as Hz; [discriminate H|]. cbn [N.eqb] in H. injection H as <- <-. rewrite Hx, Hu. rewrite bool_decide_eq_false_2 by exact Hz.
  rewrite (proj2 (N.eqb_neq buffer 0) Hb). rewrite app_length. cbn [length]. rewrite (proj2 (N.ltb_lt _ _)) by lia. reflexivity.
Qed.
Print Assumptions C60_told_length.

(** From C to C: a text in memory is parsed, dumped to a buffer of at least the length that is
    told and one more, and what is in the buffer is parsed by another process; that gives a
    program with the same text.  The hypotheses about the text are those of C29. *)
Theorem C60_round_trip : ∀ alloc m a u p n b s ts s',
  allocator alloc → c_text m a u →
  let r := RByte <$> u in
  (∀ c, RByte c ∈ r → is_ascii c) → read_program r = (Rok p, n, b) → driver_new r = (Rok s, 0%N) → parses s ts s' →
  small ts → ordinary_functions p → short_program p →
  ∃ x l1 k, parse_from_string alloc a (Lib m ∅ ids0) = Returns (CSuccess, Some x, l1) ∧
    (∀ len, koopa_dump_to_string x 0 len l1 = Returns (CSuccess, k, l1)) ∧
    ∀ buffer len, buffer ≠ 0%N → mapped m buffer len → (k < len)%N →
      ∃ l2 t, koopa_dump_to_string x buffer len l1 = Returns (CSuccess, len, l2) ∧
        c_text (c_mem l2) buffer t ∧ N.of_nat (length t) = k ∧
        ∃ y l3, parse_from_string alloc buffer (Lib (c_mem l2) ∅ ids0) = Returns (CSuccess, Some y, l3) ∧
          ∃ l4, koopa_dump_to_string y buffer len l3 = Returns (CSuccess, len, l4) ∧ c_text (c_mem l4) buffer t.
Proof.
  intros alloc m a u p n b s ts s' Hal Ht r Ha Hr Hd Hp Hsm Ho Hsh.
  destruct (C29_printed_again r p n b s ts s' Ha Hr Hd Hp Hsm Ho Hsh) as (gs & fs & P1 & (W1 & W2 & _) & p' & b' & R' & P2). clear Hsm Hsh Ho Hp.
  set (t := text_program gs fs) in *. pose proof (plain_program gs fs W1 W2) as Hpl. fold t in Hpl.
  pose proof (plain_no_zero _ Hpl) as Hz.
  assert (Hau : is_utf8 u).
  { apply ascii_utf8, list.Forall_forall. intros c Hc. apply (Ha c). subst r. apply elem_of_list_fmap_1. exact Hc. }
  pose proof (proj2 (C60_parse alloc a u (Lib m ∅ ids0) Hal Ht) Hau _ _ Hd) as HP. cbn [c_ids c_progs c_mem] in HP.
  assert (HG : (generate ids0 (Rok s) 0 0).1.1 = Rok p). { unfold read_program in Hr. rewrite Hd in Hr. rewrite Hr. reflexivity. }
  rewrite HG in HP. destruct HP as (x & l1 & E1 & _ & _ & G1 & M1).
  assert (Hx : c_progs l1 !! x = Some p) by (rewrite G1; apply lookup_insert).
  exists x, l1, (N.of_nat (length (String.list_ascii_of_string t))). split; [exact E1|]. split.
  { intros len. exact (C60_dump_length _ _ _ _ _ _ Hx P1 Hz). }
  intros buffer len Hb Hm Hk. rewrite <- M1 in Hm.
  destruct (proj2 (C60_dump _ _ _ _ _ _ _ Hx P1 Hz Hb Hm) Hk) as (l2 & E2 & T2 & F2 & _).
  exists l2, (String.list_ascii_of_string t). split; [exact E2|]. split; [exact T2|]. split; [reflexivity|].
  assert (Htu : is_utf8 (String.list_ascii_of_string t)).
  { apply ascii_utf8. eapply list.Forall_impl; [exact Hpl|]. intros c Hc. apply (proj2 Hc). }
  destruct (driver_new (RByte <$> String.list_ascii_of_string t)) as [d e] eqn:Ed.
  pose proof (proj2 (C60_parse alloc buffer _ (Lib (c_mem l2) ∅ ids0) Hal T2) Htu _ _ Ed) as HP. cbn [c_ids c_progs c_mem] in HP.
  assert (HG' : (generate ids0 d e 0).1.1 = Rok p'). { unfold read_program in R'. rewrite Ed in R'. rewrite R'. reflexivity. }
  rewrite HG' in HP. destruct HP as (y & l3 & E3 & _ & _ & G3 & M3). exists y, l3. split; [exact E3|].
  assert (Hy : c_progs l3 !! y = Some p') by (rewrite G3; apply lookup_insert).
  assert (Hm3 : mapped (c_mem l3) buffer len).
  { rewrite M3. intros z Hz'. destruct (decide (z < buffer + N.of_nat (length (String.list_ascii_of_string t)) + 1)%N) as [Hlt|Hge].
    - destruct T2 as [_ T2]. destruct (lookup_lt_is_Some_2 (String.list_ascii_of_string t ++ [Ascii.zero]) (N.to_nat (z - buffer))) as [c Hc].
      { rewrite app_length. simpl. lia. }
      specialize (T2 _ _ Hc). exists c. rewrite <- T2. f_equal. lia.
    - rewrite F2 by lia. apply Hm. exact Hz'. }
  destruct (proj2 (C60_dump _ _ _ _ _ _ _ Hy P2 Hz Hb Hm3) Hk) as (l4 & E4 & T4 & _). exists l4. split; [exact E4|exact T4].
Qed.
Print Assumptions C60_round_trip.

(** ** Cases *)
Fixpoint memory_at (a : N) (l : list ascii) : gmap N ascii :=
  match l with [] => ∅ | c :: l => <[a := c]> (memory_at (a + 1) l) end.
Lemma memory_below l : ∀ a x, (x < a)%N → memory_at a l !! x = None.
Proof. induction l as [|c l IH]; intros a x Hx; [apply lookup_empty|]. simpl. rewrite lookup_insert_ne by lia. apply IH. lia. Qed.
Lemma memory_in l : ∀ a, in_memory (memory_at a l) a l.
Proof.
  induction l as [|c l IH]; intros a j x Hj; [rewrite lookup_nil in Hj; discriminate Hj|]. simpl. destruct j as [|j].
  - injection Hj as ->. replace (a + N.of_nat 0)%N with a by lia. apply lookup_insert.
  - rewrite lookup_insert_ne by lia. replace (a + N.of_nat (S j))%N with (a + 1 + N.of_nat j)%N by lia. apply IH. exact Hj.
Qed.
Lemma memory_text a l n : Ascii.zero ∉ l → n ≠ 0 → c_text (memory_at a (l ++ replicate n Ascii.zero)) a l.
Proof.
  intros H Hn. destruct n as [|n]; [destruct Hn; reflexivity|]. split; [exact H|]. intros j c Hj. apply memory_in. replace (replicate (S n) Ascii.zero) with ([Ascii.zero] ++ replicate n Ascii.zero) by reflexivity.
  rewrite app_assoc. apply lookup_app_l_Some. exact Hj.
Qed.
Lemma memory_buffer a l n : mapped (memory_at a (l ++ replicate n Ascii.zero)) (a + N.of_nat (length l)) (N.of_nat n).
Proof.
  intros x Hx. assert (E : (l ++ replicate n Ascii.zero) !! (N.to_nat (x - a)) = Some Ascii.zero).
  { rewrite lookup_app_r by lia. apply lookup_replicate_2. lia. }
  apply memory_in with (a := a) in E. exists Ascii.zero. rewrite <- E. f_equal. lia.
Qed.
Definition next_free (s : gset N) : N := fresh (s ∪ {[0%N]}).
Lemma next_free_allocates : allocator next_free.
Proof. intros s. unfold next_free. pose proof (is_fresh (s ∪ {[0%N]})) as H. apply not_elem_of_union in H as [H1 H2]. rewrite not_elem_of_singleton in H2. split; assumption. Qed.
Lemma no_zero_check t : forallb (λ c, negb (Ascii.eqb c Ascii.zero)) t = true → Ascii.zero ∉ t.
Proof. rewrite forallb_forall. intros H Hz. apply elem_of_list_In, H in Hz. rewrite Ascii.eqb_refl in Hz. discriminate Hz. Qed.

(** Two bytes of a letter with an accent, the three bytes of a sign, and those that would be of
    a surrogate. *)
Example C60_utf8_example : is_utf8 (Ascii.ascii_of_N <$> [195; 169; 226; 130; 172]%N) ∧
  ¬ is_utf8 (Ascii.ascii_of_N <$> [237; 160; 128]%N) ∧ ¬ is_utf8 (Ascii.ascii_of_N <$> [192; 128]%N).
Proof.
  split; [apply valid_utf8_exact; vm_compute; reflexivity|].
  split; intros H; apply valid_utf8_exact in H; revert H; vm_compute; discriminate.
Qed.
Lemma read_inner r p n b s : read_program r = (Rok p, n, b) → driver_new r = (Rok s, 0%N) → (generate ids0 (Rok s) 0 0).1.1 = Rok p.
Proof. intros Hr Hd. unfold read_program in Hr. rewrite Hd in Hr. rewrite Hr. reflexivity. Qed.
(** The text of C29 in memory, with a buffer behind it. *)
Notation again_list := (String.list_ascii_of_string again_text).
Notation again_memory := (memory_at 4096 (again_list ++ replicate 1000 Ascii.zero)).
Example C60_parse_example : allocator next_free ∧ c_text again_memory 4096 again_list ∧ is_utf8 again_list ∧
  ∃ d e p, driver_new (RByte <$> again_list) = (d, e) ∧ (generate ids0 d e 0).1.1 = Rok p.
Proof.
  split; [exact next_free_allocates|]. split; [apply memory_text; [apply no_zero_check; vm_compute; reflexivity|discriminate]|].
  split; [apply valid_utf8_exact; vm_compute; reflexivity|].
  destruct C29_again_example as (p & n & b & s & ts & s' & _ & Hr & Hd & _). exists (Rok s), 0%N, p. split; [exact Hd|].
  exact (read_inner _ _ _ _ _ Hr Hd).
Qed.
Example C60_dump_example : ∃ x p s,
  c_progs s !! x = Some p ∧ print_program p = Rok again_printed ∧ Ascii.zero ∉ String.list_ascii_of_string again_printed ∧
  mapped (c_mem s) (4096 + N.of_nat (length again_list)) 1000 ∧ (4096 + N.of_nat (length again_list) ≠ 0)%N ∧
  (N.of_nat (length (String.list_ascii_of_string again_printed)) < 1000)%N.
Proof.
  destruct (prints_ok _ _ (proj1 C29_again_text)) as (p & n & b & _ & Hp).
  exists 8%N, p, (Lib again_memory {[8%N := p]} ids0). split; [apply lookup_singleton|]. split; [exact Hp|].
  split; [apply no_zero_check; vm_compute; reflexivity|]. split; [exact (memory_buffer 4096 again_list 1000)|].
  split; [lia|]. vm_compute. reflexivity.
Qed.
Example C60_round_trip_example : ∃ p n b s ts s', let r := RByte <$> again_list in
  allocator next_free ∧ c_text again_memory 4096 again_list ∧
  (∀ c, RByte c ∈ r → is_ascii c) ∧ read_program r = (Rok p, n, b) ∧ driver_new r = (Rok s, 0%N) ∧ parses s ts s' ∧
  small ts ∧ ordinary_functions p ∧ short_program p ∧ mapped again_memory (4096 + N.of_nat (length again_list)) 1000.
Proof.
  destruct C29_again_example as (p & n & b & s & ts & s' & H1 & H2 & H3 & H4 & H5 & H6 & H7).
  exists p, n, b, s, ts, s'. split; [exact next_free_allocates|]. split; [exact (proj1 (proj2 C60_parse_example))|].
  split; [exact H1|]. split; [exact H2|]. split; [exact H3|]. split; [exact H4|]. split; [exact H5|]. split; [exact H6|]. split; [exact H7|].
  exact (memory_buffer 4096 again_list 1000).
Qed.

(** ** C61: raw programs *)
(** The counters that reading a text leaves are such that more can be read. *)
Lemma read_counting r p n b s ts s' :
  read_program r = (Rok p, n, b) → driver_new r = (Rok s, 0%N) → parses s ts s' →
  (foldr (λ t n, globals_in t + n) 0 ts < local_value_id_starts_from)%N → counting (w_ids (b_world b)).
Proof.
  intros Hr Hd Hp Hg. unfold read_program in Hr. rewrite Hd in Hr.
  destruct (generate_ok _ _ _ _ _ _ _ _ _ Hd Hr) as (_ & _ & s1 & ts' & s2 & E & Hp' & _ & _ & _ & Hb & _ & _).
  injection E as <-. assert (ts' = ts) as -> by (eapply parses_det; eassumption).
  destruct (builds_evolves _ _ _ Hb) as (os & F & R & G).
  assert (E : er (b_world (bstate0 ids0 0 0)) = world0) by (unfold er, er_prog; simpl; rewrite fmap_empty; reflexivity).
  rewrite E in R. destruct (reach_winv os _ R (fe_tidy _ F _)) as (F' & HW & _); [lia|].
  destruct HW. constructor; [apply wi_gv|exact wi_lv|exact wi_nb|exact wi_nf].
Qed.
(** A text in memory is parsed, the program gets its raw form from a new builder, and a program
    is made from that in the same process: this is the program of the text up to identifiers,
    and the first program stays as it is.  The hypotheses are those of C59, for the counters
    that the parser leaves. *)
Theorem C61_raw_and_back : ∀ alloc m a u p e b ord n,
  let r := RByte <$> u in let i := w_ids (b_world b) in
  allocator alloc → c_text m a u →
  returned r p → read_program r = (Rok p, e, b) → (∀ c, RByte c ∈ r → is_ascii c) →
  (∀ f fd, p_funcs p !! f = Some fd → dominated fd) → lists_sets ord →
  (next_gv i + N.of_nat (base.size (p_values p)) ≤ local_value_id_starts_from)%N →
  numbers_left (N.of_nat (parts p)) i → parts p < n →
  ∃ x l1 raw h y l2 p' bs, parse_from_string alloc a (Lib m ∅ ids0) = Returns (CSuccess, Some x, l1) ∧
    build_raw_program ord n heap0 x l1 = Returns (raw, h) ∧
    generate_raw_to_koopa alloc n raw h l1 = Returns (CSuccess, Some y, l2) ∧
    x ≠ y ∧ c_progs l2 = <[y := p']> {[x := p]} ∧ c_mem l2 = m ∧
    isomorphic_as (p_inst_layout p) (p_func_layout p) bs p p' ∧
    ∀ f, f ∈ p_func_layout p → bs f ≡ₚ listed_blocks p f.
Proof.
  intros alloc m a u p e b ord n r i Hal Ht Hret Hr Ha HD Ho Hg Hl Hn.
  assert (C : counting i).
  { destruct Hret as (n' & b' & s & ts & s' & R1 & R2 & R3 & R4). subst i. rewrite R1 in Hr. injection Hr as _ <-. exact (read_counting _ _ _ _ _ _ _ R1 R2 R3 R4). }
  destruct (C59_raw_and_back r p ord i n Hret Ha HD Ho C Hg Hl Hn) as (raw & h & p' & i' & bs & B1 & B2 & HI & HB). clear Hg Hl.
  assert (Hau : valid_utf8 (Ascii.N_of_ascii <$> u) = true).
  { apply valid_utf8_exact, ascii_utf8, list.Forall_forall. intros c Hc. apply (Ha c). subst r. apply elem_of_list_fmap_1. exact Hc. }
  set (x := alloc ∅). set (l1 := Lib m {[x := p]} i). set (y := alloc {[x]}).
  exists x, l1, raw, h, y, (Lib m (<[y := p']> {[x := p]}) i'), p', bs.
  split.
  { unfold parse_from_string. cbn [c_mem c_ids]. rewrite (cstr_ok _ _ _ Ht), Hau. cbn [negb]. unfold read_program in Hr. fold r.
    destruct (driver_new r) as [d e0]. rewrite Hr. unfold new_pointer. cbn [c_progs c_mem]. rewrite dom_empty_L. reflexivity. }
  split.
  { unfold build_raw_program. cbn [c_progs l1]. rewrite lookup_singleton, build_with_new, B1. reflexivity. }
  split.
  { unfold generate_raw_to_koopa. cbn [c_ids l1]. rewrite B2. unfold new_pointer. cbn [c_progs c_mem l1]. rewrite dom_singleton_L. reflexivity. }
  split.
  { destruct (Hal {[x]}) as [H _]. fold y in H. intros E. apply H. rewrite E. apply elem_of_singleton. reflexivity. }
  split; [reflexivity|]. split; [reflexivity|]. split; [exact HI|exact HB].
Qed.
Print Assumptions C61_raw_and_back.
(** A builder whose tables hold a value cannot be used again: no further call returns. *)
Theorem C61_builder_once : ∀ ord n h v x s r, is_Some (h_vals h !! v) →
  build_raw_program ord n h x s ≠ Returns r.
Proof.
  intros ord n h v x s r Hv H. unfold build_raw_program in H. destruct (c_progs s !! x) as [p|]; [|discriminate H].
  destruct (build_with ord n h p) as [r'| | |] eqn:E; try discriminate H. exact (build_with_once _ _ _ _ _ _ Hv E).
Qed.
Print Assumptions C61_builder_once.
(** The same program is built, and then once more with the same builder: the second call
    aborts. *)
Definition twice_b (p : program) : bool :=
  match build_with sorted_ord 60 heap0 p with
  | Done (_, h) => match build_with sorted_ord 60 h p with Panics => negb (bool_decide (map_to_list (h_vals h) = [])) | _ => false end
  | _ => false
  end.
Theorem C61_same_builder_refuted : ∃ p r h v,
  returned (RByte <$> String.list_ascii_of_string raw_text) p ∧
  let s := Lib ∅ {[8%N := p]} ids0 in
  build_raw_program sorted_ord 60 heap0 8 s = Returns (r, h) ∧ is_Some (h_vals h !! v) ∧
  build_raw_program sorted_ord 60 h 8 s = Aborts.
Proof.
  destruct (returned_check raw_text) as [p Hr]; [vm_compute; reflexivity..|].
  pose proof (program_of_ok _ _ _ eq_refl Hr) as E.
  assert (H : twice_b p = true) by (rewrite E; vm_compute; reflexivity). clear E. unfold twice_b in H.
  destruct (build_with sorted_ord 60 heap0 p) as [[r h]| | |] eqn:E1; try discriminate H.
  destruct (build_with sorted_ord 60 h p) as [| | |] eqn:E2; try discriminate H.
  apply negb_true_iff, bool_decide_eq_false_1 in H. destruct (map_to_list (h_vals h)) as [|[v o] l] eqn:El; [destruct H; reflexivity|].
  exists p, r, h, v. split; [exact Hr|]. cbv zeta. unfold build_raw_program. cbn [c_progs]. rewrite lookup_singleton, E1, E2. split; [reflexivity|].
  split; [|reflexivity]. exists o. apply elem_of_map_to_list. rewrite El. apply elem_of_list_here.
Qed.
Print Assumptions C61_same_builder_refuted.
Definition ids_b (r : list revent) : bool :=
  match read_program r with
  | (Rok p, _, b) => let i := w_ids (b_world b) in
      (next_gv i + N.of_nat (base.size (p_values p)) <=? local_value_id_starts_from)%N && Nat.ltb (parts p) 60 &&
      dominated_all p && (0 <? next_lv i)%N && (next_lv i + 60 <? two32)%N && (0 <? next_bb i)%N && (next_bb i + 60 <? two32)%N &&
      (0 <? next_fn i)%N && (next_fn i + 60 <? two32)%N
  | _ => false
  end.
Lemma ids_b_ok r p n b : ids_b r = true → read_program r = (Rok p, n, b) →
  let i := w_ids (b_world b) in
  (next_gv i + N.of_nat (base.size (p_values p)) ≤ local_value_id_starts_from)%N ∧
  numbers_left (N.of_nat (parts p)) i ∧ parts p < 60 ∧ ∀ f fd, p_funcs p !! f = Some fd → dominated fd.
Proof.
  intros H R1. unfold ids_b in H. rewrite R1 in H. cbv zeta in *. clear R1.
  repeat match type of H with (_ && _ = true) => apply andb_true_iff in H; let H' := fresh "K" in destruct H as [H H'] end.
  apply N.leb_le in H. apply N.ltb_lt in K, K0, K1, K2, K3, K4. apply Nat.ltb_lt in K6. split; [exact H|]. clear H.
  split; [unfold numbers_left; repeat split; lia|]. split; [exact K6|exact (dominated_all_ok _ K5)].
Qed.
Example C61_example : ∃ m u p e b, let r := RByte <$> u in let i := w_ids (b_world b) in
  allocator next_free ∧ c_text m 4096 u ∧ returned r p ∧ read_program r = (Rok p, e, b) ∧ (∀ c, RByte c ∈ r → is_ascii c) ∧
  (∀ f fd, p_funcs p !! f = Some fd → dominated fd) ∧ lists_sets sorted_ord ∧
  (next_gv i + N.of_nat (base.size (p_values p)) ≤ local_value_id_starts_from)%N ∧
  numbers_left (N.of_nat (parts p)) i ∧ parts p < 60.
Proof.
  destruct (returned_check raw_text) as [p Hr]; [vm_compute; reflexivity..|].
  assert (H : ids_b (RByte <$> String.list_ascii_of_string raw_text) = true) by (vm_compute; reflexivity).
  pose proof Hr as (n & b & s & ts & s' & R1 & _). destruct (ids_b_ok _ _ _ _ H R1) as (K1 & K2 & K3 & K4). clear H.
  exists (memory_at 4096 (String.list_ascii_of_string raw_text ++ replicate 1 Ascii.zero)), (String.list_ascii_of_string raw_text), p, n, b.
  split; [exact next_free_allocates|]. split; [apply memory_text; [apply no_zero_check; vm_compute; reflexivity|discriminate]|].
  split; [exact Hr|]. split; [exact R1|]. split; [apply ascii_check; vm_compute; reflexivity|]. split; [exact K4|].
  split; [exact sorted_lists|]. split; [exact K1|]. split; [exact K2|exact K3].
Qed.
