(** What the program built from a text must be (C48): the same globals, functions, blocks,
    instructions and operands, in the same order.  Nothing here mentions the functions of the
    front end. *)
From Verif Require Import Base IdModel TypeModel IrModel LayoutModel ParserModel FlowSpec DfgSpec.

(** ** Types *)
Inductive denotes : aty → ty → Prop :=
  | dn_int : denotes AInt TInt32
  | dn_arr a n t : denotes a t → denotes (AArr a n) (TArray t n)
  | dn_ptr a t : denotes a t → denotes (APtr a) (TPtr t)
  | dn_proc ps ts : Forall2 denotes ps ts → denotes (AFun ps None) (TFun ts TUnit)
  | dn_fun ps ts r t : Forall2 denotes ps ts → denotes r t → denotes (AFun ps (Some r)) (TFun ts t).
Definition denotes_ret (r : option aty) (t : ty) : Prop :=
  match r with None => t = TUnit | Some a => denotes a t end.

(** ** Names *)
(** Names of digits and [%] are not kept; names with some other ASCII character are. *)
Definition percent_or_digit (c : ascii) : Prop :=
  c = "%"%char ∨ (48 ≤ N_of_ascii c ≤ 57)%N.
Definition temporary (n : string) : Prop :=
  Forall percent_or_digit (String.list_ascii_of_string n).
Definition ordinary (n : string) : Prop :=
  ∃ c, c ∈ String.list_ascii_of_string n ∧ (N_of_ascii c < 128)%N ∧ ¬ percent_or_digit c.
Definition kept_name (n : string) (o : option string) : Prop :=
  (temporary n → o = None) ∧ (ordinary n → o = Some n).

(** ** Values *)
(** Type and kind of the values [m] *)
Definition datas (m : gmap N vdata) : gmap N (ty * vkind) := (λ d, (v_ty d, v_kind d)) <$> m.

(** The value [v] is the constant [i]. *)
Inductive const_is (D : gmap N (ty * vkind)) : value → ainit → Prop :=
  | ci_int v t z : D !! v = Some (t, KInteger z) → const_is D v (IInt z)
  | ci_undef v t : D !! v = Some (t, KUndef) → const_is D v IUndef
  | ci_zero v t : D !! v = Some (t, KZeroInit) → const_is D v IZero
  | ci_aggr v t vs l : D !! v = Some (t, KAggregate vs) → Forall2 (const_is D) vs l →
      const_is D v (IAggr l).

(** In a program whose global variables and functions have the names [G], [Fn], and in a
    function whose values and blocks have the names [L], [B], and whose values are [D]: *)
Section names.
Context (G Fn L B : gmap N string) (D : gmap N (ty * vkind)).

Definition is_called (v : value) (n : string) : Prop :=
  if is_global_id v then G !! v = Some n else L !! v = Some n.
Definition is_val (v : value) (a : aval) : Prop :=
  match a with
  | VSym n => is_called v n
  | VInt z => const_is D v (IInt z)
  | VUndef => const_is D v IUndef
  end.
Definition is_stored (v : value) (a : astore) : Prop :=
  match a with SvSym n => is_called v n | SvInit i => const_is D v i end.
(** Surplus arguments are ignored. *)
Definition is_args (vs : list value) (args : list aval) : Prop :=
  ∃ l rest, args = l ++ rest ∧ Forall2 is_val vs l.
Definition is_expr (t : ty) (k : vkind) (e : aexpr) : Prop :=
  match e with
  | EMemDecl a => k = KAlloc ∧ ∃ b, t = TPtr b ∧ denotes a b
  | ELoad x => ∃ v, k = KLoad v ∧ is_called v x
  | EGetPtr x i => ∃ v w, k = KGetPtr v w ∧ is_called v x ∧ is_val w i
  | EGetElemPtr x i => ∃ v w, k = KGetElemPtr v w ∧ is_called v x ∧ is_val w i
  | EBin op l r => ∃ v w, k = KBinary op v w ∧ is_val v l ∧ is_val w r
  | ECall f args => ∃ c vs, k = KCall c vs ∧ Fn !! c = Some f ∧ is_args vs args
  end.
Definition is_stmt (v : value) (st : astmt) : Prop :=
  ∃ t k, D !! v = Some (t, k) ∧
  match st with
  | SDef n e => L !! v = Some n ∧ t ≠ TUnit ∧ is_expr t k e
  | SStore x d => ∃ a b, k = KStore a b ∧ is_stored a x ∧ is_called b d
  | SCall f args => ∃ c vs, k = KCall c vs ∧ Fn !! c = Some f ∧ is_args vs args
  | SBr c t ta e ea => ∃ v b1 b2 vs1 vs2, k = KBranch v b1 b2 vs1 vs2 ∧ is_val v c ∧
      B !! b1 = Some t ∧ is_args vs1 ta ∧ B !! b2 = Some e ∧ is_args vs2 ea
  | SJump t args => ∃ b vs, k = KJump b vs ∧ B !! b = Some t ∧ is_args vs args
  | SRet None => k = KReturn None
  | SRet (Some a) => ∃ v, k = KReturn (Some v) ∧ is_val v a
  | SErr => False
  end.
(** [arg]: arguments of functions or of blocks *)
Definition is_param (arg : N → vkind) (v : value) (p : string * aty) : Prop :=
  L !! v = Some p.1 ∧ ∃ t i, D !! v = Some (t, arg i) ∧ denotes p.2 t.
(** [P]: the parameters of the blocks *)
Definition is_block (P : gmap N (list value)) (x : bblock * list value) (b : ablock) : Prop :=
  B !! x.1 = Some (b_name b) ∧
  (∃ ps, P !! x.1 = Some ps ∧ Forall2 (is_param KBlockArg) ps (b_params b)) ∧
  Forall2 is_stmt x.2 (b_stmts b).
End names.

(** ** Functions *)
(** The names that the blocks [bbs] of a function with parameters [ps] define *)
Definition fun_names (ps : list (string * aty)) (bbs : list ablock) : list string :=
  map fst ps ++ concat (map param_names bbs) ++ concat (map body_names bbs).
(** [L], [B] are names of values and blocks of the function [fd]; only values that are not
    constants have names.  A value that the text does not name has no name. *)
Record names_of (fd : fdata) (L B : gmap N string) : Prop := {
  no_val : ∀ v n, L !! v = Some n → is_global_id v = false ∧ ∃ d, vals fd !! v = Some d ∧
    kept_name n (v_name d) ∧ is_const (v_kind d) = false ∧ is_global_alloc (v_kind d) = false;
  no_unnamed : ∀ v d, vals fd !! v = Some d → L !! v = None → v_name d = None;
  no_blk : ∀ b n, B !! b = Some n → ∃ d, blks fd !! b = Some d ∧ kept_name n (bb_name d);
}.
(** Different values have different names, if the names of the text are different. *)
Definition distinct (ns : list string) (L : gmap N string) : Prop :=
  (∀ v n, L !! v = Some n → n ∈ ns) ∧
  (NoDup ns → ∀ v w n, L !! v = Some n → L !! w = Some n → v = w).

(** The targets of the end of a block, in the order of the text *)
Definition ends_to (b : ablock) : list string :=
  match list.last (b_stmts b) with
  | Some (SBr _ t _ f _) => [t; f]
  | Some (SJump t _) => [t]
  | _ => []
  end.
(** The first occurrences in [l] of the names that are not in [seen] *)
Fixpoint firsts (seen : list string) (l : list string) : list string :=
  match l with
  | [] => []
  | n :: l' => if decide (n ∈ seen) then firsts seen l' else n :: firsts (n :: seen) l'
  end.
(** [l] are the blocks of [bbs] that can be reached from the first one, in the order in which
    the first block and then the ends of the blocks of [l] mention them. *)
Definition in_order (bbs l : list ablock) : Prop :=
  ∃ entry, head bbs = Some entry ∧ (∀ b, b ∈ l ↔ b ∈ bbs ∧ reachable bbs entry b) ∧
    map b_name l = firsts [] (b_name entry :: concat (map ends_to l)).

Definition fun_is (G Fn : gmap N string) (fd : fdata) (t : atop) : Prop :=
  match t with
  | TFunDecl n ps r => f_name fd = n ∧ blks fd = ∅ ∧ vals fd = ∅ ∧
      ∃ ts t, f_ty fd = TFun ts t ∧ Forall2 denotes ps ts ∧ denotes_ret r t
  | TFunDef n ps r bbs => f_name fd = n ∧ blks fd ≠ ∅ ∧
      (∃ ts t, f_ty fd = TFun ts t ∧ Forall2 denotes (map snd ps) ts ∧ denotes_ret r t) ∧
      ∃ L B l, names_of fd L B ∧ in_order bbs l ∧ NoDup (map b_name l) ∧
        distinct (fun_names ps l) L ∧ distinct (map b_name l) B ∧
        Forall2 (is_param L (datas (vals fd)) KFuncArg) (f_params fd) ps ∧
        Forall2 (is_block G Fn L B (datas (vals fd)) (bb_params <$> blks fd))
          (l_bbs (f_layout fd)) l
  | _ => False
  end.

(** ** Programs *)
(** An aggregate is written where an array is expected. *)
Fixpoint init_fits (t : aty) (i : ainit) {struct i} : Prop :=
  match i with
  | IAggr l =>
      match t with
      | AArr b _ => (fix all l := match l with [] => True | x :: l' => init_fits b x ∧ all l' end) l
      | _ => False
      end
  | _ => True
  end.
Definition global_is (G : gmap N string) (m : gmap N vdata) (v : value) (t : atop) : Prop :=
  match t with
  | TGlobal n t i => G !! v = Some n ∧ ∃ d init e,
      m !! v = Some d ∧ v_kind d = KGlobalAlloc init ∧ kept_name n (v_name d) ∧
      m !! init = Some e ∧ const_is (datas m) init i ∧ (init_fits t i → denotes t (v_ty e)) ∧
      ∃ a, denotes a (v_ty e) ∧ init_fits a i
  | _ => False
  end.
Definition is_global_def (t : atop) : bool := match t with TGlobal _ _ _ => true | _ => false end.
Definition is_fun_top (t : atop) : bool :=
  match t with TFunDef _ _ _ _ | TFunDecl _ _ _ => true | _ => false end.
(** The program [p] is the text [ts]. *)
Definition faithful (p : program) (ts : list atop) : Prop :=
  ∃ G Fn : gmap N string,
    Forall2 (global_is G (p_values p)) (p_inst_layout p) (filter is_global_def ts) ∧
    Forall2 (λ f t, ∃ fd, p_funcs p !! f = Some fd ∧ Fn !! f = Some (f_name fd) ∧ fun_is G Fn fd t)
      (p_func_layout p) (filter is_fun_top ts) ∧
    (∀ v n, G !! v = Some n → is_global_id v = true ∧ v ∈ p_inst_layout p) ∧
    (∀ f n, Fn !! f = Some n → f ∈ p_func_layout p) ∧
    (∀ v w n, G !! v = Some n → G !! w = Some n → v = w) ∧
    (∀ f g n, Fn !! f = Some n → Fn !! g = Some n → f = g).
