(** What LLVM text for a program is (C37, C38, C46): the syntax of the LLVM instructions,
    given the names of functions, values and blocks. *)
From Verif Require Import Base IdModel TypeModel IrModel LayoutModel DfgSpec UsesSpec LayoutSpec.

(** The names used in a function *)
Record naming := Naming {
  nv_fun : gmap func string;
  nv_global : gmap value string;
  nv_local : gmap value string;
  nv_block : gmap bblock string;
}.

Definition nl : string := String "010"%char EmptyString.
Definition lines (l : list string) : string :=
  foldr String.append EmptyString (map (λ s, "  " ++ s ++ nl)%string l).
(** Texts with an empty line between them *)
Fixpoint blank_between (l : list string) : string :=
  match l with
  | [] => ""
  | [s] => s
  | s :: l' => s ++ nl ++ blank_between l'
  end%string.
Definition unlines (l : list string) : string := foldr String.append EmptyString l.

(** Types *)
Inductive lty : ty → string → Prop :=
  | lty_int : lty TInt32 "i32"
  | lty_unit : lty TUnit "void"
  | lty_array b n s : lty b s → lty (TArray b n) ("[" ++ show_N n ++ " x " ++ s ++ "]")
  | lty_ptr b s : lty b s → lty (TPtr b) (s ++ "*")
  | lty_fun ps r ss s : Forall2 lty ps ss → lty r s →
      lty (TFun ps r) (s ++ " (" ++ sep_comma ss ++ ")*").
(** [s] is [n], preceded by the type [t] if [typed]. *)
Definition typed_as (typed : bool) (t : ty) (n s : string) : Prop :=
  if typed then ∃ l, lty t l ∧ s = (l ++ " " ++ n)%string else s = n.

(** Constants; the elements of an aggregate are among the values [m]. *)
Inductive lconst (m : gmap N vdata) (typed : bool) : vdata → string → Prop :=
  | lc_int d z s : v_kind d = KInteger z → typed_as typed (v_ty d) (show_Z z) s →
      lconst m typed d s
  | lc_zero d s : v_kind d = KZeroInit → typed_as typed (v_ty d) "zeroinitializer" s →
      lconst m typed d s
  | lc_undef d s : v_kind d = KUndef → typed_as typed (v_ty d) "undef" s → lconst m typed d s
  | lc_aggregate d es ss s : v_kind d = KAggregate es →
      Forall2 (λ v x, ∃ e, m !! v = Some e ∧ lconst m typed e x) es ss →
      typed_as typed (v_ty d) ("[" ++ sep_comma ss ++ "]") s → lconst m typed d s.

(** The name of a value *)
Definition value_called (ν : naming) (v : value) (d : vdata) (n : string) : Prop :=
  is_const (v_kind d) = false ∧
  if is_global_alloc (v_kind d) then nv_global ν !! v = Some n else nv_local ν !! v = Some n.

(** Operands: constants are written out, other values by their names. *)
Inductive operand (ν : naming) (p : program) (fd : fdata) (typed : bool) (v : value) (s : string)
    : Prop :=
  | o_global d n : is_global_id v = true → p_values p !! v = Some d → value_called ν v d n →
      typed_as typed (v_ty d) n s → operand ν p fd typed v s
  | o_local d n : is_global_id v = false → vals fd !! v = Some d → value_called ν v d n →
      typed_as typed (v_ty d) n s → operand ν p fd typed v s
  | o_const d : is_global_id v = false → vals fd !! v = Some d → is_const (v_kind d) = true →
      lconst (vals fd) typed d s → operand ν p fd typed v s.
(** [v] is a pointer to a [t]. *)
Definition points_to (p : program) (fd : fdata) (v : value) (t : ty) : Prop :=
  ∃ d, (if is_global_id v then p_values p else vals fd) !! v = Some d ∧ v_ty d = TPtr t.

(** The words of LLVM for the binary operators; comparisons yield one bit. *)
Definition compares (o : binop) : option string :=
  match o with
  | NotEq => Some "icmp ne" | Eq_ => Some "icmp eq" | Gt_ => Some "icmp sgt"
  | Lt_ => Some "icmp slt" | Ge_ => Some "icmp sge" | Le_ => Some "icmp sle"
  | _ => None
  end.
Definition computes (o : binop) : option string :=
  match o with
  | Add => Some "add" | Sub => Some "sub" | Mul => Some "mul" | Div => Some "sdiv"
  | Mod_ => Some "srem" | And => Some "and" | Or => Some "or" | Xor => Some "xor"
  | Shl => Some "shl" | Shr => Some "lshr" | Sar => Some "ashr"
  | _ => None
  end.

(** The name that an instruction defines, if it has a result *)
Definition defines (ν : naming) (v : value) (d : vdata) (s : string) : Prop :=
  if is_unit (v_ty d) then s = "" else ∃ n, value_called ν v d n ∧ s = (n ++ " = ")%string.

(** The lines of an instruction, and the temporary names in them *)
Inductive inst_lines (ν : naming) (p : program) (fd : fdata) (v : value) (d : vdata)
    : list string → list string → Prop :=
  | il_alloc x t l : v_kind d = KAlloc → v_ty d = TPtr t → defines ν v d x → lty t l →
      inst_lines ν p fd v d [] [x ++ "alloca " ++ l]%string
  | il_load x src l a : v_kind d = KLoad src → defines ν v d x → lty (v_ty d) l →
      operand ν p fd true src a →
      inst_lines ν p fd v d [] [x ++ "load " ++ l ++ ", " ++ a]%string
  | il_store x src dest a b : v_kind d = KStore src dest → defines ν v d x →
      operand ν p fd true src a → operand ν p fd true dest b →
      inst_lines ν p fd v d [] [x ++ "store " ++ a ++ ", " ++ b]%string
  | il_getptr x src idx t l a b : v_kind d = KGetPtr src idx → defines ν v d x →
      points_to p fd src t → lty t l →
      operand ν p fd true src a → operand ν p fd true idx b →
      inst_lines ν p fd v d []
        [x ++ "getelementptr inbounds " ++ l ++ ", " ++ a ++ ", " ++ b]%string
  | il_getelemptr x src idx t l a b : v_kind d = KGetElemPtr src idx → defines ν v d x →
      points_to p fd src t → lty t l →
      operand ν p fd true src a → operand ν p fd true idx b →
      inst_lines ν p fd v d []
        [x ++ "getelementptr inbounds " ++ l ++ ", " ++ a ++ ", i32 0, " ++ b]%string
  | il_compute op w l r n a b : v_kind d = KBinary op l r → computes op = Some w →
      value_called ν v d n → operand ν p fd false l a → operand ν p fd false r b →
      inst_lines ν p fd v d [] [n ++ " = " ++ w ++ " i32 " ++ a ++ ", " ++ b]%string
  | il_compare op w l r n t a b : v_kind d = KBinary op l r → compares op = Some w →
      value_called ν v d n → operand ν p fd false l a → operand ν p fd false r b →
      inst_lines ν p fd v d [t]
        [t ++ " = " ++ w ++ " i32 " ++ a ++ ", " ++ b; n ++ " = zext i1 " ++ t ++ " to i32"]%string
  | il_branch x c b1 b2 as1 as2 t a n1 n2 : v_kind d = KBranch c b1 b2 as1 as2 → defines ν v d x →
      operand ν p fd false c a → nv_block ν !! b1 = Some n1 → nv_block ν !! b2 = Some n2 →
      inst_lines ν p fd v d [t]
        [x ++ t ++ " = icmp ne i32 " ++ a ++ ", 0";
         "br i1 " ++ t ++ ", label " ++ n1 ++ ", label " ++ n2]%string
  | il_jump x b args n : v_kind d = KJump b args → defines ν v d x →
      nv_block ν !! b = Some n →
      inst_lines ν p fd v d [] [x ++ "br label " ++ n]%string
  | il_call x f args n l ss : v_kind d = KCall f args → defines ν v d x →
      nv_fun ν !! f = Some n → lty (v_ty d) l → Forall2 (operand ν p fd true) args ss →
      inst_lines ν p fd v d []
        [x ++ "call " ++ l ++ " " ++ n ++ "(" ++ sep_comma ss ++ ")"]%string
  | il_ret_void x : v_kind d = KReturn None → defines ν v d x →
      inst_lines ν p fd v d [] [x ++ "ret void"]%string
  | il_ret x r a : v_kind d = KReturn (Some r) → defines ν v d x → operand ν p fd true r a →
      inst_lines ν p fd v d [] [x ++ "ret " ++ a]%string.

(** An instruction passes the value [v] for parameter number [i] of block [b]. *)
Inductive passes : vkind → bblock → nat → value → Prop :=
  | pass_jump b args i v : args !! i = Some v → passes (KJump b args) b i v
  | pass_true c b b2 as1 as2 i v : as1 !! i = Some v → passes (KBranch c b b2 as1 as2) b i v
  | pass_false c b1 b as1 as2 i v : as2 !! i = Some v → passes (KBranch c b1 b as1 as2) b i v.
(** The incoming entry of a phi for the jump or branch [u]: what [u] passes (on whichever
    edge to the block), from the block of [u]. *)
Definition incoming (ν : naming) (p : program) (fd : fdata) (b : bblock) (i : nat)
    (u : value) (s : string) : Prop :=
  ∃ d v a from n, vals fd !! u = Some d ∧ passes (v_kind d) b i v ∧
    (∀ v', passes (v_kind d) b i v' → v' = v) ∧ operand ν p fd false v a ∧
    in_block (f_layout fd) u from ∧ nv_block ν !! from = Some n ∧ s = ("[" ++ a ++ ", " ++ n ++ "]")%string.
(** The phi of parameter number [i]: one entry for each jump or branch to the block. *)
Definition phi_line (ν : naming) (p : program) (fd : fdata) (b : bblock) (i : nat) (param : value)
    (s : string) : Prop :=
  ∃ d n l us es, vals fd !! param = Some d ∧ value_called ν param d n ∧ lty (v_ty d) l ∧
    NoDup us ∧ (∀ u, u ∈ us ↔ jumps_to (vals fd) u b) ∧
    Forall2 (incoming ν p fd b i) us es ∧ s = (n ++ " = phi " ++ l ++ " " ++ sep_comma es)%string.

(** A block: its label, the phis, the instructions *)
Definition block_text (ν : naming) (p : program) (fd : fdata) (x : bblock * list value)
    (ts : list string) (s : string) : Prop :=
  ∃ bd label phis tss body, blks fd !! x.1 = Some bd ∧
    (∃ c, nv_block ν !! x.1 = Some (String c label)) ∧
    length phis = length (bb_params bd) ∧
    (∀ (i : nat) q, bb_params bd !! i = Some q → ∃ l, phis !! i = Some l ∧ phi_line ν p fd x.1 i q l) ∧
    Forall2 (λ v (y : list string * list string),
      ∃ d, vals fd !! v = Some d ∧ inst_lines ν p fd v d y.1 y.2) x.2 (zip tss body) ∧
    length tss = length body ∧
    ts = concat tss ∧ s = (label ++ ":" ++ nl ++ lines (phis ++ concat body))%string.

(** A function with the temporary names in it; a function without blocks is declared. *)
Definition fun_text (ν : naming) (p : program) (f : func) (ts : list string) (s : string) : Prop :=
  ∃ fd ps r n lr args, p_funcs p !! f = Some fd ∧ f_ty fd = TFun ps r ∧
    nv_fun ν !! f = Some n ∧ lty r lr ∧
    if decide (blks fd = ∅) then
      Forall2 lty ps args ∧ ts = [] ∧
      s = ("declare " ++ lr ++ " " ++ n ++ "(" ++ sep_comma args ++ ")" ++ nl)%string
    else
      Forall2 (λ v a, ∃ d m l, vals fd !! v = Some d ∧ value_called ν v d m ∧ lty (v_ty d) l ∧
        a = (l ++ " " ++ m)%string) (f_params fd) args ∧
      ∃ tss bs, Forall2 (λ x (y : list string * string), block_text ν p fd x y.1 y.2)
          (l_bbs (f_layout fd)) (zip tss bs) ∧
        length tss = length bs ∧ ts = concat tss ∧
        s = ("define " ++ lr ++ " " ++ n ++ "(" ++ sep_comma args ++ ") {" ++ nl ++
             blank_between bs ++ "}" ++ nl)%string.
(** A global variable *)
Definition global_text (ν : naming) (p : program) (v : value) (s : string) : Prop :=
  ∃ d i e n c, p_values p !! v = Some d ∧ v_kind d = KGlobalAlloc i ∧ p_values p !! i = Some e ∧
    nv_global ν !! v = Some n ∧ lconst (p_values p) true e c ∧
    s = (n ++ " = global " ++ c ++ nl)%string.

(** A program.  [l] has for each function the names in it, the temporary names, and the
    text; functions and global variables are called the same everywhere: as in [ν]. *)
Definition llvm_text (ν : naming) (p : program) (l : list (naming * list string * string))
    (txt : string) : Prop :=
  ∃ gs, Forall2 (global_text ν p) (p_inst_layout p) gs ∧
    Forall2 (λ f x, fun_text x.1.1 p f x.1.2 x.2) (p_func_layout p) l ∧
    Forall (λ x, nv_fun x.1.1 ⊆ nv_fun ν ∧ nv_global x.1.1 ⊆ nv_global ν) l ∧
    txt = (unlines gs ++ (if decide (p_inst_layout p = []) then "" else nl) ++
           blank_between (map snd l))%string.

(** Instructions know the blocks they are in. *)
Definition parents_exact (p : program) : Prop :=
  ∀ f fd u b, p_funcs p !! f = Some fd →
    parent_bb (f_layout fd) u = Some b ↔ in_block (f_layout fd) u b.

(** A branch with the same block as both targets passes nothing. *)
Definition branches_apart (p : program) : Prop :=
  ∀ f fd u d c t as1 as2, p_funcs p !! f = Some fd → vals fd !! u = Some d →
    v_kind d = KBranch c t t as1 as2 → as1 = [] ∧ as2 = [].

(** ** Names differ *)
Definition no_clash (a b : gmap N string) : Prop := ∀ x y n, a !! x = Some n → b !! y ≠ Some n.
Definition one_name (a : gmap N string) : Prop := ∀ x y n, a !! x = Some n → a !! y = Some n → x = y.
(** Different functions, variables, values and temporaries have different names; so have
    different blocks. *)
Definition names_differ (ν : naming) (ts : list string) : Prop :=
  one_name (nv_fun ν) ∧ one_name (nv_global ν) ∧ one_name (nv_local ν) ∧ one_name (nv_block ν) ∧
  no_clash (nv_fun ν) (nv_global ν) ∧ no_clash (nv_fun ν) (nv_local ν) ∧
  no_clash (nv_global ν) (nv_local ν) ∧ NoDup ts ∧
  ∀ t, t ∈ ts → ∀ x, nv_fun ν !! x ≠ Some t ∧ nv_global ν !! x ≠ Some t ∧ nv_local ν !! x ≠ Some t.

(** The names in a program *)
Definition named_in (p : program) (n : string) : Prop :=
  (∃ v d, p_values p !! v = Some d ∧ v_name d = Some n) ∨
  ∃ f fd, p_funcs p !! f = Some fd ∧
    (f_name fd = n ∨ (∃ v d, vals fd !! v = Some d ∧ v_name d = Some n) ∨
     ∃ b bd, blks fd !! b = Some bd ∧ bb_name bd = Some n).
(** A name that does not look like a temporary name of LLVM: one of the 510 characters after
    the sigil is neither a digit nor a dollar sign. *)
Definition plain (n : string) : Prop :=
  ∃ c i, (1 ≤ i ≤ 510)%nat ∧ String.get i n = Some c ∧ c ≠ "$"%char ∧
    ¬ (48 ≤ N_of_ascii c ≤ 57)%N.

(** ** Global names *)
Definition global_name (n : string) : Prop := ∃ t, n = String "@" t.
(** A function only calls itself and functions listed before it. *)
Definition callees_first (p : program) : Prop :=
  ∀ l1 f l2 fd v d c args, p_func_layout p = l1 ++ f :: l2 → p_funcs p !! f = Some fd →
    vals fd !! v = Some d → v_kind d = KCall c args → c ∈ l1 ∨ c = f.
(** All global variables are listed. *)
Definition globals_listed (p : program) : Prop :=
  (∀ v d, p_values p !! v = Some d → is_global_alloc (v_kind d) = true → v ∈ p_inst_layout p) ∧
  ∀ f fd v d, p_funcs p !! f = Some fd → vals fd !! v = Some d → is_global_alloc (v_kind d) = false.
