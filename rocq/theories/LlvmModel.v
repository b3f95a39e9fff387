(** Model of koopa/src/back/llvm.rs: printing a program as LLVM text.

    Simplifications: as in KoopaModel.  In addition [HashSet] iteration
    (koopa/src/back/llvm.rs:172) has no specified order; here the order is a parameter,
    [ord], and the theorems hold for every [ord] that lists each element once. *)
From Verif Require Import Base IdModel TypeModel IrModel LayoutModel TextModel NameModel LexerModel
  KoopaModel.

(** The prefixes of koopa/src/back/llvm.rs:65, 70-74, 115-119, 153-157 *)
Definition global_prefix : prefix := PCustom "@" "@$" (Some 513).
(** koopa/src/back/llvm.rs:65, 115-119 *)
Definition local_prefix : prefix := PCustom "%" "%$" (Some 513).
(** [self.nm.set_prefix(p)] (koopa/src/back/llvm.rs:70, 115, 153) *)
Definition p_prefix (p : prefix) : M nm unit := λ m, (Rok tt, set_prefix p m).

(** koopa/src/back/llvm.rs:459-485 [visit_type] *)
Fixpoint llvm_ty (t : ty) : string :=
  match t with
  | TInt32 => "i32"
  | TUnit => "void"
  | TArray base len => "[" ++ show_N len ++ " x " ++ llvm_ty base ++ "]"
  | TPtr base => llvm_ty base ++ "*"
  | TFun params ret => llvm_ty ret ++ " (" ++ sep_comma (map llvm_ty params) ++ ")*"
  end%string.

(** koopa/src/back/llvm.rs:430-451 [visit_local_const] and, with [with_ty] and the global
    values, 408-427 [visit_global_const].  The recursion is as deep as the nesting of the
    aggregates. *)
Fixpoint llvm_const (fuel : nat) (m : gmap N vdata) (with_ty : bool) (d : vdata) : res string :=
  let pre := if with_ty then (llvm_ty (v_ty d) ++ " ")%string else EmptyString in
  match v_kind d with
  | KInteger z => Rok (pre ++ show_Z z)%string
  | KZeroInit => Rok (pre ++ "zeroinitializer")%string
  | KUndef => Rok (pre ++ "undef")%string
  | KAggregate elems =>
      match fuel with
      | O => Rfuel
      | S fuel' =>
          match res_map (λ v, match m !! v with Some e => llvm_const fuel' m with_ty e | None => Rpanic end) elems with
          | Rok ss => Rok (pre ++ "[" ++ sep_comma ss ++ "]")%string
          | Rerr x => Rerr x | Rpanic => Rpanic | Rfuel => Rfuel
          end
      end
  | _ => Rpanic
  end.
(** The call of [visit_global_const] or [visit_local_const]
    (koopa/src/back/llvm.rs:210, 396) *)
Definition l_const (m : gmap N vdata) (with_ty : bool) (d : vdata) : PR := λ s,
  (llvm_const (S (base.size m)) m with_ty d, s).

(** koopa/src/back/llvm.rs:384-405 [visit_value] *)
Definition l_value (p : program) (fd : fdata) (with_ty : bool) (v : value) : PR :=
  let typed (d : vdata) (n : string) : string :=
    if with_ty then (llvm_ty (v_ty d) ++ " " ++ n)%string else n in
  if is_global_id v then
    d <- p_some (p_values p !! v);;
    if is_const (v_kind d) then p_some None
    else n <- p_value_name v d;; mok (typed d n)
  else
    d <- p_some (d_values (f_dfg fd) !! v);;
    if is_const (v_kind d) then l_const (d_values (f_dfg fd)) with_ty d
    else n <- p_value_name v d;; mok (typed d n).
(** The macro [value_ty!] (koopa/src/back/llvm.rs:53-61), and the type the pointer points
    to (266-269, 279-282) *)
Definition l_base_ty (p : program) (fd : fdata) (v : value) : M nm ty :=
  d <- p_some ((if is_global_id v then p_values p else d_values (f_dfg fd)) !! v);;
  match v_ty d with TPtr base => mok base | _ => p_some None end.

(** koopa/src/back/llvm.rs:304-314 the operator of [visit_binary] *)
Definition llvm_op (o : binop) : string :=
  match o with
  | NotEq | Eq_ => "icmp " ++ show_binop o
  | Gt_ | Lt_ | Ge_ | Le_ => "icmp s" ++ show_binop o
  | Div => "sdiv" | Mod_ => "srem" | Shr => "lshr" | Sar => "ashr"
  | _ => show_binop o
  end%string.
(** koopa/src/back/llvm.rs:292-295 *)
Definition is_compare (o : binop) : bool :=
  match o with NotEq | Eq_ | Gt_ | Lt_ | Ge_ | Le_ => true | _ => false end.

(** koopa/src/back/llvm.rs:221-233 the contents of a local instruction, with 238-381
    [visit_alloc], [visit_load], [visit_store], [visit_getptr], [visit_getelemptr],
    [visit_binary], [visit_branch], [visit_jump], [visit_call], [visit_return] *)
Definition l_content (p : program) (fd : fdata) (v : value) (d : vdata) : PR :=
  let val := l_value p fd in
  match v_kind d with
  | KAlloc =>
      match v_ty d with
      | TPtr base => mok ("alloca " ++ llvm_ty base)%string
      | _ => p_some None
      end
  | KLoad src => a <- val true src;; mok ("load " ++ llvm_ty (v_ty d) ++ ", " ++ a)%string
  | KStore x dest =>
      a <- val true x;; b <- val true dest;; mok ("store " ++ a ++ ", " ++ b)%string
  | KGetPtr src index =>
      t <- l_base_ty p fd src;;
      a <- val true src;; b <- val true index;;
      mok ("getelementptr inbounds " ++ llvm_ty t ++ ", " ++ a ++ ", " ++ b)%string
  | KGetElemPtr src index =>
      t <- l_base_ty p fd src;;
      a <- val true src;; b <- val true index;;
      mok ("getelementptr inbounds " ++ llvm_ty t ++ ", " ++ a ++ ", i32 0, " ++ b)%string
  | KBinary op l r =>
      if is_compare op then
        t <- p_name temp_value_name;;
        a <- val false l;; b <- val false r;;
        n <- p_value_name v d;;
        mok (t ++ " = " ++ llvm_op op ++ " i32 " ++ a ++ ", " ++ b ++ newline ++
             "  " ++ n ++ " = zext i1 " ++ t ++ " to i32")%string
      else
        n <- p_value_name v d;;
        a <- val false l;; b <- val false r;;
        mok (n ++ " = " ++ llvm_op op ++ " i32 " ++ a ++ ", " ++ b)%string
  | KBranch c t f _ _ =>
      n <- p_name temp_value_name;;
      a <- val false c;;
      b <- p_bb_name fd t;;
      e <- p_bb_name fd f;;
      mok (n ++ " = icmp ne i32 " ++ a ++ ", 0" ++ newline ++
           "  br i1 " ++ n ++ ", label " ++ b ++ ", label " ++ e)%string
  | KJump t _ => b <- p_bb_name fd t;; mok ("br label " ++ b)%string
  | KCall callee args =>
      n <- p_func_name p callee;;
      ss <- p_map (val true) args;;
      mok ("call " ++ llvm_ty (v_ty d) ++ " " ++ n ++ "(" ++ sep_comma ss ++ ")")%string
  | KReturn None => mok "ret void"%string
  | KReturn (Some x) => a <- val true x;; mok ("ret " ++ a)%string
  | _ => p_some None
  end.
(** [matches!(inst.kind(), ValueKind::Binary(_))] (koopa/src/back/llvm.rs:217) *)
Definition is_binary (k : vkind) : bool := match k with KBinary _ _ _ => true | _ => false end.
(** koopa/src/back/llvm.rs:215-235 [visit_local_inst] *)
Definition l_inst (p : program) (fd : fdata) (v : value) (d : vdata) : PR :=
  def <- (if is_binary (v_kind d) || is_unit (v_ty d) then mok ""%string
          else n <- p_value_name v d;; mok (n ++ " = ")%string);;
  s <- l_content p fd v d;;
  mok (def ++ s ++ newline)%string.

(** The argument that the user of a block passes for its [i]-th parameter
    (koopa/src/back/llvm.rs:177-187); an index out of bounds panics. *)
Definition l_arg (b : bblock) (i : nat) (k : vkind) : option value :=
  match k with
  | KBranch _ t f targs fargs => if decide (t = b) then targs !! i else fargs !! i
  | KJump _ args => args !! i
  | _ => None
  end.
(** One incoming value (koopa/src/back/llvm.rs:176-190) *)
Definition l_incoming (p : program) (fd : fdata) (b : bblock) (i : nat) (user : value) : PR :=
  d <- p_some (d_values (f_dfg fd) !! user);;
  v <- p_some (l_arg b i (v_kind d));;
  a <- l_value p fd false v;;
  from <- p_some (parent_bb (f_layout fd) user);;
  n <- p_bb_name fd from;;
  mok ("[" ++ a ++ ", " ++ n ++ "]")%string.
(** One parameter (koopa/src/back/llvm.rs:168-192) *)
Definition l_phi (ord : gset value → list value) (p : program) (fd : fdata) (b : bblock)
    (bd : bbdata) (i : nat) (param : value) : PR :=
  d <- p_some (d_values (f_dfg fd) !! param);;
  n <- p_value_name param d;;
  ss <- p_map (l_incoming p fd b i) (ord (bb_used_by bd));;
  mok ("  " ++ n ++ " = phi " ++ llvm_ty (v_ty d) ++ " " ++ sep_comma ss ++ newline)%string.
(** [&name[1..]] (koopa/src/back/llvm.rs:165) *)
Definition tail1 (s : string) : option string :=
  match s with
  | String _ rest => if is_boundary s 1 then Some rest else None
  | EmptyString => None
  end.
(** koopa/src/back/llvm.rs:162-200 [visit_bb] *)
Definition l_bb (ord : gset value → list value) (p : program) (fd : fdata) (b : bblock)
    (insts : list value) : PR :=
  bd <- p_some (d_bbs (f_dfg fd) !! b);;
  n <- p_name (bb_name_ b (bb_name bd));;
  label <- p_some (tail1 n);;
  phis <- p_map (λ x : nat * value, l_phi ord p fd b bd x.1 x.2)
            (zip (seq 0 (length (bb_params bd))) (bb_params bd));;
  ss <- p_map (λ v, d <- p_some (d_values (f_dfg fd) !! v);;
                    s <- l_inst p fd v d;;
                    mok ("  " ++ s)%string) insts;;
  mok (label ++ ":" ++ newline ++ join phis ++ join ss)%string.

(** koopa/src/back/llvm.rs:203-212 [visit_global_inst] *)
Definition l_global (p : program) (v : value) : PR :=
  d <- p_some (p_values p !! v);;
  match v_kind d with
  | KGlobalAlloc init =>
      e <- p_some (p_values p !! init);;
      n <- p_value_name v d;;
      s <- l_const (p_values p) true e;;
      mok (n ++ " = global " ++ s ++ newline)%string
  | _ => p_some None
  end.

(** The parameter of a function (koopa/src/back/llvm.rs:133-135) *)
Definition l_param (fd : fdata) (v : value) : PR :=
  d <- p_some (d_values (f_dfg fd) !! v);;
  n <- p_value_name v d;;
  mok (llvm_ty (v_ty d) ++ " " ++ n)%string.
(** koopa/src/back/llvm.rs:96-159 [visit_func] *)
Definition l_func (ord : gset value → list value) (p : program) (f : func) (fd : fdata) : PR :=
  let is_decl := bool_decide (d_bbs (f_dfg fd) = ∅) in
  match f_ty fd with
  | TFun param_ty ret_ty =>
      n <- p_name (func_name f (f_name fd));;
      p_prefix local_prefix;;
      ss <- (if is_decl then mok (map llvm_ty param_ty) else p_map (l_param fd) (f_params fd));;
      let head := ((if is_decl then "declare" else "define") ++ " " ++ llvm_ty ret_ty ++ " " ++ n ++
        "(" ++ sep_comma ss ++ ")")%string in
      bs <- (if is_decl then mok []
             else p_map (λ x : bblock * list value, l_bb ord p fd x.1 x.2) (l_bbs (f_layout fd)));;
      p_prefix global_prefix;;
      mok (if is_decl then head ++ newline
           else head ++ " {" ++ newline ++ join_blank bs ++ "}" ++ newline)%string
  | _ => p_some None
  end.

(** koopa/src/back/llvm.rs:68-93 [visit] *)
Definition l_program (ord : gset value → list value) (p : program) : PR :=
  p_prefix global_prefix;;
  gs <- p_map (l_global p) (p_inst_layout p);;
  fs <- p_map (λ f,
          fd <- p_some (p_funcs p !! f);;
          p_name_ enter_func_scope;;
          s <- l_func ord p f fd;;
          p_name_ exit_func_scope;;
          mok s) (p_func_layout p);;
  mok (join gs ++ (if decide (p_inst_layout p = []) then "" else newline) ++ join_blank fs)%string.

(** [LlvmGenerator::new] (koopa/src/back/generator.rs:292-301, koopa/src/back/mod.rs:63) and
    [generate_on] (koopa/src/back/generator.rs:318-322): the text of a program *)
Definition llvm_program (ord : gset value → list value) (p : program) : res string :=
  (l_program ord p nm0).1.
