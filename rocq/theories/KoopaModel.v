(** Model of koopa/src/back/koopa.rs: printing a program as Koopa text.

    Simplifications: a method returns the text it writes; writing never fails (a [Vec<u8>]
    or a string); the lists with [", "] between the elements (loops with [if i != 0]) are
    written with [sep_comma].  An entity is identified by its handle, where the Rust code
    uses the address of its data. *)
From Verif Require Import Base IdModel TypeModel IrModel TextModel NameModel LexerModel.

(** The methods of [VisitorImpl] (koopa/src/back/koopa.rs:30-35), as functions on the name
    manager; there are no errors, [Rfuel] is the model's own. *)
Notation PR := (M nm string).

(** A call of the name manager that panics on [None]
    (koopa/src/back/generator.rs:47, 61, 216-234) *)
Definition p_name {A} (f : nm → option (A * nm)) : M nm A := λ m,
  match f m with Some (a, m') => (Rok a, m') | None => (Rpanic, m) end.
(** The same without a result (koopa/src/back/generator.rs:44-70) *)
Definition p_name_ (f : nm → option nm) : M nm unit := λ m,
  match f m with Some m' => (Rok tt, m') | None => (Rpanic, m) end.
(** A lookup that panics on [None] (e.g. koopa/src/ir/dfg.rs:181-183 [value],
    koopa/src/ir/entities.rs:122-126 [borrow_value]) *)
Definition p_some {A} (o : option A) : M nm A := λ m,
  match o with Some a => (Rok a, m) | None => (Rpanic, m) end.
(** [for x in l { .. }] (koopa/src/back/koopa.rs:54-70 and others) collecting what is written *)
Fixpoint p_map {A} (f : A → PR) (l : list A) : M nm (list string) :=
  match l with
  | [] => mok []
  | x :: l' => y <- f x;; ys <- p_map f l';; mok (y :: ys)
  end.
(** A newline, as written by [writeln!] (koopa/src/back/koopa.rs:58 and others) *)
Definition newline : string := String "010"%char EmptyString.
(** One text after the other (successive [write!]s, koopa/src/back/koopa.rs) *)
Definition join (l : list string) : string := foldr String.append EmptyString l.
(** Texts with an empty line between two of them
    (loops of koopa/src/back/koopa.rs:60-70, 113-118) *)
Fixpoint join_blank (l : list string) : string :=
  match l with
  | [] => EmptyString
  | [s] => s
  | s :: l' => (s ++ newline ++ join_blank l')%string
  end.

(** The loop over the elements of an aggregate (koopa/src/back/koopa.rs:305-311, 325-331) *)
Fixpoint res_map {A} (f : A → res string) (l : list A) : res (list string) :=
  match l with
  | [] => Rok []
  | x :: l' =>
      match f x with
      | Rok s =>
          match res_map f l' with
          | Rok ss => Rok (s :: ss)
          | Rerr x => Rerr x | Rpanic => Rpanic | Rfuel => Rfuel
          end
      | Rerr x => Rerr x | Rpanic => Rpanic | Rfuel => Rfuel
      end
  end.
(** koopa/src/back/koopa.rs:298-315 [visit_global_const] and 318-335 [visit_local_const],
    which only differ in where the elements are looked up: [m].  The recursion is as deep
    as the nesting of the aggregates. *)
Fixpoint visit_const (fuel : nat) (m : gmap N vdata) (d : vdata) : res string :=
  match v_kind d with
  | KInteger z => Rok (show_Z z)
  | KZeroInit => Rok "zeroinit"%string
  | KUndef => Rok "undef"%string
  | KAggregate elems =>
      match fuel with
      | O => Rfuel
      | S fuel' =>
          match res_map (λ v, match m !! v with Some e => visit_const fuel' m e | None => Rpanic end) elems with
          | Rok ss => Rok ("{" ++ sep_comma ss ++ "}")%string
          | Rerr x => Rerr x | Rpanic => Rpanic | Rfuel => Rfuel
          end
      end
  | _ => Rpanic
  end.
(** The call of [visit_global_const] or [visit_local_const] (koopa/src/back/koopa.rs) *)
Definition p_const (m : gmap N vdata) (d : vdata) : PR := λ s,
  (visit_const (S (base.size m)) m d, s).

(** koopa/src/back/generator.rs:106-113 [NameManager::value_name] with its assertion *)
Definition p_value_name (v : value) (d : vdata) : PR :=
  if is_const (v_kind d) then p_some None
  else p_name (value_name (is_global_alloc (v_kind d)) v (v_name d)).
(** [self.nm.bb_name(func!(self).dfg().bb(b))] (koopa/src/back/koopa.rs:129-130, 339) *)
Definition p_bb_name (fd : fdata) (b : bblock) : PR :=
  bd <- p_some (d_bbs (f_dfg fd) !! b);; p_name (bb_name_ b (bb_name bd)).
(** [self.nm.func_name(self.program.func(f))] (koopa/src/back/koopa.rs:82, 260) *)
Definition p_func_name (p : program) (f : func) : PR :=
  fd <- p_some (p_funcs p !! f);; p_name (func_name f (f_name fd)).

(** koopa/src/back/koopa.rs:282-295 [visit_value] *)
Definition visit_value (p : program) (fd : fdata) (v : value) : PR :=
  if is_global_id v then
    d <- p_some (p_values p !! v);;
    if is_const (v_kind d) then p_some None else p_value_name v d
  else
    d <- p_some (d_values (f_dfg fd) !! v);;
    if is_const (v_kind d) then p_const (d_values (f_dfg fd)) d else p_value_name v d.
(** koopa/src/back/koopa.rs:338-351 [visit_bb_target] *)
Definition visit_bb_target (p : program) (fd : fdata) (b : bblock) (args : list value) : PR :=
  n <- p_bb_name fd b;;
  if decide (args = []) then mok n
  else
    ss <- p_map (visit_value p fd) args;;
    mok (n ++ "(" ++ sep_comma ss ++ ")")%string.

(** koopa/src/back/koopa.rs:175-188 the contents of a local instruction, with 193-279
    [visit_alloc], [visit_load], [visit_store], [visit_getptr], [visit_getelemptr],
    [visit_binary], [visit_branch], [visit_jump], [visit_call], [visit_return] *)
Definition visit_content (p : program) (fd : fdata) (d : vdata) : PR :=
  let val := visit_value p fd in
  match v_kind d with
  | KAlloc =>
      match v_ty d with
      | TPtr base => mok ("alloc " ++ show_ty base)%string
      | _ => p_some None
      end
  | KLoad src => a <- val src;; mok ("load " ++ a)%string
  | KStore v dest => a <- val v;; b <- val dest;; mok ("store " ++ a ++ ", " ++ b)%string
  | KGetPtr src index =>
      a <- val src;; b <- val index;; mok ("getptr " ++ a ++ ", " ++ b)%string
  | KGetElemPtr src index =>
      a <- val src;; b <- val index;; mok ("getelemptr " ++ a ++ ", " ++ b)%string
  | KBinary op l r =>
      a <- val l;; b <- val r;; mok (show_binop op ++ " " ++ a ++ ", " ++ b)%string
  | KBranch c t f targs fargs =>
      a <- val c;;
      b <- visit_bb_target p fd t targs;;
      e <- visit_bb_target p fd f fargs;;
      mok ("br " ++ a ++ ", " ++ b ++ ", " ++ e)%string
  | KJump t args => a <- visit_bb_target p fd t args;; mok ("jump " ++ a)%string
  | KCall callee args =>
      a <- p_func_name p callee;;
      ss <- p_map val args;;
      mok ("call " ++ a ++ "(" ++ sep_comma ss ++ ")")%string
  | KReturn None => mok "ret"%string
  | KReturn (Some v) => a <- val v;; mok ("ret " ++ a)%string
  | _ => p_some None
  end.
(** koopa/src/back/koopa.rs:170-190 [visit_local_inst] *)
Definition visit_local_inst (p : program) (fd : fdata) (v : value) (d : vdata) : PR :=
  def <- (if is_unit (v_ty d) then mok ""%string
          else n <- p_value_name v d;; mok (n ++ " = ")%string);;
  s <- visit_content p fd d;;
  mok (def ++ s ++ newline)%string.

(** The parameter of a function or block, [name: type]
    (koopa/src/back/koopa.rs:97-103, 134-140) *)
Definition visit_param (fd : fdata) (v : value) : PR :=
  d <- p_some (d_values (f_dfg fd) !! v);;
  n <- p_value_name v d;;
  mok (n ++ ": " ++ show_ty (v_ty d))%string.
(** koopa/src/back/koopa.rs:127-150 [visit_bb] *)
Definition visit_bb (p : program) (fd : fdata) (b : bblock) (insts : list value) : PR :=
  bd <- p_some (d_bbs (f_dfg fd) !! b);;
  n <- p_name (bb_name_ b (bb_name bd));;
  ps <- (if decide (bb_params bd = []) then mok ""%string
         else ss <- p_map (visit_param fd) (bb_params bd);;
              mok ("(" ++ sep_comma ss ++ ")")%string);;
  ss <- p_map (λ v, d <- p_some (d_values (f_dfg fd) !! v);;
                    s <- visit_local_inst p fd v d;;
                    mok ("  " ++ s)%string) insts;;
  mok (n ++ ps ++ ":" ++ newline ++ join ss)%string.

(** koopa/src/back/koopa.rs:153-167 [visit_global_inst] *)
Definition visit_global_inst (p : program) (v : value) : PR :=
  d <- p_some (p_values p !! v);;
  match v_kind d with
  | KGlobalAlloc init =>
      e <- p_some (p_values p !! init);;
      n <- p_value_name v d;;
      s <- p_const (p_values p) e;;
      mok ("global " ++ n ++ " = alloc " ++ show_ty (v_ty e) ++ ", " ++ s ++ newline)%string
  | _ => p_some None
  end.

(** koopa/src/back/koopa.rs:74-124 [visit_func] *)
Definition visit_func (p : program) (f : func) (fd : fdata) : PR :=
  let is_decl := bool_decide (d_bbs (f_dfg fd) = ∅) in
  n <- p_name (func_name f (f_name fd));;
  match f_ty fd with
  | TFun param_ty ret_ty =>
      ss <- (if is_decl then mok (map show_ty param_ty)
             else p_map (visit_param fd) (f_params fd));;
      let head := ((if is_decl then "decl" else "fun") ++ " " ++ n ++ "(" ++ sep_comma ss ++ ")" ++
        (if is_unit ret_ty then "" else ": " ++ show_ty ret_ty))%string in
      if is_decl then mok (head ++ newline)%string
      else
        bs <- p_map (λ x : bblock * list value, visit_bb p fd x.1 x.2) (l_bbs (f_layout fd));;
        mok (head ++ " {" ++ newline ++ join_blank bs ++ "}" ++ newline)%string
  | _ => p_some None
  end.

(** koopa/src/back/koopa.rs:53-71 [VisitorImpl::visit] *)
Definition visit_program (p : program) : PR :=
  gs <- p_map (visit_global_inst p) (p_inst_layout p);;
  fs <- p_map (λ f,
          fd <- p_some (p_funcs p !! f);;
          p_name_ enter_func_scope;;
          s <- visit_func p f fd;;
          p_name_ exit_func_scope;;
          mok s) (p_func_layout p);;
  mok (join gs ++ (if decide (p_inst_layout p = []) then "" else newline) ++ join_blank fs)%string.

(** [KoopaGenerator::new] (koopa/src/back/generator.rs:292-301, koopa/src/back/mod.rs:60) and
    [generate_on] (koopa/src/back/generator.rs:318-322): the text of a program *)
Definition print_program (p : program) : res string := (visit_program p nm0).1.
