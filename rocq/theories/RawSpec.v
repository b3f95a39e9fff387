(** What it means that a program is read back from its raw form (C40). *)
From Verif Require Import Base IdModel TypeModel IrModel BuilderModel WorldModel UsesSpec DfgSpec TypingSpec RawModel.

(** ** Isomorphic programs *)
(** [k'] is [k] with its values, blocks and functions renamed. *)
Inductive renamed (V B F : N → N → Prop) : vkind → vkind → Prop :=
  | R_integer z : renamed V B F (KInteger z) (KInteger z)
  | R_zero_init : renamed V B F KZeroInit KZeroInit
  | R_undef : renamed V B F KUndef KUndef
  | R_aggregate l l' : Forall2 V l l' → renamed V B F (KAggregate l) (KAggregate l')
  | R_func_arg i : renamed V B F (KFuncArg i) (KFuncArg i)
  | R_block_arg i : renamed V B F (KBlockArg i) (KBlockArg i)
  | R_alloc : renamed V B F KAlloc KAlloc
  | R_global_alloc v v' : V v v' → renamed V B F (KGlobalAlloc v) (KGlobalAlloc v')
  | R_load v v' : V v v' → renamed V B F (KLoad v) (KLoad v')
  | R_store v v' d d' : V v v' → V d d' → renamed V B F (KStore v d) (KStore v' d')
  | R_get_ptr x x' i i' : V x x' → V i i' → renamed V B F (KGetPtr x i) (KGetPtr x' i')
  | R_get_elem_ptr x x' i i' : V x x' → V i i' → renamed V B F (KGetElemPtr x i) (KGetElemPtr x' i')
  | R_binary op l l' r r' : V l l' → V r r' → renamed V B F (KBinary op l r) (KBinary op l' r')
  | R_branch c c' t t' f f' ta ta' fa fa' :
      V c c' → B t t' → B f f' → Forall2 V ta ta' → Forall2 V fa fa' →
      renamed V B F (KBranch c t f ta fa) (KBranch c' t' f' ta' fa')
  | R_jump t t' a a' : B t t' → Forall2 V a a' → renamed V B F (KJump t a) (KJump t' a')
  | R_call f f' a a' : F f f' → Forall2 V a a' → renamed V B F (KCall f a) (KCall f' a')
  | R_return : renamed V B F (KReturn None) (KReturn None)
  | R_return_value v v' : V v v' → renamed V B F (KReturn (Some v)) (KReturn (Some v')).

(** The pairs of a finite map. *)
Definition pairs (m : gmap N N) (a b : N) : Prop := m !! a = Some b.
Definition one_to_one (m : gmap N N) : Prop := ∀ a a' b, m !! a = Some b → m !! a' = Some b → a = a'.

(** The function [fd'] is [fd], with values and blocks renamed; its blocks are listed in the
    order [bs]. *)
Record same_function (G Fm : gmap N N) (fd : fdata) (bs : list bblock) (fd' : fdata) : Prop := {
  sf_name : f_name fd' = f_name fd;
  sf_ty : f_ty fd' = f_ty fd;
  sf_body : ∃ Vm Bm : gmap N N, one_to_one Vm ∧ one_to_one Bm ∧
    Forall2 (pairs Vm) (f_params fd) (f_params fd') ∧
    (** blocks and their instructions *)
    Forall2 (λ b e, pairs Bm b e.1 ∧ ∃ is, (b, is) ∈ l_bbs (f_layout fd) ∧ Forall2 (pairs Vm) is e.2)
      bs (l_bbs (f_layout fd')) ∧
    (∀ b b', pairs Bm b b' → ∃ d d', blks fd !! b = Some d ∧ blks fd' !! b' = Some d' ∧
       bb_name d' = bb_name d ∧ Forall2 (pairs Vm) (bb_params d) (bb_params d')) ∧
    (** values and their operands *)
    (∀ v v', pairs Vm v v' → ∃ d d', vals fd !! v = Some d ∧ vals fd' !! v' = Some d' ∧
       v_ty d' = v_ty d ∧ v_name d' = v_name d ∧
       renamed (pairs (G ∪ Vm)) (pairs Bm) (pairs Fm) (v_kind d) (v_kind d')) ∧
    (** nothing else *)
    (∀ v', is_Some (vals fd' !! v') → ∃ v, pairs Vm v v') ∧
    (∀ b', is_Some (blks fd' !! b') → ∃ b, pairs Bm b b');
}.
(** The program [p'] is [p], with values, blocks and functions renamed; its global variables
    are listed in the order [gs], its functions in the order [fs], and the blocks of a function
    [f] in the order [bs f]. *)
Definition isomorphic_as (gs : list value) (fs : list func) (bs : func → list bblock) (p p' : program) : Prop :=
  ∃ G Fm : gmap N N, one_to_one G ∧ one_to_one Fm ∧
    Forall2 (pairs G) gs (p_inst_layout p') ∧ Forall2 (pairs Fm) fs (p_func_layout p') ∧
    (∀ v v', pairs G v v' → ∃ d d', p_values p !! v = Some d ∧ p_values p' !! v' = Some d' ∧
       v_ty d' = v_ty d ∧ v_name d' = v_name d ∧
       renamed (pairs G) (λ _ _, False) (λ _ _, False) (v_kind d) (v_kind d')) ∧
    (∀ f f', pairs Fm f f' → ∃ fd fd', p_funcs p !! f = Some fd ∧ p_funcs p' !! f' = Some fd' ∧
       same_function G Fm fd (bs f) fd') ∧
    (∀ v', is_Some (p_values p' !! v') → ∃ v, pairs G v v') ∧
    (∀ f', is_Some (p_funcs p' !! f') → ∃ f, pairs Fm f f').
(** The blocks of a function, as listed. *)
Definition listed_blocks (p : program) (f : func) : list bblock :=
  match p_funcs p !! f with Some fd => (l_bbs (f_layout fd)).*1 | None => [] end.
(** The same program, everything listed in the same order. *)
Definition isomorphic (p p' : program) : Prop :=
  isomorphic_as (p_inst_layout p) (p_func_layout p) (listed_blocks p) p p'.

(** ** Discovery order *)
(** What a value refers to, from left to right. *)
Definition refs (k : vkind) : list task :=
  match k with
  | KBranch c t f ta fa => TVal c :: TBlk t :: TBlk f :: (TVal <$> ta ++ fa)
  | KJump t a => TBlk t :: (TVal <$> a)
  | KCall f a => TFunc f :: (TVal <$> a)
  | _ => TVal <$> operands k
  end.
Definition value_of (p : program) (v : value) (d : vdata) : Prop :=
  p_values p !! v = Some d ∨ ∃ f fd, p_funcs p !! f = Some fd ∧ vals fd !! v = Some d.
Definition block_of (p : program) (b : bblock) (d : bbdata) (is : list value) : Prop :=
  ∃ f fd, p_funcs p !! f = Some fd ∧ blks fd !! b = Some d ∧ (b, is) ∈ l_bbs (f_layout fd).
(** A depth-first walk through the program: [walk p S l o] starts where everything in [S] is
    known, goes through [l] and meets what is in [o], in this order.  Functions and blocks are
    met on the way down, with their parameters; other values when all they refer to is met. *)
Inductive walk (p : program) : list task → list task → list task → Prop :=
  | W_nil S : walk p S [] []
  | W_known S t l o : t ∈ S → walk p S l o → walk p S (t :: l) o
  | W_value S v d l o o' :
      TVal v ∉ S → value_of p v d → is_param (v_kind d) = false →
      walk p S (refs (v_kind d)) o → walk p (S ++ o ++ [TVal v]) l o' →
      walk p S (TVal v :: l) ((o ++ [TVal v]) ++ o')
  | W_block S b d is l o o' :
      TBlk b ∉ S → block_of p b d is →
      walk p (S ++ TBlk b :: (TVal <$> bb_params d)) (TVal <$> is) o →
      walk p (S ++ (TBlk b :: (TVal <$> bb_params d)) ++ o) l o' →
      walk p S (TBlk b :: l) (((TBlk b :: (TVal <$> bb_params d)) ++ o) ++ o')
  | W_func S f fd l o o' :
      TFunc f ∉ S → p_funcs p !! f = Some fd →
      walk p (S ++ TFunc f :: (TVal <$> f_params fd)) (TBlk <$> (l_bbs (f_layout fd)).*1) o →
      walk p (S ++ (TFunc f :: (TVal <$> f_params fd)) ++ o) l o' →
      walk p S (TFunc f :: l) (((TFunc f :: (TVal <$> f_params fd)) ++ o) ++ o').
(** The walk through the whole program: the global variables, then the functions. *)
Definition discovered (p : program) (o : list task) : Prop :=
  walk p [] ((TVal <$> p_inst_layout p) ++ (TFunc <$> p_func_layout p)) o.
(** The global variables, functions and blocks among what is met. *)
Definition allocs_in (p : program) (o : list task) : list value :=
  omap (λ t, match t with
             | TVal v => match p_values p !! v with
                         | Some d => match v_kind d with KGlobalAlloc _ => Some v | _ => None end
                         | None => None end
             | _ => None end) o.
Definition funcs_in (o : list task) : list func :=
  omap (λ t, match t with TFunc f => Some f | _ => None end) o.
Definition blocks_in (p : program) (o : list task) (f : func) : list bblock :=
  omap (λ t, match t with
             | TBlk b => match p_funcs p !! f with
                         | Some fd => match blks fd !! b with Some _ => Some b | None => None end
                         | None => None end
             | _ => None end) o.
(** Everything is listed in the order in which a walk meets it. *)
Definition in_discovery_order (p : program) : Prop :=
  ∃ o, discovered p o ∧ allocs_in p o = p_inst_layout p ∧ funcs_in o = p_func_layout p ∧
    ∀ f, is_Some (p_funcs p !! f) → blocks_in p o f = listed_blocks p f.

(** ** Programs that can be read back *)
Definition is_control (k : vkind) : bool :=
  match k with KBranch _ _ _ _ _ | KJump _ _ => true | _ => false end.
(** The parameters [ps] are the values [arg 0], [arg 1], ... of the types [ts]. *)
Definition params_are (m : gmap N vdata) (arg : N → vkind) (ps : list value) (ts : list ty) : Prop :=
  length ps = length ts ∧
  ∀ (j : nat) v t, ps !! j = Some v → ts !! j = Some t →
    ∃ d, m !! v = Some d ∧ v_kind d = arg (N.of_nat j) ∧ v_ty d = t.
Record regular (p : program) : Prop := {
  rg_typed : well_typed p;
  rg_closed : no_dangling p;
  (** handles tell global from local values, and belong to one function *)
  rg_global : ∀ v, is_Some (p_values p !! v) → is_global_id v = true;
  rg_local : ∀ f fd v, p_funcs p !! f = Some fd → is_Some (vals fd !! v) → is_global_id v = false;
  rg_own : ∀ f f' fd fd' v, p_funcs p !! f = Some fd → p_funcs p !! f' = Some fd' →
    is_Some (vals fd !! v) → is_Some (vals fd' !! v) → f = f';
  rg_own_bb : ∀ f f' fd fd' b, p_funcs p !! f = Some fd → p_funcs p !! f' = Some fd' →
    is_Some (blks fd !! b) → is_Some (blks fd' !! b) → f = f';
  rg_allocs : ∀ f fd v d init, p_funcs p !! f = Some fd → vals fd !! v = Some d → v_kind d ≠ KGlobalAlloc init;
  (** the listed global variables exist, and functions only use listed ones *)
  rg_layout : ∀ v, v ∈ p_inst_layout p → is_Some (p_values p !! v);
  rg_listed : ∀ f fd u v, p_funcs p !! f = Some fd → uses (vals fd) u v →
    is_Some (p_values p !! v) → v ∈ p_inst_layout p;
  (** parameters *)
  rg_params : ∀ f fd, p_funcs p !! f = Some fd → ∃ ts r, f_ty fd = TFun ts r ∧
    (if decide (l_bbs (f_layout fd) = []) then f_params fd = []
     else params_are (vals fd) KFuncArg (f_params fd) ts);
  rg_bb_params : ∀ f fd b d, p_funcs p !! f = Some fd → blks fd !! b = Some d →
    ∃ ts, params_are (vals fd) KBlockArg (bb_params d) ts;
  rg_params_once : ∀ f fd, p_funcs p !! f = Some fd → NoDup (f_params fd);
  rg_bb_params_once : ∀ f fd b d, p_funcs p !! f = Some fd → blks fd !! b = Some d → NoDup (bb_params d);
  rg_bb_params_own : ∀ f fd b b' d d' v, p_funcs p !! f = Some fd → blks fd !! b = Some d →
    blks fd !! b' = Some d' → v ∈ bb_params d → v ∈ bb_params d' → b = b';
  (** blocks are listed once, instructions are listed once *)
  rg_bbs_once : ∀ f fd, p_funcs p !! f = Some fd → NoDup (l_bbs (f_layout fd)).*1;
  rg_bbs : ∀ f fd b, p_funcs p !! f = Some fd → b ∈ (l_bbs (f_layout fd)).*1 → is_Some (blks fd !! b);
  rg_insts_once : ∀ f fd b b' is is' v, p_funcs p !! f = Some fd →
    (b, is) ∈ l_bbs (f_layout fd) → (b', is') ∈ l_bbs (f_layout fd) → v ∈ is → v ∈ is' → b = b';
  rg_insts : ∀ f fd b is v, p_funcs p !! f = Some fd → (b, is) ∈ l_bbs (f_layout fd) → v ∈ is →
    is_Some (vals fd !! v);
  (** branches and jumps are not operands *)
  rg_control : ∀ f fd u v d, p_funcs p !! f = Some fd → uses (vals fd) u v → vals fd !! v = Some d →
    is_control (v_kind d) = false;
}.
