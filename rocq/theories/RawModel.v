(** Raw programs of libkoopa: libkoopa/src/raw/{entities,builder,generator}.rs.

    A raw program is a graph of C structures.  Every structure that the builder allocates is
    stored in one of three tables, keyed by the entity that it is made from
    (libkoopa/src/raw/builder.rs:15-23): here the address of a structure is that key.
    Simplifications: types and strings are values instead of pointers (the tables [tys] and
    [strs] only share equal ones); slices are lists (their length is a u32 in the code, and
    their buffers are kept alive by [slices]); slices carry no item kind, so that the errors
    [RawSliceItemKindMismatch] and [InvalidUtf8String], which cannot happen on structures made
    by the builder, are not modelled; nor are pointers to anything else.  Following a pointer
    to a structure that is not there, or not filled in yet, is [Panics]. *)
From Verif Require Import Base IdModel TypeModel IrModel LayoutModel BuilderModel WorldModel FrontModel.

(** libkoopa/src/errors.rs:23-25, the codes that the generator returns here *)
Inductive rerr := ETypeMismatch | EFuncParamNumMismatch.
(** Result of a run of the code: a value, an error code, a panic, or more nested calls than
    the fuel (not in the code: libkoopa/src/raw/generator.rs:14 is [Result]) *)
Inductive rr (A : Type) :=
  | Done (a : A)
  | Fails (e : rerr)
  | Panics
  | Deep.
Arguments Done {A} a.
Arguments Fails {A} e.
Arguments Panics {A}.
Arguments Deep {A}.
(** The operator [?] (libkoopa/src/raw/generator.rs:19) *)
Global Instance rr_bind : MBind rr := λ A B k m,
  match m with Done a => k a | Fails e => Fails e | Panics => Panics | Deep => Deep end.
(** [unwrap], indexing (libkoopa/src/raw/builder.rs:43,45) *)
Definition need {A} (o : option A) : rr A := match o with Some a => Done a | None => Panics end.

(** ** Raw structures *)
(** libkoopa/src/raw/entities.rs:94-105 [RawValueData]; 107-303 [RawValueKind] has the cases of
    [ValueKind] with pointers instead of handles, a null pointer for no return value *)
Record rvalue := RValue { rv_ty : ty; rv_name : option string; rv_used_by : list value; rv_kind : vkind }.
(** libkoopa/src/raw/entities.rs:78-89 [RawBasicBlockData] *)
Record rblock := RBlock {
  rb_name : option string; rb_params : list value; rb_used_by : list value; rb_insts : list value }.
(** libkoopa/src/raw/entities.rs:62-73 [RawFunctionData] *)
Record rfunc := RFunc { rf_ty : ty; rf_name : string; rf_params : list value; rf_bbs : list bblock }.
(** libkoopa/src/raw/entities.rs:48-57 [RawProgram] *)
Record rprogram := RProgram { r_values : list value; r_funcs : list func }.
(** The tables of [RawProgramBuilder] (libkoopa/src/raw/builder.rs:15-23); [None]: a box that
    is allocated but not filled in *)
Record heap := Heap {
  h_vals : gmap N (option rvalue);
  h_bbs : gmap N (option rblock);
  h_funcs : gmap N (option rfunc);
}.
(** libkoopa/src/raw/builder.rs:27-29 [RawProgramBuilder::new] *)
Definition heap0 : heap := Heap ∅ ∅ ∅.
(** [HashMap::insert] on the tables (libkoopa/src/raw/builder.rs:202,236,272) *)
Definition put_val (h : heap) v x := Heap (<[v := x]> (h_vals h)) (h_bbs h) (h_funcs h).
(** libkoopa/src/raw/builder.rs:236 *)
Definition put_bb (h : heap) b x := Heap (h_vals h) (<[b := x]> (h_bbs h)) (h_funcs h).
(** libkoopa/src/raw/builder.rs:202 *)
Definition put_fun (h : heap) f x := Heap (h_vals h) (h_bbs h) (<[f := x]> (h_funcs h)).

(** ** The builder *)
(** What is built next (the implementors of [BuildRaw] that have a table,
    libkoopa/src/raw/builder.rs:193,227,263) *)
Inductive task := TVal (v : value) | TBlk (b : bblock) | TFunc (f : func).
(** The structures that a value refers to, in the order in which they are built
    (libkoopa/src/raw/builder.rs:312-508) *)
Definition kind_tasks (k : vkind) : list task :=
  match k with
  | KInteger _ | KZeroInit | KUndef | KFuncArg _ | KBlockArg _ | KAlloc => []
  | KAggregate l => TVal <$> l
  | KGlobalAlloc v | KLoad v => [TVal v]
  | KStore v d => [TVal v; TVal d]
  | KGetPtr s i | KGetElemPtr s i => [TVal s; TVal i]
  | KBinary _ l r => [TVal l; TVal r]
  | KBranch c t f ta fa => [TVal c; TBlk t; TBlk f] ++ (TVal <$> ta) ++ (TVal <$> fa)
  | KJump t a => TBlk t :: (TVal <$> a)
  | KCall f a => TFunc f :: (TVal <$> a)
  | KReturn None => []
  | KReturn (Some v) => [TVal v]
  end.
(** [CString::new] fails on a zero byte (libkoopa/src/raw/builder.rs:133). *)
Definition c_string (s : string) : rr unit :=
  if bool_decide (Ascii.zero ∈ String.list_ascii_of_string s) then Panics else Done tt.
(** libkoopa/src/raw/builder.rs:149-158: a name, or a null pointer *)
Definition c_name (o : option string) : rr unit :=
  match o with Some s => c_string s | None => Done tt end.

(** Building one after another ([iter_into_raw], libkoopa/src/raw/builder.rs:94-114, and the
    fields of structures) *)
Fixpoint each {S} (go : task → S → rr S) (l : list task) (s : S) : rr S :=
  match l with [] => Done s | t :: l' => s1 ← go t s; each go l' s1 end.

(** The tables, and the users of the values that are built
    ([value_used_by] of [ProgramInfo], libkoopa/src/raw/builder.rs:64-70) *)
Definition bst : Type := heap * gmap N (list value).
(** Value::build, BasicBlock::build, Function::build and the builds of their data
    (libkoopa/src/raw/builder.rs:193-336).  [ord] is the order in which a [HashSet] is
    iterated; [cf] is [cur_func]; [cur_bb] is always the block that is built. *)
Fixpoint raw_build (ord : gset N → list N) (p : program) (n : nat) (cf : option fdata) (t : task) (s : bst) : rr bst :=
  match n with
  | O => Deep
  | S n =>
      let '(h, us) := s in
      match t with
      | TVal v =>
          match h_vals h !! v with
          | Some _ => Done s
          | None =>
              d ← need (if is_global_id v then p_values p !! v else fd ← cf; d_values (f_dfg fd) !! v);
              c_name (v_name d) ≫= λ _,
              '(h1, us1) ← each (raw_build ord p n cf) (kind_tasks (v_kind d)) (put_val h v None, us);
              Done (put_val h1 v (Some (RValue (v_ty d) (v_name d) [] (v_kind d))),
                    <[v := ord (v_used_by d)]> us1)
          end
      | TBlk b =>
          match h_bbs h !! b with
          | Some _ => Done s
          | None =>
              fd ← need cf;
              d ← need (d_bbs (f_dfg fd) !! b);
              c_name (bb_name d) ≫= λ _,
              s1 ← each (raw_build ord p n cf) (TVal <$> bb_params d) (put_bb h b None, us);
              s2 ← each (raw_build ord p n cf) (TVal <$> ord (bb_used_by d)) s1;
              is ← need (find_bb b (l_bbs (f_layout fd)));
              '(h3, us3) ← each (raw_build ord p n cf) (TVal <$> is) s2;
              Done (put_bb h3 b (Some (RBlock (bb_name d) (bb_params d) (ord (bb_used_by d)) is)), us3)
          end
      | TFunc f =>
          match h_funcs h !! f with
          | Some _ => Done s
          | None =>
              fd ← need (p_funcs p !! f);
              c_string (f_name fd) ≫= λ _,
              s1 ← each (raw_build ord p n (Some fd)) (TVal <$> f_params fd) (put_fun h f None, us);
              '(h2, us2) ← each (raw_build ord p n (Some fd)) (TBlk <$> (l_bbs (f_layout fd)).*1) s1;
              Done (put_fun h2 f (Some (RFunc (f_ty fd) (f_name fd) (f_params fd) ((l_bbs (f_layout fd)).*1))), us2)
          end
      end
  end.
(** The loops over the values at the end of [build_on] (libkoopa/src/raw/builder.rs:39-59):
    panics if a user of a value was not built *)
Definition fill_used_by (s : bst) : rr heap :=
  let h : heap := s.1 in
  let us : gmap N (list value) := s.2 in
  if forallb (λ e : N * option rvalue, match us !! e.1 with
               | Some l => forallb (λ u : N, match h_vals h !! u with Some _ => true | None => false end) l
               | None => false end) (map_to_list (h_vals h))
  then
    Done (Heap (map_imap (λ (v : N) (x : option rvalue),
                   Some ((λ x, RValue (rv_ty x) (rv_name x) (default [] (us !! v)) (rv_kind x)) <$> x))
                 (h_vals h)) (h_bbs h) (h_funcs h))
  else Panics.
(** libkoopa/src/raw/builder.rs:32-61 [build_on], for a new builder *)
Definition build_on (ord : gset N → list N) (n : nat) (p : program) : rr (rprogram * heap) :=
  s1 ← each (raw_build ord p n None) (TVal <$> p_inst_layout p) (heap0, ∅);
  s2 ← each (raw_build ord p n None) (TFunc <$> p_func_layout p) s1;
  h ← fill_used_by s2;
  Done (RProgram (p_inst_layout p) (p_func_layout p), h).

(** ** The generator *)
(** libkoopa/src/raw/generator.rs:51-55 [FunctionInfo] *)
Record ginfo := GInfo { gi_func : func; gi_bbs : gmap N bblock; gi_vals : gmap N value }.
(** libkoopa/src/raw/generator.rs:23-28 [ProgramInfo], and the program that is generated *)
Record gst := GSt { g_world : world; g_vals : gmap N value; g_funcs : gmap N ginfo; g_cur : option func }.
(** Updates of the program and of [cur_func] (libkoopa/src/raw/generator.rs:73,266,270) *)
Definition set_gworld (w : world) (s : gst) : gst := GSt w (g_vals s) (g_funcs s) (g_cur s).
(** libkoopa/src/raw/generator.rs:266,270 *)
Definition set_gcur (c : option func) (s : gst) : gst := GSt (g_world s) (g_vals s) (g_funcs s) c.
(** [info.funcs.insert] and updates through [cur_func_info_mut]
    (libkoopa/src/raw/generator.rs:46-48,263) *)
Definition put_info (f : func) (i : ginfo) (s : gst) : gst := GSt (g_world s) (g_vals s) (<[f := i]> (g_funcs s)) (g_cur s).
(** libkoopa/src/raw/generator.rs:41-43 [cur_func_info]: panics if there is none *)
Definition cur_info (s : gst) : rr (func * ginfo) :=
  need (c ← g_cur s; i ← g_funcs s !! c; Some (c, i)).

(** The macro [builder!] (libkoopa/src/raw/generator.rs:69-77) *)
Definition g_local (r : breq) (s : gst) : rr (value * gst) :=
  '(_, i) ← cur_info s;
  '(v, w) ← need (w_new_local (gi_func i) r (g_world s));
  Done (v, set_gworld w s).
(** [program.new_value()] (libkoopa/src/raw/generator.rs:83,407) *)
Definition g_global (r : breq) (s : gst) : rr (value * gst) :=
  '(v, w) ← need (w_new_global r (g_world s));
  Done (v, set_gworld w s).
(** The macro [build_value!] (libkoopa/src/raw/generator.rs:79-91) *)
Definition g_const (r : breq) (s : gst) : rr (value * gst) :=
  match g_cur s with None => g_global r s | Some _ => g_local r s end.

(** Values of slices ([RawSliceIter::generate], libkoopa/src/raw/generator.rs:93-122) *)
Fixpoint g_each (go : task → gst → rr (N * gst)) (l : list task) (s : gst) : rr (list N * gst) :=
  match l with
  | [] => Done ([], s)
  | t :: l' => '(x, s1) ← go t s; '(xs, s2) ← g_each go l' s1; Done (x :: xs, s2)
  end.
(** The value for a raw kind (libkoopa/src/raw/generator.rs:339-370,385-522) *)
Definition gen_kind (go : task → gst → rr (N * gst)) (t : ty) (k : vkind) (s : gst) : rr (value * gst) :=
  match k with
  | KInteger z => g_const (BInteger z) s
  | KZeroInit => g_const (BZeroInit t) s
  | KUndef => g_const (BUndef t) s
  | KAggregate l => '(l', s1) ← g_each go (TVal <$> l) s; g_const (BAggregate l') s1
  | KFuncArg _ | KBlockArg _ => Panics
  | KAlloc => match t with TPtr b => g_local (BAlloc b) s | _ => Panics end
  | KGlobalAlloc v => '(v', s1) ← go (TVal v) s; g_global (BGlobalAlloc v') s1
  | KLoad v => '(v', s1) ← go (TVal v) s; g_local (BLoad v') s1
  | KStore v d =>
      '(v', s1) ← go (TVal v) s; '(d', s2) ← go (TVal d) s1; g_local (BStore v' d') s2
  | KGetPtr x i =>
      '(x', s1) ← go (TVal x) s; '(i', s2) ← go (TVal i) s1; g_local (BGetPtr x' i') s2
  | KGetElemPtr x i =>
      '(x', s1) ← go (TVal x) s; '(i', s2) ← go (TVal i) s1; g_local (BGetElemPtr x' i') s2
  | KBinary op l r =>
      '(l', s1) ← go (TVal l) s; '(r', s2) ← go (TVal r) s1; g_local (BBinary op l' r') s2
  | KBranch c t f ta fa =>
      '(c', s1) ← go (TVal c) s; '(t', s2) ← go (TBlk t) s1; '(f', s3) ← go (TBlk f) s2;
      '(ta', s4) ← g_each go (TVal <$> ta) s3; '(fa', s5) ← g_each go (TVal <$> fa) s4;
      g_local (BBranchArgs c' t' f' ta' fa') s5
  | KJump t a =>
      '(t', s1) ← go (TBlk t) s; '(a', s2) ← g_each go (TVal <$> a) s1; g_local (BJumpArgs t' a') s2
  | KCall f a =>
      '(f', s1) ← go (TFunc f) s; '(a', s2) ← g_each go (TVal <$> a) s1; g_local (BCall f' a') s2
  | KReturn None => g_local (BRet None) s
  | KReturn (Some v) => '(v', s1) ← go (TVal v) s; g_local (BRet (Some v')) s1
  end.
(** Naming and remembering a value (libkoopa/src/raw/generator.rs:371-381) *)
Definition keep_value (v : value) (name : option string) (x : value) (s : gst) : rr gst :=
  match g_cur s with
  | None =>
      w ← need (w_name_global x name (g_world s));
      Done (GSt w (<[v := x]> (g_vals s)) (g_funcs s) None)
  | Some _ =>
      '(c, i) ← cur_info s;
      w ← need (w_name_local (gi_func i) x name (g_world s));
      Done (put_info c (GInfo (gi_func i) (gi_bbs i) (<[v := x]> (gi_vals i))) (set_gworld w s))
  end.
(** Name and type of the parameters of a function or a block
    (libkoopa/src/raw/generator.rs:250-254,288-295) *)
Fixpoint raw_params (h : heap) (l : list value) : rr (list (option string * ty)) :=
  match l with
  | [] => Done []
  | v :: l' => x ← need (mjoin (h_vals h !! v)); r ← raw_params h l'; Done ((rv_name x, rv_ty x) :: r)
  end.
(** [collect] of pairs into a map (libkoopa/src/raw/generator.rs:257-263,305-308): later
    entries win *)
Definition zip_into (vs xs : list N) (m : gmap N N) : gmap N N :=
  foldl (λ m e, <[e.1 := e.2]> m) m (zip vs xs).
(** The blocks of a function (libkoopa/src/raw/generator.rs:267-269) and the instructions of a
    block (309-315) *)
Fixpoint gen_insts (go : task → gst → rr (N * gst)) (b : bblock) (l : list value) (s : gst) : rr gst :=
  match l with
  | [] => Done s
  | v :: l' =>
      '(x, s1) ← go (TVal v) s;
      '(_, i) ← cur_info s1;
      w ← need (w_push_inst (gi_func i) b x (g_world s1));
      gen_insts go b l' (set_gworld w s1)
  end.
(** [generate] of RawValue (libkoopa/src/raw/generator.rs:324-383), RawBasicBlock (279-322)
    and RawFunction (230-277) *)
Fixpoint raw_gen (h : heap) (n : nat) (t : task) (s : gst) : rr (N * gst) :=
  match n with
  | O => Deep
  | S n =>
      let go := raw_gen h n in
      match t with
      | TVal v =>
          found ← match g_vals s !! v with
                  | Some x => Done (Some x)
                  | None => match g_cur s with
                            | None => Done None
                            | Some _ => '(_, i) ← cur_info s; Done (gi_vals i !! v)
                            end
                  end;
          match found with
          | Some x => Done (x, s)
          | None =>
              d ← need (mjoin (h_vals h !! v));
              '(x, s1) ← gen_kind go (rv_ty d) (rv_kind d) s;
              s2 ← keep_value v (rv_name d) x s1;
              Done (x, s2)
          end
      | TBlk b =>
          '(c, i) ← cur_info s;
          match gi_bbs i !! b with
          | Some x => Done (x, s)
          | None =>
              d ← need (mjoin (h_bbs h !! b));
              ps ← raw_params h (rb_params d);
              '(x, w1) ← need (w_new_bb (gi_func i) (rb_name d) ps (g_world s));
              w2 ← need (w_push_bb (gi_func i) x w1);
              xs ← need (fd ← p_funcs (w_prog w2) !! gi_func i; bb_params <$> d_bbs (f_dfg fd) !! x);
              let i' := GInfo (gi_func i) (<[b := x]> (gi_bbs i)) (zip_into (rb_params d) xs (gi_vals i)) in
              s1 ← gen_insts go x (rb_insts d) (put_info c i' (set_gworld w2 s));
              Done (x, s1)
          end
      | TFunc f =>
          match g_funcs s !! f with
          | Some i => Done (gi_func i, s)
          | None =>
              d ← need (mjoin (h_funcs h !! f));
              match rf_ty d with
              | TFun ts r =>
                  '(x, w1) ← match rf_bbs d with
                    | [] => need (w_new_func_decl (rf_name d) ts r (g_world s))
                    | _ =>
                        if decide (length (rf_params d) = length ts) then
                          ps ← raw_params h (rf_params d);
                          need (w_new_func_def (rf_name d) (zip ps.*1 ts) r (g_world s))
                        else Fails EFuncParamNumMismatch
                    end;
                  xs ← need (f_params <$> p_funcs (w_prog w1) !! x);
                  let s1 := put_info f (GInfo x ∅ (zip_into (rf_params d) xs ∅)) (set_gworld w1 s) in
                  match rf_bbs d with
                  | [] => Done (x, s1)
                  | bs =>
                      '(_, s2) ← g_each go (TBlk <$> bs) (set_gcur (Some f) s1);
                      Done (x, set_gcur (g_cur s) s2)
                  end
              | _ => Fails ETypeMismatch
              end
          end
      end
  end.
(** libkoopa/src/raw/generator.rs:17-21 [generate_program], 199-211: with the identifiers that
    the process has given so far *)
Definition generate_program (i : ids) (n : nat) (r : rprogram) (h : heap) : rr (program * ids) :=
  '(_, s1) ← g_each (raw_gen h n) (TVal <$> r_values r) (GSt (World i program0) ∅ ∅ None);
  '(_, s2) ← g_each (raw_gen h n) (TFunc <$> r_funcs r) s1;
  Done (w_prog (g_world s2), w_ids (g_world s2)).
