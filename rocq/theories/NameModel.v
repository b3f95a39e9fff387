(** Model of the name manager, koopa/src/back/generator.rs:17-241. *)
From Verif Require Import Base.
From stdpp Require Export pretty.

(** koopa/src/back/generator.rs:191-211 [Prefix] *)
Inductive prefix :=
  | PDefault
  | PCustom (named temp : string) (max_len : option nat).

(** Is this byte a UTF-8 continuation byte (so that the position before it is not a
    character boundary)?  Used for the panics of [str] slicing
    (koopa/src/back/generator.rs:213-233). *)
Definition is_continuation (c : ascii) : bool :=
  let n := N_of_ascii c in ((128 <=? n) && (n <? 192))%N.

(** [str::is_char_boundary] (inside koopa/src/back/generator.rs:227 [truncate]) *)
Definition is_boundary (s : string) (n : nat) : bool :=
  match String.get n s with Some c => negb (is_continuation c) | None => true end.

(** [String::truncate] (koopa/src/back/generator.rs:227): panics if the new length is not on a character boundary. *)
Definition truncate (n : nat) (s : string) : option string :=
  if (String.length s <=? n)%nat then Some s
  else if is_boundary s n then Some (String.substring 0 n s) else None.

(** koopa/src/back/generator.rs:215-234 [Prefix::name]; [&name[1..]] panics if the name
    is empty or its first character is longer than one byte. *)
Definition prefix_name (p : prefix) (name : string) : option string :=
  match p with
  | PDefault => Some name
  | PCustom named temp max_len =>
      n ← match name with
          | String c rest =>
              if Ascii.eqb c "@"%char then Some (named +:+ rest)
              else if is_boundary name 1 then Some (temp +:+ rest) else None
          | EmptyString => None
          end;
      match max_len with Some l => truncate l n | None => Some n end
  end.

(** koopa/src/back/generator.rs:237-242 [Prefix::temp_name] *)
Definition temp_name (p : prefix) (id : N) : string :=
  match p with
  | PDefault => "%" +:+ pretty id
  | PCustom _ temp _ => temp +:+ pretty id
  end.

(** koopa/src/back/generator.rs:20-30 [NameManager].  Entities are identified by the
    address of their data; here by a number per kind of entity.  [next_id] is a [usize];
    that 2^64 temporary names are never handed out is an assumption. *)
Record nm := Nm {
  nm_next : N;
  nm_in_func : bool;
  nm_prefix : prefix;
  nm_global_names : gset string;
  nm_bb_names : gset string;
  nm_gvars : gmap N string;
  nm_funcs : gmap N string;
  nm_bbs : gmap N string;
  nm_values : gmap N string;
}.

(** koopa/src/back/generator.rs:34-36,180-186 [NameManager::new] *)
Definition nm0 : nm := Nm 0 false PDefault ∅ ∅ ∅ ∅ ∅ ∅.

(** koopa/src/back/generator.rs:44-51 [enter_func_scope] *)
Definition enter_func_scope (m : nm) : option nm :=
  if nm_in_func m then None
  else Some (Nm (nm_next m) true (nm_prefix m) (nm_global_names m) (nm_bb_names m)
               (nm_gvars m) (nm_funcs m) (nm_bbs m) ∅).

(** koopa/src/back/generator.rs:59-70 [exit_func_scope]: the names of the local values
    are released, the map of local values is kept until the next function. *)
Definition exit_func_scope (m : nm) : option nm :=
  if nm_in_func m then
    Some (Nm (nm_next m) false (nm_prefix m)
            (nm_global_names m ∖ list_to_set (map snd (map_to_list (nm_values m)))) ∅
            (nm_gvars m) (nm_funcs m) ∅ (nm_values m))
  else None.

(** koopa/src/back/generator.rs:73-75 [set_prefix] *)
Definition set_prefix (p : prefix) (m : nm) : nm :=
  Nm (nm_next m) (nm_in_func m) p (nm_global_names m) (nm_bb_names m)
     (nm_gvars m) (nm_funcs m) (nm_bbs m) (nm_values m).

(** The loop of koopa/src/back/generator.rs:168-174; the first [fuel] candidates. *)
Fixpoint next_free (fuel : nat) (name : string) (id : N) (names : gset string)
    : option string :=
  match fuel with
  | O => None
  | S f =>
      let new_name := name +:+ "_" +:+ pretty id in
      if decide (new_name ∈ names) then next_free f name (id + 1) names else Some new_name
  end.

(** koopa/src/back/generator.rs:156-177 [next_name_str], given the prefix and the name
    set.  The fuel is enough (theorem [next_free_ok]). *)
Definition next_name_str (p : prefix) (name : string) (names : gset string)
    : option (string * gset string) :=
  name ← prefix_name p name;
  if decide (name ∈ names) then
    n ← next_free (S (size names)) name 0 names;
    Some (n, {[n]} ∪ names)
  else Some (name, {[name]} ∪ names).

(** koopa/src/back/generator.rs:137-152 [next_name], given the prefix, the next id and
    the name set: name, next id and name set. *)
Definition next_name (p : prefix) (id : N) (name : option string) (names : gset string)
    : option (string * N * gset string) :=
  match name with
  | Some name => '(n, names') ← next_name_str p name names; Some (n, id, names')
  | None => let n := temp_name p id in Some (n, (id + 1)%N, {[n]} ∪ names)
  end.

(** koopa/src/back/generator.rs:78-87 [func_name] *)
Definition func_name (ptr : N) (name : string) (m : nm) : option (string * nm) :=
  match nm_funcs m !! ptr with
  | Some n => Some (n, m)
  | None =>
      '(n, names') ← next_name_str (nm_prefix m) name (nm_global_names m);
      Some (n, Nm (nm_next m) (nm_in_func m) (nm_prefix m) names' (nm_bb_names m)
                  (nm_gvars m) (<[ptr := n]> (nm_funcs m)) (nm_bbs m) (nm_values m))
  end.

(** koopa/src/back/generator.rs:90-99 [bb_name] *)
Definition bb_name_ (ptr : N) (name : option string) (m : nm) : option (string * nm) :=
  match nm_bbs m !! ptr with
  | Some n => Some (n, m)
  | None =>
      '(n, id', names') ← next_name (nm_prefix m) (nm_next m) name (nm_bb_names m);
      Some (n, Nm id' (nm_in_func m) (nm_prefix m) (nm_global_names m) names'
                  (nm_gvars m) (nm_funcs m) (<[ptr := n]> (nm_bbs m)) (nm_values m))
  end.

(** koopa/src/back/generator.rs:106-128 [value_name] (the part after the assertion) with
    [value_name_impl]; [galloc]: is the value a [GlobalAlloc]? *)
Definition value_name (galloc : bool) (ptr : N) (name : option string) (m : nm)
    : option (string * nm) :=
  match (if galloc then nm_gvars m else nm_values m) !! ptr with
  | Some n => Some (n, m)
  | None =>
      '(n, id', names') ← next_name (nm_prefix m) (nm_next m) name (nm_global_names m);
      Some (n, Nm id' (nm_in_func m) (nm_prefix m) names' (nm_bb_names m)
                  (if galloc then <[ptr := n]> (nm_gvars m) else nm_gvars m)
                  (nm_funcs m) (nm_bbs m)
                  (if galloc then nm_values m else <[ptr := n]> (nm_values m)))
  end.

(** koopa/src/back/generator.rs:131-133 [temp_value_name] *)
Definition temp_value_name (m : nm) : option (string * nm) :=
  '(n, id', names') ← next_name (nm_prefix m) (nm_next m) None (nm_global_names m);
  Some (n, Nm id' (nm_in_func m) (nm_prefix m) names' (nm_bb_names m)
              (nm_gvars m) (nm_funcs m) (nm_bbs m) (nm_values m)).

(** A request to the name manager (the public methods, koopa/src/back/generator.rs:44-134). *)
Inductive nreq :=
  | QEnter | QExit | QPrefix (p : prefix)
  | QFunc (ptr : N) (name : string)
  | QBB (ptr : N) (name : option string)
  | QGlobal (ptr : N) (name : option string)
  | QLocal (ptr : N) (name : option string)
  | QTemp.

(** Serve one request; the text returned, if the method returns one
    (dispatch over koopa/src/back/generator.rs:44-133). *)
Definition serve_name (r : nreq) (m : nm) : option (option string * nm) :=
  match r with
  | QEnter => m' ← enter_func_scope m; Some (None, m')
  | QExit => m' ← exit_func_scope m; Some (None, m')
  | QPrefix p => Some (None, set_prefix p m)
  | QFunc ptr n => '(s, m') ← func_name ptr n m; Some (Some s, m')
  | QBB ptr n => '(s, m') ← bb_name_ ptr n m; Some (Some s, m')
  | QGlobal ptr n => '(s, m') ← value_name true ptr n m; Some (Some s, m')
  | QLocal ptr n => '(s, m') ← value_name false ptr n m; Some (Some s, m')
  | QTemp => '(s, m') ← temp_value_name m; Some (Some s, m')
  end.

(** Serve a history of requests; the answers in order (sequence of the above,
    koopa/src/back/generator.rs:44-134). *)
Fixpoint serve_names (rs : list nreq) (m : nm) : option (list (nreq * option string) * nm) :=
  match rs with
  | [] => Some ([], m)
  | r :: rs' =>
      '(a, m1) ← serve_name r m;
      '(l, m2) ← serve_names rs' m1;
      Some ((r, a) :: l, m2)
  end.
