(** What names should be: independent vocabulary for C17 and C18, over the observable
    history of requests and answers. *)
From Verif Require Import Base NameModel.

(** The entities that receive names; every call for a temporary name makes a new
    (anonymous) entity. *)
Inductive entity := EFunc (p : N) | EGlobal (p : N) | ELocal (p : N) | EBlock (p : N) | ETemp (i : nat).

Definition is_block (e : entity) : bool := match e with EBlock _ => true | _ => false end.
Definition is_scoped (e : entity) : bool :=
  match e with ELocal _ | EBlock _ => true | _ => false end.

(** Entity asked about by request number [i]. *)
Definition asked (i : nat) (r : nreq) : option entity :=
  match r with
  | QFunc p _ => Some (EFunc p)
  | QBB p _ => Some (EBlock p)
  | QGlobal p _ => Some (EGlobal p)
  | QLocal p _ => Some (ELocal p)
  | QTemp => Some (ETemp i)
  | _ => None
  end.

(** The names of the entities alive after a history of requests and answers: functions,
    global values and temporaries live for ever, local values and blocks until the end
    of the function. *)
Fixpoint live (i : nat) (h : list (nreq * option string)) (l : list (entity * string))
    : list (entity * string) :=
  match h with
  | [] => l
  | (r, a) :: h' =>
      live (S i) h'
        match r with
        | QEnter | QExit => filter (λ x, is_scoped x.1 = false) l
        | _ => match asked i r, a with Some e, Some s => (e, s) :: l | _, _ => l end
        end
  end.

Notation live_names h := (live 0 h []).

(** Local values and blocks are asked about inside functions only. *)
Fixpoint well_scoped (in_func : bool) (rs : list nreq) : bool :=
  match rs with
  | [] => true
  | QEnter :: rs' => well_scoped true rs'
  | QExit :: rs' => well_scoped false rs'
  | (QLocal _ _ | QBB _ _) :: rs' => in_func && well_scoped in_func rs'
  | _ :: rs' => well_scoped in_func rs'
  end.

(** The user-given name in a request. *)
Definition given (r : nreq) : option string :=
  match r with
  | QFunc _ n => Some n
  | QBB _ n | QGlobal _ n | QLocal _ n => n
  | _ => None
  end.

(** The prefixes in force during a history: the default one and those set. *)
Definition prefixes (rs : list nreq) : list prefix :=
  PDefault :: omap (λ r, match r with QPrefix p => Some p | _ => None end) rs.

(** [s] looks like a temporary name under one of the prefixes. *)
Definition temp_like (ps : list prefix) (s : string) : Prop :=
  ∃ p k, p ∈ ps ∧ s = temp_name p k.

(** Temporary names with different numbers are different, also across prefixes. *)
Definition temps_distinct (ps : list prefix) : Prop :=
  ∀ p p' k k', p ∈ ps → p' ∈ ps → temp_name p k = temp_name p' k' → k = k'.

(** No user-given name of the history, prefixed, also when numbered, looks like a
    temporary name. *)
Definition no_temp_like (ps : list prefix) (rs : list nreq) : Prop :=
  ∀ r n p s, r ∈ rs → given r = Some n → p ∈ ps → prefix_name p n = Some s →
    ¬ temp_like ps s ∧ ∀ j : N, ¬ temp_like ps (s +:+ "_" +:+ pretty j).
