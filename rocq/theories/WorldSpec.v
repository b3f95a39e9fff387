(** Histories of API calls: the discipline under which use lists stay exact. *)
From Verif Require Import Base IdModel TypeModel IrModel BuilderModel WorldModel UsesSpec DfgSpec.
From Coq Require Sorted.

(** Is this call a creation of a global value? *)
Definition creates_global (o : op) : bool :=
  match o with ONewGlobal _ | ONewGlobalRaw _ _ _ => true | _ => false end.

(** Number of global values created by a history. *)
Definition globals_created (os : list op) : N :=
  N.of_nat (length (filter (λ o, creates_global o = true) os)).

(** Client obligations of single calls:
    - a block is removed only while its parameters are still operand-free values
      (they are created as such; only [replace_value_with]/[update_value] can change it);
    - a raw global value has no target blocks (there is no block it could mean). *)
Definition tidy (o : op) (w : world) : Prop :=
  match o with
  | ORemoveBB f b => ∀ fd bd q d,
      p_funcs (w_prog w) !! f = Some fd → blks fd !! b = Some bd → q ∈ bb_params bd →
      vals fd !! q = Some d → operands (v_kind d) = [] ∧ targets (v_kind d) = []
  | ONewGlobalRaw _ _ k => targets k = []
  | _ => True
  end.

(** Obligation for [remove_func]: the function uses no global value. *)
Definition releases_globals (o : op) (w : world) : Prop :=
  match o with
  | ORemoveFunc f => ∀ fd u v,
      p_funcs (w_prog w) !! f = Some fd → uses (vals fd) u v → p_values (w_prog w) !! v = None
  | _ => True
  end.

(** A predicate on calls holds for every call of a history, at the time of the call. *)
Fixpoint throughout (P : op → world → Prop) (os : list op) (w : world) : Prop :=
  match os with
  | [] => True
  | o :: os' => P o w ∧ ∀ w', step o w = Some w' → throughout P os' w'
  end.

(** Programs built by a history that meets the obligations [tidy] (functions may be
    removed freely). *)
Definition reachable (w : world) : Prop :=
  ∃ os, run os world0 = Some w ∧ throughout tidy os world0 ∧
    (globals_created os < local_value_id_starts_from)%N.

(** The two layouts list exactly the live entities, each once, in creation order
    (handles are handed out in increasing order, see C01). *)
Definition layouts_exact (p : program) : Prop :=
  Sorted.StronglySorted N.lt (p_inst_layout p) ∧
  (∀ v, v ∈ p_inst_layout p ↔
     ∃ d, p_values p !! v = Some d ∧ ∃ init, v_kind d = KGlobalAlloc init) ∧
  Sorted.StronglySorted N.lt (p_func_layout p) ∧
  (∀ f, f ∈ p_func_layout p ↔ is_Some (p_funcs p !! f)) ∧
  (∀ f, p_func_tys p !! f = f_ty <$> p_funcs p !! f).
