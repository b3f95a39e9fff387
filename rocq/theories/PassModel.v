(** Model of the pass manager, koopa/src/opt/passman.rs and koopa/src/opt/pass.rs. *)
From Verif Require Import Base IdModel TypeModel IrModel.

(** koopa/src/opt/pass.rs:13-34 [Pass], [ModulePass], [FunctionPass].  [S] is everything
    a pass can reach besides its argument: its own fields, the thread's id counters, ...;
    [None] is a panic. *)
Inductive pass (S : Type) :=
  | PModule (run_on : S → program → option (S * program))
  | PFunction (run_on : S → func → fdata → option (S * fdata)).
Arguments PModule {S}. Arguments PFunction {S}.

(** The loop of koopa/src/opt/passman.rs:32-34 over [program.funcs_mut()], visited in the
    order [fs]. *)
Fixpoint run_on_funcs {S} (run_on : S → func → fdata → option (S * fdata))
    (fs : list func) (s : S) (p : program) : option (S * program) :=
  match fs with
  | [] => Some (s, p)
  | f :: fs' =>
      d ← p_funcs p !! f;
      '(s', d') ← run_on s f d;
      run_on_funcs run_on fs' s'
        (Program (p_values p) (p_inst_layout p) (<[f := d']> (p_funcs p)) (p_func_tys p)
                 (p_func_layout p))
  end.

(** koopa/src/opt/passman.rs:27-38 [PassManager::run_passes].  [order] is the iteration
    order of the hash map of functions; the theorems ask only that it lists the keys. *)
Fixpoint run_passes {S} (order : gmap N fdata → list func) (ps : list (pass S))
    (s : S) (p : program) : option (S * program) :=
  match ps with
  | [] => Some (s, p)
  | PModule run_on :: ps' =>
      '(s', p') ← run_on s p; run_passes order ps' s' p'
  | PFunction run_on :: ps' =>
      '(s', p') ← run_on_funcs run_on (order (p_funcs p)) s p; run_passes order ps' s' p'
  end.

(** koopa/src/opt/passman.rs:17-24,42-46 [PassManager::new], [register], [From]: the list
    of registered passes after registering [ps] in turn. *)
Definition register_all {S} (ps : list (pass S)) : list (pass S) :=
  fold_left (λ l p, l ++ [p]) ps [].
