(** Model of koopa/examples/opt/main.rs: the example optimizer.

    Simplification: the files are a reader and a text; the iteration order [order] of the hash
    map of functions is a parameter. *)
From Verif Require Import Base IdModel TypeModel IrModel WorldModel LexerModel FrontModel DriverModel KoopaModel DceModel
  FoldModel.

(** koopa/examples/opt/main.rs:49-52, koopa/src/opt/passman.rs:27-38: constant folding on all
    functions, then dead code elimination on all functions *)
Definition opt_passes (fuel : nat) (checks : bool) (fo : fold_orders) (o : dce_orders)
    (order : gmap N fdata → list func) (i : ids) (p : program) : dres program :=
  dthen (fold_pass fuel checks fo (order (p_funcs p)) i p) (λ x,
  dthen (dce_pass o (order (p_funcs x.2)) ∅ x.2) (λ y, Dok y.2)).

(** koopa/examples/opt/main.rs:35-56 [try_main]: the text that is written, [Error::Parse], a
    panic, or a bound of the model is exceeded *)
Inductive opt_outcome :=
  | OptText (s : string)
  | OptParse
  | OptPanic
  | OptFuel.

(** koopa/examples/opt/main.rs:47-55 [try_main], without the files *)
Definition opt_main (fuel : nat) (checks : bool) (fo : fold_orders) (o : dce_orders)
    (order : gmap N fdata → list func) (r : list revent) : opt_outcome :=
  match read_program r with
  | (Rok p, _, b) =>
      match opt_passes fuel checks fo o order (w_ids (b_world b)) p with
      | Dok p' =>
          match print_program p' with
          | Rok s => OptText s
          | Rfuel => OptFuel
          | _ => OptPanic
          end
      | Dpanic => OptPanic
      | Dfuel => OptFuel
      end
  | (Rerr _, _, _) => OptParse
  | (Rpanic, _, _) => OptPanic
  | (Rfuel, _, _) => OptFuel
  end.
