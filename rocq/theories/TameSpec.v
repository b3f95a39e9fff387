(** What the front end does not check (C52).  Nothing here mentions the functions of the front
    end. *)
From Verif Require Import Base ParserModel FlowSpec FaithSpec.

(** The function [n] of [ts] has [k] parameters. *)
Definition arity_in (ts : list atop) (n : string) (k : nat) : Prop :=
  (∃ ps r, TFunDecl n ps r ∈ ts ∧ k = length ps) ∨
  (∃ ps r bbs, TFunDef n ps r bbs ∈ ts ∧ k = length ps).
(** No call passes more arguments than the function has parameters, no jump or branch more than
    the block has. *)
Definition no_surplus (ts : list atop) (bbs : list ablock) (st : astmt) : Prop :=
  let block n (args : list aval) := ∀ b, b ∈ bbs → b_name b = n → length args ≤ length (b_params b) in
  match st with
  | SDef _ (ECall f args) | SCall f args => ∀ k, arity_in ts f k → length args ≤ k
  | SBr _ t ta f fa => block t ta ∧ block f fa
  | SJump t args => block t args
  | _ => True
  end.
(** ... and none passes fewer. *)
Definition no_shortage (ts : list atop) (bbs : list ablock) (st : astmt) : Prop :=
  let block n (args : list aval) := ∀ b, b ∈ bbs → b_name b = n → length (b_params b) ≤ length args in
  match st with
  | SDef _ (ECall f args) | SCall f args => ∀ k, arity_in ts f k → k ≤ length args
  | SBr _ t ta f fa => block t ta ∧ block f fa
  | SJump t args => block t args
  | _ => True
  end.
(** The definition [t] after the definitions [pre]: aggregates are written for arrays only; no
    parameter of a function has the name of a variable that was defined before; and in the
    blocks that can be reached there are no surplus arguments, and no parameters with the name
    of a parameter of the function. *)
Definition tame_top (pre : list atop) (t : atop) : Prop :=
  match t with
  | TGlobal _ a i => init_fits a i
  | TFunDef _ ps _ bbs =>
      (∀ x, x ∈ map fst ps → x ∉ concat (map gvar_names pre)) ∧
      ∀ first b, head bbs = Some first → b ∈ bbs → reachable bbs first b →
        (∀ x, x ∈ param_names b → x ∉ map fst ps) ∧
        Forall (no_surplus (pre ++ [t]) bbs) (b_stmts b)
  | _ => True
  end.
Definition tame (ts : list atop) : Prop := ∀ pre t post, ts = pre ++ t :: post → tame_top pre t.
