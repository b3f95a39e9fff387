(** What it means to build a list of syntax trees, one after the other, without an error
    being reported. *)
From Verif Require Import Base ParserModel FrontModel.

Inductive builds : bstate → list atop → bstate → Prop :=
  | builds_nil b : builds b [] b
  | builds_cons b t b1 ts b2 :
      build_on t b = (LexerModel.Rok tt, b1) → b_errs b1 = b_errs b → builds b1 ts b2 →
      builds b (t :: ts) b2.
