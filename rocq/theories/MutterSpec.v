(** What the lines on the error stream say to a reader. *)
From Coq Require Import Ascii String NArith List Bool.
From Verif Require Import Prelude InstrModel ComponentModel CalcModel BurnModel EvalModel GripeModel PrintModel TalkModel ReportModel WholeModel WordsSpec HeardSpec MutterModel.
Import ListNotations.
Local Open Scope N_scope.

Inductive overheard :=
| OHead | OStep (word : list N) | OBracket | OToken (text : list N) | OBetween
| OColon | OUnknown (name : list N) | ONotNumbers
| OScope | OUnimplemented (text : list N)
| OFunction | OCode (part local code : N).
Inductive mutters : list N -> overheard -> Prop :=
| MuHead : mutters (lit "invalid token.") OHead
| MuStep : forall w, mutters (lit "Invalid script step: " ++ w) (OStep w)
| MuBracket : mutters (lit "Expected '{' after loop.") OBracket
| MuToken : forall t, mutters (lit "Invalid token in script: " ++ t) (OToken t)
| MuBetween : mutters (lit "Unrecognized token") OBetween
| MuColon : mutters (lit "invalid ':' found.") OColon
| MuUnknown : forall n, mutters (lit "Unknown variable: " ++ n) (OUnknown n)
| MuNotNumbers : mutters (lit "Unable to add non-number types.") ONotNumbers
| MuScope : mutters (lit "invalid scope resultion. Please check that loop and if blocks are terminated correctly.") OScope
| MuUnimplemented : forall t, mutters (lit "Unimplemented instruction: " ++ t) (OUnimplemented t)
| MuFunction : mutters (lit "unrecognized intrinsic.") OFunction
| MuCode : forall wp p wl l wc c, numeral 10 wp p -> numeral 10 wl l -> numeral 16 wc c ->
    mutters (lit "Unknown code @ B:" ++ wp ++ lit ", O:" ++ wl ++ lit ": " ++ wc) (OCode p l c).
Definition overheard_as (text : list N) (os : list overheard) : Prop := exists ls, text_lines text ls /\ Forall2 mutters ls os.

(** The texts of derive(Debug) are on one line, with line feeds inside of strings written as two other characters. *)
Definition debugs_ok (D : debugs) : Prop := (forall t, one_line (of_token D t)) /\ (forall op, one_line (of_instruction D op)).

(** What there is to be overheard of what is shown (C100). *)
Definition to_overhear {E : fenv} (D : debugs) (x : shown E) : list overheard :=
  match x with
  | WComplaint GHead => [OHead]
  | WComplaint (GStep w) => [OStep w]
  | WComplaint GBracket => [OBracket]
  | WComplaint (GToken t) => [OToken (of_token D t)]
  | WComplaint GBetween => [OBetween]
  | WTests (OfCalculation _ SColon) => [OColon]
  | WTests (OfCalculation _ (SUnknown n)) => [OUnknown n]
  | WTests (OfCalculation _ SNotNumbers) => [ONotNumbers]
  | WTests (OfRunner _ LScope) => [OScope]
  | WTests (OfRunner _ (LUnimplemented op)) => [OUnimplemented (of_instruction D op)]
  | WDecompiler RFunction => [OFunction]
  | WDecompiler (RCode p l c) => [OCode p l c]
  | _ => []
  end.

(** Lines whose texts are on one line. *)
Definition terse {E : fenv} (x : shown E) : Prop :=
  match x with
  | WComplaint (GStep w) => one_line w
  | WTests (OfCalculation _ (SUnknown n)) => one_line n
  | _ => True
  end.
