(** What the lines on the standard output say to a reader.  Numbers and lists are read by rules of their own, not by those of the program. *)
From Coq Require Import Ascii String NArith List Bool.
From Verif Require Import Prelude InstrModel ComponentModel CalcModel PrintModel TalkModel TraceModel ReportModel WholeModel WordsModel WordsSpec.
Import ListNotations.
Local Open Scope N_scope.

(** A number in base 10 or 16, without leading zeros. *)
Definition figure (d : N) : N := if d <? 10 then 48 + d else 87 + d.
Inductive numeral (base : N) : list N -> N -> Prop :=
| NuFigure : forall d, d < base -> numeral base [figure d] d
| NuMore : forall w n d, numeral base w n -> 0 < n -> d < base -> numeral base (w ++ [figure d]) (base * n + d).

(** A list of numbers in brackets. *)
Inductive further : list N -> list N -> Prop :=
| FuEnd : further [] []
| FuMore : forall w b ws bs, numeral 10 w b -> further ws bs -> further (lit ", " ++ w ++ ws) (b :: bs).
Inductive list_text : list N -> list N -> Prop :=
| LtNone : list_text (lit "[]") []
| LtSome : forall w b ws bs, numeral 10 w b -> further ws bs -> list_text (lit "[" ++ w ++ ws ++ lit "]") (b :: bs).

(** What a line can be about. *)
Inductive heard :=
| HRunning (test : list N) | HOutcome (test : list N) (pass : bool) | HPopping (script : list N) | HCalling (script : list N) | HAssertion (calculation : list N)
| HTree (text : list N)
| HKey (bytes : list N) | HValue (ins key : N) (val : list N) (len : N) | HDirectory (ins : N) (bytes : list N) | HTable (bytes : list N)
| HByte (b : N).
Inductive says (C : colours) : list N -> heard -> Prop :=
| SyRunning : forall t, says C (lit "Running test: " ++ t) (HRunning t)
| SyOutcome : forall l t p, outcome_line C l t p -> says C l (HOutcome t p)
| SyPopping : forall t, says C (lit "Popping script: " ++ t) (HPopping t)
| SyCalling : forall t, says C (lit "calling " ++ t) (HCalling t)
| SyAssertion : forall t, says C (red C ++ lit "Assertion failed" ++ again C ++ lit ": " ++ t ++ close C) (HAssertion t)
| SyTree : forall t, says C (lit "RESULT: Ok(" ++ t ++ lit ")") (HTree t)
| SyKey : forall w l, list_text w l -> says C (lit "Pushing " ++ w) (HKey l)
| SyValue : forall wi i wk k wv v wn n, numeral 10 wi i -> numeral 10 wk k -> list_text wv v -> numeral 10 wn n ->
    says C (lit "Ins: " ++ wi ++ lit " -> key " ++ wk ++ lit " :: " ++ wv ++ lit " :: len " ++ wn) (HValue i k v n)
| SyDirectory : forall wi i w l, numeral 16 wi i -> list_text w l -> says C (lit "Ins: " ++ wi ++ lit ", dir: " ++ w) (HDirectory i l)
| SyTable : forall w l, list_text w l -> says C (lit "pushing " ++ w) (HTable l)
| SyByte : forall w b, numeral 10 w b -> says C w (HByte b).
Definition heard_as (C : colours) (text : list N) (hs : list heard) : Prop := exists ls, text_lines text ls /\ Forall2 (says C) ls hs.

(** The code of red does not begin with a letter or a digit. *)
Definition codes_ok (C : colours) : Prop :=
  colours_ok C /\ forall c, hd_error (red C) = Some c -> ~ (48 <= c <= 57) /\ ~ (65 <= c <= 90) /\ ~ (97 <= c <= 122).

(** What there is to be heard of what is shown (C100): everything but dialogs, files, and what goes to the error stream. *)
Definition to_hear {E : fenv} (x : shown E) : list heard :=
  match x with
  | WTests (OfRunner _ (LRunning t)) => [HRunning t]
  | WTests (OfRunner _ (LOutcome t p)) => [HOutcome t p]
  | WTests (OfRunner _ (LPopping t)) => [HPopping t]
  | WTests (OfRunner _ (LCalling t)) => [HCalling t]
  | WTests (OfRunner _ (LAssertion t)) => [HAssertion t]
  | WTests (OfCalculation _ (STree n)) => [HTree (debug E n)]
  | WAssembler (NKey l) => [HKey l]
  | WAssembler (NValue i k v n) => [HValue i k v n]
  | WAssembler (NDirectory i l) => [HDirectory i l]
  | WAssembler (NTable l) => [HTable l]
  | WDecompiler (RByte b) => [HByte b]
  | _ => []
  end.
