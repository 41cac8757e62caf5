(** Reading the outcomes of tests off the standard output.  Independent of the program, except for its data. *)
From Coq Require Import Ascii String NArith List Bool.
From Verif Require Import Prelude InstrModel ComponentModel CalcModel MainModel PrintModel TalkModel WholeModel WordsModel.
Import ListNotations.
Local Open Scope N_scope.

(** A text on one line. *)
Definition one_line (s : list N) : Prop := ~ In 10 s.

(** The lines of a text, each with a line feed at its end. *)
Inductive text_lines : list N -> list (list N) -> Prop :=
| TlEnd : text_lines [] []
| TlLine : forall l text ls, one_line l -> text_lines text ls -> text_lines (l ++ 10 :: text) (l :: ls).

(** The line that says how a test ended. *)
Definition outcome_line (C : colours) (l name : list N) (pass : bool) : Prop :=
  l = lit "Test " ++ name ++ lit " outcome: " ++ (if pass then green C ++ lit "Success" ++ plain C else red C ++ lit "Fail" ++ plain C).

(** The outcomes that somebody finds who looks for such lines and for nothing else. *)
Inductive outcomes (C : colours) : list (list N) -> list (list N * bool) -> Prop :=
| OcEnd : outcomes C [] []
| OcTest : forall l name pass ls rs, outcome_line C l name pass -> outcomes C ls rs -> outcomes C (l :: ls) ((name, pass) :: rs)
| OcOther : forall l ls rs, (forall name pass, ~ outcome_line C l name pass) -> outcomes C ls rs -> outcomes C (l :: ls) rs.
Definition reads_off (C : colours) (text : list N) (rs : list (list N * bool)) : Prop := exists ls, text_lines text ls /\ outcomes C ls rs.

(** What is known about colours: the codes are on one line, and the one of red does not begin with a T.  This is so for the codes of terminals and for output without colours. *)
Definition colours_ok (C : colours) : Prop :=
  one_line (green C) /\ one_line (red C) /\ one_line (again C) /\ one_line (plain C) /\ one_line (close C) /\ hd_error (red C) <> Some 84.
(** What is known about the text of a tree that derive(Debug) gives: it is on one line, with line feeds inside of strings written as two other characters. *)
Definition debug_ok (E : fenv) : Prop := forall n, one_line (debug E n).

(** Scripts that show no dialogs, with all their texts on one line each. *)
Definition calm_script (sc : script) : Prop :=
  one_line (sc_name sc) /\ forall st, In st (sc_steps sc) -> opcode st <> IShowCustomDialog /\ Forall one_line (switches st).
Definition calm (f : fmpfile) : Prop :=
  (forall k sc, In (k, sc) (f_scripts f) -> calm_script sc) /\ (forall t, In t (f_tests f) -> one_line (te_name t) /\ calm_script (te_script t)).

(** Lines whose texts do not get in the way: a dialog must not show the line of an outcome. *)
Definition clean_line (C : colours) (l : line) : Prop :=
  match l with
  | LRunning t | LOutcome t _ | LPopping t | LCalling t | LAssertion t => one_line t
  | LDialog v => one_line v /\ forall n p, ~ outcome_line C v n p
  | LScope | LUnimplemented _ => True
  end.
Definition clean (E : fenv) (C : colours) (x : shown E) : Prop := match x with WTests (OfRunner _ l) => clean_line C l | _ => True end.

(** The same without any dialogs. *)
Definition silent_line (l : line) : Prop :=
  match l with
  | LRunning t | LOutcome t _ | LPopping t | LCalling t | LAssertion t => one_line t
  | LDialog _ => False
  | LScope | LUnimplemented _ => True
  end.
Definition silent (E : fenv) (x : shown E) : Prop := match x with WTests (OfRunner _ l) => silent_line l | _ => True end.

(** The outcomes among what happens in a session (C71). *)
Definition outcome_of (e : event) : list (list N * bool) := match e with EReport t p => [(t, p)] | _ => [] end.
Definition reported (es : list event) : list (list N * bool) := flat_map outcome_of es.
