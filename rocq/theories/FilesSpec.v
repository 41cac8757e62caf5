(** What the program leaves on the disk, from the texts and files given to it. *)
From Coq Require Import Ascii String NArith List Bool.
From Verif Require Import Prelude Utf8 ComponentModel CalcModel EvalModel JsonSpec AsmSpec MainModel MainSpec SessionSpec.
Import ListNotations.
Local Open Scope N_scope.

(** The contents [c] are the schema [f] as JSON, its maps in some order. *)
Definition shows_schema (f : fmpfile) (c : list N) : Prop :=
  exists g text v, reordered f g /\ c = utf8 text /\ json_text text v /\ says_file v g.
