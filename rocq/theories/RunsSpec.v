(** How the run of a list of tests ends, along the moves of the runner.  Independent of the runner, except for its state. *)
From Coq Require Import Ascii String NArith List Bool.
From Verif Require Import Prelude InstrModel ComponentModel CalcModel DbModel EvalModel VmModel VmSpec VmTestSpec VmTextSpec.
Import ListNotations.
Local Open Scope N_scope.

(** A test begins at its first step, with one more scope of variables; all else is as the test before has left it. *)
Definition begun (s : vm) (t : test) : vm :=
  mkVm ((sc_name (te_script t), 0) :: vm_ip s) (vm_vars s ++ [[]]) (Some t) (vm_loops s) (vm_pass s) (vm_branch s) (vm_find s) (vm_db s) (vm_layouts s) (vm_criteria s).

(** No assertion has failed, and some script is left. *)
Definition under_way (s : vm) : Prop := vm_pass s = true /\ vm_ip s <> [].

Section Runs.
Context (E : fenv) (file : fmpfile).

(** [comes_to n s s']: [n] moves lead from [s] to [s']. *)
Inductive comes_to : nat -> vm -> vm -> Prop :=
| CoNone : forall s, comes_to O s s
| CoMove : forall n s s1 s', under_way s -> moves_to E file s s1 -> comes_to n s1 s' -> comes_to (S n) s s'.

(** The run gets to a step that cannot be done. *)
Definition gets_stuck (s : vm) : Prop := exists n s', comes_to n s s' /\ under_way s' /\ forall s'', ~ moves_to E file s' s''.
(** The run goes on for ever. *)
Definition goes_on_forever (s : vm) : Prop := forall n, exists s', comes_to n s s' /\ under_way s'.

(** The reports of a list of tests, and the state they leave: each test begins where the one before ended. *)
Inductive reported : list test -> vm -> list (list N * bool) -> vm -> Prop :=
| RpNone : forall s, reported [] s [] s
| RpTest : forall t ts s s1 rs s', runs_to E file (begun s t) s1 -> reported ts s1 rs s' -> reported (t :: ts) s ((te_name t, vm_pass s1) :: rs) s'.

(** A test stops the program, or never ends, after the tests before it have come to an end. *)
Definition breaks_off (ts : list test) (s : vm) : Prop :=
  exists before t after rs s1, ts = before ++ t :: after /\ reported before s rs s1 /\ gets_stuck (begun s1 t).
Definition hangs (ts : list test) (s : vm) : Prop :=
  exists before t after rs s1, ts = before ++ t :: after /\ reported before s rs s1 /\ goes_on_forever (begun s1 t).
End Runs.
