(** The same surroundings at another time, and test runs during which time passes. *)
From Coq Require Import NArith List.
From Verif Require Import Prelude CalcModel ComponentModel VmModel.
Import ListNotations.

Definition at_time (E : fenv) (t : list N) : fenv :=
  mkEnv (f64 E) (parse64 E) (show64 E) (add64 E) (sub64 E) (mul64 E) (div64 E) (cmp64 E) (acos64 E)
    (f32 E) (parse32 E) (show32 E) (add32 E) (mul32 E) (abs32 E) (alnum E) t (debug E).

(** The run of one test as in test.rs:138-140, where the clock shows [clock n] during step number [n]. *)
Fixpoint run_during (E : fenv) (clock : nat -> list N) (file : fmpfile) (n : nat) (fuel : nat) (s : vm) : outcome vm :=
  match vm_pass s, vm_ip s with
  | true, _ :: _ =>
    match fuel with
    | O => NoFuel
    | S fuel => match vm_step (at_time E (clock n)) file s with Ok s => run_during E clock file (S n) fuel s | Panic => Panic | NoFuel => NoFuel end
    end
  | _, _ => Ok s
  end.
