(** Theorems about the runner on arbitrary lists of steps. *)
From Coq Require Import Ascii String NArith List Bool Sorted Lia Arith.
From Verif Require Import Prelude PreludeFacts StrOrder StrOrderFacts InstrModel ComponentModel CalcModel CalcSpec CalcFacts CalcDemo DbModel DbSpec DbFacts DbProofs
  EvalModel EvalSpec EvalProofs EvalCycle EvalFuel VmModel VmSpec VmTestSpec VmParts VmSteps VmRun VmBack VmFlat VmTextSpec VmText VmProps.
Import ListNotations.
Local Open Scope N_scope.

(** C82: in every state of the runner, a step is possible exactly as described, whatever the steps of the scripts are. *)
Theorem C82_step : forall E file s s', vm_step E file s = Ok s' <-> moves_to E file s s'.
Proof. exact step_exact. Qed.
Print Assumptions C82_step.
(** The second step of this test is an else in a branch that was taken, without an end of the if: the script is left, and the flag stays. *)
Definition open_else : test := a_test "t" [st IIf ["1 == 1"%string]; st IElse []; set_var "x" "1"].
Example C82_step_ex : exists s1 s2, moves_to whole fmpfile_new (load_test vm_new open_else) s1 /\ moves_to whole fmpfile_new s1 s2 /\
  vm_branch s1 = true /\ vm_ip s1 = [(lit "t", 1)] /\ vm_branch s2 = true /\ vm_ip s2 = [(lit "t", 4)].
Proof. eexists _, _. split; [apply step_exact; vm_compute; reflexivity|]. split; [apply step_exact; vm_compute; reflexivity|]. repeat split. Qed.
(** C82: so a test runs to its end, or to a failed assertion, exactly along these moves. *)
Theorem C82_run : forall E file s s', (exists fuel, run_test E file fuel s = Ok s') <-> runs_to E file s s'.
Proof. exact run_exact. Qed.
Print Assumptions C82_run.
Example C82_run_ex : exists s', runs_to whole fmpfile_new (load_test vm_new open_else) s' /\ vm_vars s' = [[]] /\ vm_pass s' = true /\ vm_ip s' = [].
Proof. eexists. split; [apply run_exact; exists 5%nat; vm_compute; reflexivity|]. repeat split. Qed.
(** C82: it ends in one way at most, and the time given to it does not matter. *)
Theorem C82_one_end : forall E file s a b, runs_to E file s a -> runs_to E file s b -> a = b.
Proof.
  intros E file s a b A B. apply run_exact in A as (f & A), B as (g & B). pose proof (run_more E file f s a A (f + g) ltac:(lia)).
  pose proof (run_more E file g s b B (f + g) ltac:(lia)). congruence.
Qed.
Print Assumptions C82_one_end.
Example C82_one_end_ex : exists s', runs_to whole fmpfile_new (load_test vm_new open_else) s'.
Proof. destruct C82_run_ex as (s' & H & _). eauto. Qed.
(** C82: the places of loops pile up: a run never takes one away, so the end of a loop leads to the loop step met last, in whatever script. *)
Theorem C82_loops_pile_up : forall E file s s', runs_to E file s s' -> exists l, vm_loops s' = l ++ vm_loops s.
Proof.
  intros E file s s' R. induction R as [s P|s I|s s1 s' P I M R (l & IH)]; [exists []; reflexivity|exists []; reflexivity|].
  assert (exists l1, vm_loops s1 = l1 ++ vm_loops s) as (l1 & H1).
  { destruct M as [code name k fr cur m' C I0 K S D|code name k fr cur k' m' br' lps' C I0 K G|code name k fr cur c cs callee sc C I0 K O S V F|code name k fr cur c cs callee C I0 K O S V F|code name k fr C I0 K];
      cbn [put vm_loops]; try (exists []; reflexivity). inversion G; subst; try (exists []; reflexivity). exists [k]. reflexivity. }
  exists (l ++ l1). now rewrite IH, H1, app_assoc.
Qed.
Print Assumptions C82_loops_pile_up.
Definition two_loops : test := a_test "t" [st ILoop []; st IExitLoopIf ["1 == 1"%string]; st IEndLoop []; st ILoop []; st IExitLoopIf ["1 == 1"%string]; st IEndLoop []].
Example C82_loops_pile_up_ex : exists s', runs_to whole fmpfile_new (load_test vm_new two_loops) s' /\ vm_loops s' = [3; 0].
Proof. eexists. split; [apply run_exact; exists 10%nat; vm_compute; reflexivity|]. reflexivity. Qed.
(** C82: what an elif after a taken branch computes, if its if has no end, is an argument of the last step: without arguments there, the
    runner stops; with an end of the if, nothing is computed. *)
Theorem C82_open_elif_refuted :
  run_test whole fmpfile_new 10 (load_test vm_new (a_test "t" [st IIf ["1 == 1"%string]; st IElseIf ["1 == 2"%string]; st IEnterFindMode []])) = Panic /\
  (exists s', run_test whole fmpfile_new 10 (load_test vm_new (a_test "t" [st IIf ["1 == 1"%string]; st IElseIf ["1 == 2"%string]; st IEndIf []; st IEnterFindMode []])) = Ok s' /\
    vm_find s' = true) /\
  (exists s', run_test whole fmpfile_new 10 (load_test vm_new (a_test "t" [st IIf ["1 == 1"%string]; st IElseIf ["1 == 2"%string]; st IAssert ["1 == 2"%string]])) = Ok s' /\ vm_pass s' = true).
Proof. split; [vm_compute; reflexivity|]. split; eexists; (split; [vm_compute; reflexivity|reflexivity]). Qed.
Print Assumptions C82_open_elif_refuted.
(** C82: the flag that a branch was taken is shared by all scripts and outlives them: after a test whose if has no end, the
    else branch of the next test is passed over although its condition is false, and a wrong assertion in it goes unnoticed. *)
Theorem C82_flag_outlives_refuted : exists file s' rs,
  f_tests file = [open_else; a_test "u" [st IIf ["1 == 2"%string]; st IElse []; st IAssert ["1 == 2"%string]; st IEndIf []]] /\
  run_tests whole file 20 vm_new = Ok (rs, s') /\ rs = [(lit "t", true); (lit "u", true)] /\
  forall s1, run_test whole file 20 (load_test vm_new (a_test "u" [st IIf ["1 == 2"%string]; st IElse []; st IAssert ["1 == 2"%string]; st IEndIf []])) = Ok s1 -> vm_pass s1 = false.
Proof.
  exists (a_file [] [open_else; a_test "u" [st IIf ["1 == 2"%string]; st IElse []; st IAssert ["1 == 2"%string]; st IEndIf []]]). eexists _, _. split; [reflexivity|].
  split; [vm_compute; reflexivity|]. split; [reflexivity|]. intros s1 H. vm_compute in H. inversion H. reflexivity.
Qed.
Print Assumptions C82_flag_outlives_refuted.
