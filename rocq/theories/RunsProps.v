(** C87: how a run of tests ends. *)
From Coq Require Import Ascii String NArith List Bool Lia Arith.
From Verif Require Import Prelude PreludeFacts InstrModel ComponentModel CalcModel CalcDemo DbModel EvalModel EvalSpec VmModel VmSpec VmTestSpec VmProps VmFlat VmTextSpec VmText VmTextProps RunsSpec Runs.
Import ListNotations.
Local Open Scope N_scope.

(** C87: a run ends in a panic exactly if some moves lead to a step, in a script that is under way, that cannot be done. *)
Theorem C87_stuck : forall E file s, (exists fuel, run_test E file fuel s = Panic) <-> gets_stuck E file s.
Proof. exact run_panic. Qed.
Print Assumptions C87_stuck.
(** The second step asks for the end of a loop that is not there. *)
Definition no_loop : test := a_test "u" [set_var "x" "1"; st IEndLoop []].
Example C87_stuck_ex : gets_stuck whole fmpfile_new (begun vm_new no_loop) /\ ~ gets_stuck whole fmpfile_new (begun vm_new open_else).
Proof.
  split; [apply run_panic; exists 5%nat; vm_compute; reflexivity|]. intros H. apply run_panic in H as (f & H).
  assert (R : exists s, run_test whole fmpfile_new 5 (begun vm_new open_else) = Ok s) by (eexists; vm_compute; reflexivity). destruct R as (s & R).
  pose proof (run_more _ _ _ _ _ R (5 + f) ltac:(lia)). pose proof (panic_more _ _ _ _ H (5 + f) ltac:(lia)). congruence.
Qed.

(** C87: a run goes on for ever exactly if there are any number of moves, each from a script under way to one under way. *)
Theorem C87_forever : forall E file s, (forall fuel, run_test E file fuel s = NoFuel) <-> goes_on_forever E file s.
Proof. exact run_forever. Qed.
Print Assumptions C87_forever.
Example C87_forever_ex : goes_on_forever whole (a_file [a_script "somebody" []] []) (begun vm_new (a_test "t" [call_of "nobody"])).
Proof.
  apply run_forever. intros fuel. eapply (C49_unknown_script whole (a_file [a_script "somebody" []] []) (load_test vm_new (a_test "t" [call_of "nobody"])) (call_of "nobody") (lit """nobody""") [] (lit "nobody") fuel).
  - do 5 eexists. split; [reflexivity|]. split; [reflexivity|]. split; [|reflexivity]. reflexivity.
  - reflexivity.
  - reflexivity.
  - computed.
  - intros sc (b & a & Q & N1 & _). destruct b as [|x b]; [|destruct b; discriminate]. inversion Q; subst. discriminate.
  - reflexivity.
  - vm_compute. discriminate.
Qed.

(** C87: the reports of a list of tests: the tests of the file in order, each started where the one before has ended; each report says whether no
    assertion had failed up to its end.  With the cleanup the records are cleared after the last test only. *)
Theorem C87_reports : forall E file s rs s',
  ((exists fuel, run_tests E file fuel s = Ok (rs, s')) <-> reported E file (f_tests file) s rs s') /\
  ((exists fuel, run_tests_with_cleanup E file fuel s = Ok (rs, s')) <->
   exists s1, reported E file (f_tests file) s rs s1 /\
     s' = mkVm (vm_ip s1) (vm_vars s1) (vm_test s1) (vm_loops s1) (vm_pass s1) (vm_branch s1) (vm_find s1) (clear_records (vm_db s1)) (vm_layouts s1) (vm_criteria s1)).
Proof.
  intros E file s rs s'. split; [apply reports_exact|]. unfold run_tests_with_cleanup. split.
  - intros (fuel & H). apply bind_ok in H as ([rs1 s1] & H & Q). inversion Q; subst. exists s1. split; [|reflexivity]. apply reports_exact. eauto.
  - intros (s1 & H & ->). apply reports_exact in H as (fuel & H). exists fuel. unfold run_tests. rewrite H. reflexivity.
Qed.
Print Assumptions C87_reports.
Definition failing : test := a_test "b" [st IAssert ["1 == 2"%string]; set_var "x" "1"].
Example C87_reports_ex : exists s', reported whole (a_file [] [a_test "a" [set_var "x" "1"]; failing; no_loop]) [a_test "a" [set_var "x" "1"]; failing; no_loop] vm_new
  [(lit "a", true); (lit "b", false); (lit "u", false)] s' /\ vm_vars s' = [[(lit "x", lit "1")]; []; []].
Proof. eexists. split; [apply reports_exact; exists 9%nat; vm_compute; reflexivity|reflexivity]. Qed.

(** C87: and the ways it does not end in reports. *)
Theorem C87_breaks_off : forall E file s, (exists fuel, run_tests E file fuel s = Panic) <-> breaks_off E file (f_tests file) s.
Proof. intros E file s. apply breaks_exact. Qed.
Print Assumptions C87_breaks_off.
Example C87_breaks_off_ex : breaks_off whole (a_file [] [open_else; no_loop; failing]) [open_else; no_loop; failing] vm_new.
Proof. apply breaks_exact. exists 9%nat. vm_compute. reflexivity. Qed.
Theorem C87_hangs : forall E file s, hangs E file (f_tests file) s -> forall fuel, run_tests E file fuel s = NoFuel.
Proof. intros E file s. apply hangs_loop. Qed.
Print Assumptions C87_hangs.
Example C87_hangs_ex : hangs whole (a_file [a_script "somebody" []] [a_test "a" []; a_test "t" [call_of "nobody"]; no_loop]) [a_test "a" []; a_test "t" [call_of "nobody"]; no_loop] vm_new.
Proof.
  set (file := a_file [a_script "somebody" []] [a_test "a" []; a_test "t" [call_of "nobody"]; no_loop]).
  assert (R : exists s1, run_test whole file 5 (begun vm_new (a_test "a" [])) = Ok s1 /\ vm_ip s1 = [] /\ vm_pass s1 = true /\ vm_vars s1 = [[]]) by (eexists; split; [vm_compute; reflexivity|]; auto).
  destruct R as (s1 & R & I & P & V). exists [a_test "a" []], (a_test "t" [call_of "nobody"]), [no_loop], [(lit "a", vm_pass s1)], s1. split; [reflexivity|]. split.
  - change (lit "a") with (te_name (a_test "a" [])). apply RpTest with (s1 := s1); [apply run_exact; eauto|constructor].
  - apply run_forever. intros fuel. apply (C49_unknown_script whole file (load_test s1 (a_test "t" [call_of "nobody"])) (call_of "nobody") (lit """nobody""") [] (lit "nobody") fuel).
    + do 5 eexists. split; [reflexivity|]. split; [cbn; rewrite I; reflexivity|]. split; [|reflexivity]. reflexivity.
    + reflexivity.
    + reflexivity.
    + computed.
    + intros sc (b & a & Q & N1 & _). destruct b as [|x b]; [|destruct b; discriminate]. inversion Q; subst. discriminate.
    + exact P.
    + cbn. rewrite I, V. vm_compute. discriminate.
Qed.
(** C87: a run is always in one of these cases: it ends with reports, it is broken off, or no time is enough for it. *)
Theorem C87_cases : forall E file s, (forall rs s', reported E file (f_tests file) s rs s' -> ~ breaks_off E file (f_tests file) s) /\
  (forall rs s' rs2 s2, reported E file (f_tests file) s rs s' -> reported E file (f_tests file) s rs2 s2 -> rs2 = rs /\ s2 = s') /\
  ((forall rs s', ~ reported E file (f_tests file) s rs s') -> ~ breaks_off E file (f_tests file) s -> forall fuel, run_tests E file fuel s = NoFuel).
Proof.
  intros E file s. split; [|split].
  - intros rs s' R B. apply reports_exact in R as (f & R). apply breaks_exact in B as (g & B). pose proof (loop_more _ _ _ _ _ _ R ltac:(discriminate) (f + g) ltac:(lia)).
    pose proof (loop_more _ _ _ _ _ _ B ltac:(discriminate) (f + g) ltac:(lia)). congruence.
  - intros rs s' rs2 s2 R B. apply reports_exact in R as (f & R). apply reports_exact in B as (g & B). pose proof (loop_more _ _ _ _ _ _ R ltac:(discriminate) (f + g) ltac:(lia)).
    pose proof (loop_more _ _ _ _ _ _ B ltac:(discriminate) (f + g) ltac:(lia)). rewrite H in H0. inversion H0. auto.
  - intros R B fuel. destruct (loop_decided E file fuel (f_tests file) s) as [H|[H|(rs & s' & H)]]; [exact H|contradiction|now elim (R rs s')].
Qed.
Print Assumptions C87_cases.
Example C87_cases_ex : ~ breaks_off whole (a_file [] [open_else; failing; no_loop]) [open_else; failing; no_loop] vm_new.
Proof.
  assert (R : exists rs s', reported whole (a_file [] [open_else; failing; no_loop]) [open_else; failing; no_loop] vm_new rs s') by (do 2 eexists; apply reports_exact; exists 9%nat; vm_compute; reflexivity).
  destruct R as (rs & s' & R). exact (proj1 (C87_cases whole (a_file [] [open_else; failing; no_loop]) vm_new) rs s' R).
Qed.
(** C87: the tests of a file are not independent: a test that would stop the program passes unnoticed as failed after another has failed. *)
Theorem C87_hidden_refuted : exists t1 t2, (exists fuel, run_tests whole (a_file [] [t2; t1]) fuel vm_new = Panic) /\
  exists fuel s', run_tests whole (a_file [] [t1; t2]) fuel vm_new = Ok ([(te_name t1, false); (te_name t2, false)], s').
Proof. exists failing, no_loop. split; [exists 9%nat; vm_compute; reflexivity|]. exists 9%nat. eexists. vm_compute. reflexivity. Qed.
Print Assumptions C87_hidden_refuted.
