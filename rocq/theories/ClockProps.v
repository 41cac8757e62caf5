(** C110: the clock is never read. *)
From Coq Require Import Ascii String NArith ZArith List Bool Lia.
From Verif Require Import Prelude InstrModel ComponentModel CalcModel CalcDemo EvalModel EvalProps DbModel VmModel VmTestSpec VmProps MainModel MainProps FieldProps RelatedWorldProps GripeModel SourceModel PrintModel TalkModel TraceModel ReportModel WholeModel WordsModel WordsProps MutterModel MutterProps ClockSpec Clock ClockTalk.
From Verif Require DecompRecoverSpec ReportProps.
Import ListNotations.
Local Open Scope N_scope.

(** C110: every text comes to the same as a calculation, or fails in the same way, whatever the time is. *)
Theorem C110_calculation : forall E t1 t2 v fuel s, eval_calculation (at_time E t1) v fuel s = eval_calculation (at_time E t2) v fuel s.
Proof. intros E t1 t2 v fuel s. now rewrite !calculation_time. Qed.
Print Assumptions C110_calculation.
Example C110_calculation_ex : lit "9:00" <> lit "17:30" /\ eval_calculation (at_time whole (lit "9:00")) desk 20 (lit "Get(CurrentTime)") = Ok (lit "Unknown argument for Get(): node") /\
  eval_calculation (at_time whole (lit "17:30")) desk 20 (lit "Get(CurrentTime)") = Ok (lit "Unknown argument for Get(): node").
Proof. split; [discriminate|]. split; vm_compute; reflexivity. Qed.

(** C110: so the expectation that [Get(CurrentTime)] gives the time is false. *)
Theorem C110_current_time_refuted : exists t v r, eval_calculation (at_time whole t) v 20 (lit "Get(CurrentTime)") = Ok r /\ r <> t.
Proof. exists (lit "9:00"), desk. eexists. split; [vm_compute; reflexivity|]. discriminate. Qed.
Print Assumptions C110_current_time_refuted.

(** C110: a test during which the clock moves on with every step in any way ends as it does with the clock stopped. *)
Theorem C110_moving : forall E clock file n fuel s, run_during E clock file n fuel s = run_test E file fuel s.
Proof. intros. apply run_during_same. Qed.
Print Assumptions C110_moving.
Definition timed_steps : list InstrModel.step :=
  [set_var "a" "Get(CurrentTime)"; set_var "b" "Get(CurrentTime)"; st IAssert ["a == b"]%string].
Example C110_moving_ex : exists s0 s', shop_vm [] [a_test "t" timed_steps] = Ok s0 /\
  run_during whole (fun n => repeat 49 n) (shop_file [] [a_test "t" timed_steps]) 0 20 (load_test s0 (a_test "t" timed_steps)) = Ok s' /\ vm_pass s' = true.
Proof. do 2 eexists. split; [vm_compute; reflexivity|]. split; [vm_compute; reflexivity|]. reflexivity. Qed.

(** C110: all the tests of a file report the same at all times, and leave the same behind. *)
Theorem C110_tests : forall E t1 t2 file fuel s, run_tests_with_cleanup (at_time E t1) file fuel s = run_tests_with_cleanup (at_time E t2) file fuel s.
Proof. intros. now rewrite !cleanup_time. Qed.
Print Assumptions C110_tests.
Example C110_tests_ex : exists s0 s', shop_vm [] [a_test "t" timed_steps] = Ok s0 /\
  run_tests_with_cleanup (at_time whole (lit "9:00")) (shop_file [] [a_test "t" timed_steps]) 20 s0 = Ok ([(lit "t", true)], s').
Proof. do 2 eexists. split; [vm_compute; reflexivity|]. vm_compute; reflexivity. Qed.

(** C110: so the program shows, reports and writes the same at all times, compiling as well as decompiling. *)
Theorem C110_program : forall E t1 t2 order segment_order fuel no_testing tests inputs,
  main_compile (at_time E t1) order fuel no_testing tests inputs = main_compile (at_time E t2) order fuel no_testing tests inputs /\
  main_decompile (at_time E t1) order segment_order fuel no_testing tests inputs = main_decompile (at_time E t2) order segment_order fuel no_testing tests inputs.
Proof. intros. now rewrite !main_compile_time, !main_decompile_time. Qed.
Print Assumptions C110_program.
Example C110_program_ex : exists es f, main_compile (at_time whole (lit "9:00")) same 50 false [] [first_input; second_input] = (es, Ok f) /\ In (EReport (lit "T") true) es /\
  main_compile (at_time whole (lit "17:30")) same 50 false [] [first_input; second_input] = (es, Ok f).
Proof.
  rewrite !main_compile_time. fold two_files. rewrite two_files_run. do 2 eexists. split; [reflexivity|]. split; [|reflexivity]. right. right. left. reflexivity.
Qed.

(** C110: and what is printed on the way, on the standard output as well as on the error stream, is the same text, character for character. *)
Theorem C110_printed_compile : forall E C D t1 t2 order fuel no_testing tests inputs,
  let one := whole_compile (at_time E t1) order fuel no_testing tests inputs in let two := whole_compile (at_time E t2) order fuel no_testing tests inputs in
  stdout (at_time E t1) C (fst one) = stdout (at_time E t2) C (fst two) /\ stderr (at_time E t1) D (fst one) = stderr (at_time E t2) D (fst two) /\ snd one = snd two.
Proof.
  intros E C D t1 t2 order fuel nt tests inputs one two.
  assert (H : recalled E t1 one = recalled E t2 two) by (unfold one, two; now rewrite <- !whole_compile_time).
  unfold recalled in H. injection H as H1 H2. rewrite <- !stdout_time, <- !stderr_time, H1. auto.
Qed.
Print Assumptions C110_printed_compile.
Definition timed_text : list N := lit "test T: script: [ x define g { set_variable(b, Get(CurrentTime) & a); assert(Get(CurrentTime) == b); } ] end test; ".
Example C110_printed_compile_ex : let es := fst (whole_compile (at_time whole (lit "9:00")) same 50 false [(lit "t.burn", timed_text)] [(lit "a.burn", lit "script: [ + ] ")]) in
  firstn 67 (stdout (at_time whole (lit "9:00")) ansi es) = lit "Running test: T" ++ 10 :: lit "RESULT: Ok(node)" ++ 10 :: lit "RESULT: Ok(node)" ++ 10 :: lit "Popping script: g" /\
  stderr (at_time whole (lit "9:00")) plain_debugs es = lit "Unrecognized token" ++ 10 :: lit "Unrecognized token" ++ [10].
Proof. split; vm_compute; reflexivity. Qed.
(** C110: the same for decompiling. *)
Theorem C110_printed_decompile : forall E C D t1 t2 order segment_order fuel no_testing tests inputs,
  let one := whole_decompile (at_time E t1) order segment_order fuel no_testing tests inputs in let two := whole_decompile (at_time E t2) order segment_order fuel no_testing tests inputs in
  stdout (at_time E t1) C (fst one) = stdout (at_time E t2) C (fst two) /\ stderr (at_time E t1) D (fst one) = stderr (at_time E t2) D (fst two) /\ snd one = snd two.
Proof.
  intros E C D t1 t2 order so fuel nt tests inputs one two.
  assert (H : recalled E t1 one = recalled E t2 two) by (unfold one, two; now rewrite <- !whole_decompile_time).
  unfold recalled in H. injection H as H1 H2. rewrite <- !stdout_time, <- !stderr_time, H1. auto.
Qed.
Print Assumptions C110_printed_decompile.
Example C110_printed_decompile_ex :
  stdout (at_time whole (lit "9:00")) ansi (fst (whole_decompile (at_time whole (lit "9:00")) same (fun l => l) (N.to_nat 500) false [(lit "t.burn", timed_text)] [(lit "a.fmp12", DecompRecoverSpec.file_of [ReportProps.demo_lines])])) =
  lit "9" ++ 10 :: lit "8" ++ 10 :: lit "Running test: T" ++ 10 :: lit "RESULT: Ok(node)" ++ 10 :: lit "RESULT: Ok(node)" ++ 10 :: lit "Popping script: g" ++ 10 :: lit "Test T outcome: " ++ green ansi ++ lit "Success" ++ plain ansi ++ [10].
Proof.
  unfold whole_decompile. cbn [test_files_shown inputs_shown]. unfold decompile_one_shown. cbn [fst snd]. rewrite ReportProps.demo_lines_runs. vm_compute. reflexivity.
Qed.
