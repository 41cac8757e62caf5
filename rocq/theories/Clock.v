(** The clock is never read. *)
From Coq Require Import Ascii String NArith List Bool Lia.
From Verif Require Import Prelude PreludeFacts CalcModel CalcSpec CalcProps EvalModel ComponentModel RelModel DbModel InstrModel SchemaModel VmModel DecompModel AsmModel AsmProofs MainModel ClockSpec.
Import ListNotations.
Local Open Scope N_scope.

Section Clock.
Context (E : fenv) (t : list N).
Local Notation T := (at_time E t).

Lemma operand_time v f w : operand T v f w = operand E v f w.
Proof. reflexivity. Qed.
Lemma evaluate_time v f : forall n : node (f64 E), ~ odd_node E n -> evaluate T v f n = evaluate E v f n.
Proof.
  fix IH 1. intros n O.
  destruct n as [value c|l op r|l r|l op r|l op r|name args|x|name|name|s].
  - reflexivity.
  - cbn [evaluate]. rewrite IH by (intros H; apply O; now constructor). apply bind_ext. intros a. rewrite IH by (intros H; apply O; now constructor). apply bind_ext. intros b. reflexivity.
  - cbn [evaluate]. rewrite IH by (intros H; apply O; now constructor). apply bind_ext. intros a. rewrite IH by (intros H; apply O; now constructor). apply bind_ext. intros b. reflexivity.
  - cbn [evaluate]. destruct op; try reflexivity; (rewrite IH by (intros H; apply O; now constructor); apply bind_ext; intros a; rewrite IH by (intros H; apply O; now constructor); apply bind_ext; intros b; reflexivity).
  - exfalso. apply O. constructor.
  - assert (A : Forall (fun n => evaluate T v f n = evaluate E v f n) args).
    { assert (O' : forall a, In a args -> ~ odd_node E a) by (intros a Ha H; apply O; now apply (OddArg E name args a)). clear name O. revert args O'.
      fix IHl 1. intros [|a args] O'; constructor; [apply IH; apply O'; now left|apply IHl; intros b Hb; apply O'; now right]. }
    cbn [evaluate].
    destruct (str_eqb name (lit "Abs")). { destruct args as [|a args]; [reflexivity|]. now rewrite (Forall_inv A). }
    destruct (str_eqb name (lit "Acos")). { destruct args as [|a args]; [reflexivity|]. now rewrite (Forall_inv A). }
    destruct (str_eqb name (lit "Asin")).
    { destruct args as [|a [|b args]]; [reflexivity|..]; rewrite (Forall_inv A); [reflexivity|]. apply bind_ext. intros x. now rewrite (Forall_inv (Forall_inv_tail A)). }
    destruct (str_eqb name (lit "Char")). { destruct args as [|a args]; [reflexivity|]. now rewrite (Forall_inv A). }
    destruct (str_eqb name (lit "Min")).
    { destruct args as [|a args]; [reflexivity|]. rewrite (Forall_inv A). apply bind_ext. intros s. apply Forall_inv_tail in A. clear - A. revert s. induction A as [|b args Hb A IHA]; intros s; [reflexivity|].
      rewrite Hb. apply bind_ext. intros x. apply bind_ext. intros o. apply IHA. }
    destruct (str_eqb name (lit "Get")); [|reflexivity]. destruct args as [|a args]; [reflexivity|]. destruct a; try reflexivity. exfalso. apply O. eapply OddArg; [now left|constructor].
  - reflexivity.
  - reflexivity.
  - reflexivity.
  - reflexivity.
Qed.
Lemma calculation_time v f s : eval_calculation T v f s = eval_calculation E v f s.
Proof.
  unfold eval_calculation. change (lex T s) with (lex E s). destruct (lex E s) as [ts| |]; cbn [bind]; auto. change (parse T (10 * length ts) ts) with (parse E (10 * length ts) ts).
  destruct (parse E (10 * length ts) ts) as [n| |] eqn:P; cbn [bind]; auto. apply evaluate_time. exact (C36_no_odd_nodes _ _ _ _ P).
Qed.
Lemma calc_time s x : calc T s x = calc E s x.
Proof. unfold calc. now rewrite calculation_time. Qed.
Context (file : fmpfile).
Lemma vm_step_time s : vm_step T file s = vm_step E file s.
Proof.
  unfold vm_step. apply bind_ext. intros _. apply bind_ext. intros sc. cbv zeta. destruct (nthN (sc_steps sc) (here s)) as [cur|]; [|reflexivity].
  pose proof calc_time as K. generalize dependent (calc T). intros c K.
  destruct (opcode cur); try reflexivity; try (apply bind_ext; intros a).
  all: try (rewrite K; reflexivity).
  all: try (apply bind_ext; intros b; now rewrite K).
  - rewrite K. apply bind_ext. intros v. destruct (nthN (switches cur) 1); [now rewrite K|reflexivity].
  - destruct (vm_branch s).
    + destruct (scan is_end_if _ _); [reflexivity|]. apply bind_ext. intros x. apply bind_ext. intros y. now rewrite K.
    + apply bind_ext. intros y. now rewrite K.
Qed.
Lemma run_test_time : forall f s, run_test T file f s = run_test E file f s.
Proof.
  induction f as [|f IH]; intros s; cbn [run_test]; [reflexivity|]. destruct (vm_pass s); [|reflexivity]. destruct (vm_ip s); [reflexivity|]. rewrite vm_step_time. apply bind_ext. intros a. apply IH.
Qed.
Lemma run_tests_time f : forall ts s, run_tests_loop T file f ts s = run_tests_loop E file f ts s.
Proof. induction ts as [|x ts IH]; intros s; cbn [run_tests_loop]; [reflexivity|]. rewrite run_test_time. apply bind_ext. intros s1. now rewrite IH. Qed.
Lemma cleanup_time f s : run_tests_with_cleanup T file f s = run_tests_with_cleanup E file f s.
Proof. unfold run_tests_with_cleanup, run_tests. now rewrite run_tests_time. Qed.
End Clock.

Lemma run_during_same E file clock : forall f n s, run_during E clock file n f s = run_test E file f s.
Proof.
  induction f as [|f IH]; intros n s; cbn [run_during run_test]; [reflexivity|]. destruct (vm_pass s); [|reflexivity]. destruct (vm_ip s); [reflexivity|]. rewrite vm_step_time. destruct (vm_step E file s); cbn [bind]; auto.
Qed.
Lemma and_then_ext {A B} (x : ran A) (f g : A -> ran B) : (forall a, f a = g a) -> and_then x f = and_then x g.
Proof. intros H. unfold and_then. destruct x as [es [a| |]]; cbn [fst snd]; try reflexivity. cbv zeta. now rewrite H. Qed.

Section Program.
Context (E : fenv) (t : list N) (order : fmpfile -> fmpfile) (segments : list (N * list (N * list N)) -> list (N * list (N * list N))) (fuel : nat) (no_testing : bool).
Local Notation T := (at_time E t).
Lemma print_tests_time file : forall ts s, print_tests T fuel file ts s = print_tests E fuel file ts s.
Proof.
  induction ts as [|x ts IH]; intros s; cbn [print_tests]; [reflexivity|]. apply and_then_ext. intros _. rewrite run_test_time. apply and_then_ext. intros s1. apply and_then_ext. intros _. apply IH.
Qed.
Lemma testing_time file : testing T order fuel no_testing file = testing E order fuel no_testing file.
Proof. unfold testing. destruct (_ && _); [|reflexivity]. apply and_then_ext. intros s. now rewrite print_tests_time. Qed.
Lemma compile_burn_time s : compile_burn T s = compile_burn E s.
Proof. reflexivity. Qed.
Lemma inputs_time (f g : fmpfile -> list N * list N -> ran fmpfile) : (forall a b, f a b = g a b) -> forall inputs file, for_inputs f inputs file = for_inputs g inputs file.
Proof. intros H. induction inputs as [|i inputs IH]; intros file; cbn [for_inputs]; [reflexivity|]. rewrite H. now apply and_then_ext. Qed.
Lemma test_files_time : forall inputs file, test_files T inputs file = test_files E inputs file.
Proof. induction inputs as [|i inputs IH]; intros file; cbn [test_files]; [reflexivity|]. rewrite compile_burn_time. apply bind_ext. intros x. apply IH. Qed.
Lemma main_compile_time tests inputs : main_compile T order fuel no_testing tests inputs = main_compile E order fuel no_testing tests inputs.
Proof.
  unfold main_compile. rewrite test_files_time. apply and_then_ext. apply inputs_time. intros file i. unfold compile_one. rewrite compile_burn_time. apply and_then_ext. intros tmp. apply and_then_ext. intros name. cbv zeta. apply and_then_ext. intros _. now rewrite testing_time.
Qed.
Lemma main_decompile_time tests inputs : main_decompile T order segments fuel no_testing tests inputs = main_decompile E order segments fuel no_testing tests inputs.
Proof.
  unfold main_decompile. rewrite test_files_time. apply and_then_ext. apply inputs_time. intros file i. unfold decompile_one. apply and_then_ext. intros tmp. apply and_then_ext. intros _. cbv zeta. now rewrite testing_time.
Qed.
End Program.
