(** C107: and so is what tests leave behind. *)
From Coq Require Import Ascii String NArith List Bool Lia Arith.
From Verif Require Import Prelude PreludeFacts InstrModel ComponentModel CalcModel CalcDemo DbModel DbGenSpec DbSpec DbFacts DbProofs DbInv DbProps EvalModel VmModel VmSpec VmProps PastSpec WorldSpec World WorldProps TestWorld.
Import ListNotations.
Local Open Scope N_scope.

(** C107: one step of any script does at most one operation to the database, and never clears it. *)
Theorem C107_step : forall E file s s', vm_step E file s = Ok s' -> vm_db s' = vm_db s \/ exists o, o <> OClear /\ apply_op (vm_db s) o = Ok (vm_db s').
Proof. exact step_op. Qed.
Print Assumptions C107_step.
Example C107_step_ex : exists s0 s s', shop_vm [] [a_test "t" find_steps] = Ok s0 /\
  Nat.iter 1 (fun o => bind o (vm_step whole (shop_file [] [a_test "t" find_steps]))) (Ok (load_test s0 (a_test "t" find_steps))) = Ok s /\
  vm_step whole (shop_file [] [a_test "t" find_steps]) s = Ok s' /\ vm_db s' <> vm_db s.
Proof. do 3 eexists. split; [vm_compute; reflexivity|]. split; [vm_compute; reflexivity|]. split; [vm_compute; reflexivity|]. vm_compute. discriminate. Qed.

(** C107: the database after any tests shows a state of the machine for the same file; after a clean-up there are no records. *)
Theorem C107_tests : forall E file fuel s0 rs s', maps_ok file -> generate_test_environment file vm_new = Ok s0 ->
  (run_tests E file fuel s0 = Ok (rs, s') -> exists os w, ~ In OClear os /\ steps file (beginning file) os = Some w /\ represents file (vm_db s') w) /\
  (run_tests_with_cleanup E file fuel s0 = Ok (rs, s') -> exists os w, ~ In OClear os /\ steps file (beginning file) (os ++ [OClear]) = Some w /\ represents file (vm_db s') w /\ forall t, many w t = 0).
Proof.
  intros E file fuel s0 rs s' M G. unfold generate_test_environment, generate_database in G. apply bind_ok in G as (s1 & G & Q).
  apply bind_ok in G as (d0 & G & Q'). inversion Q'; subst s1. inversion Q; subst s0. clear Q Q'. change (vm_db vm_new) with db_new in G.
  assert (T : forall s, run_tests E file fuel (generate_layout_mgr file (with_db vm_new d0)) = Ok (rs, s) -> by_ops d0 (vm_db s)) by (intros s H; apply (tests_by _ _ _ _ _ _ _ H)).
  split.
  - intros H. destruct (T _ H) as (os & N0 & R). pose proof (C107_machine file d0 os M G) as X. destruct (steps file (beginning file) os) as [w|] eqn:W; [|congruence]. destruct X as (d & X1 & X2). exists os, w. split; [exact N0|]. split; [exact W|]. now replace (vm_db s') with d by congruence.
  - intros H. unfold run_tests_with_cleanup in H. apply bind_ok in H as ([rs1 s2] & H1 & H2). inversion H2; subst. destruct (T _ H1) as (os & N0 & R).
    assert (R' : run_ops d0 (os ++ [OClear]) = Ok (clear_records (vm_db s2))) by now rewrite (ops_app os d0 _ [OClear] R).
    pose proof (C107_machine file d0 (os ++ [OClear]) M G) as X. destruct (steps file (beginning file) (os ++ [OClear])) as [w|] eqn:W; [|congruence]. destruct X as (d & X1 & X2). exists os, w.
    split; [exact N0|]. split; [exact W|]. cbn [with_db vm_db]. split; [now replace (clear_records (vm_db s2)) with d by congruence|].
    assert (L : forall os v w, steps file v (os ++ [OClear]) = Some w -> forall t, many w t = 0).
    { clear. induction os as [|o os IH]; intros v w H t; cbn [steps app] in H; [injection H as <-; reflexivity|]. destruct (step file v o); [|discriminate]. now apply (IH _ _ H). }
    apply (L os _ _ W).
Qed.
Print Assumptions C107_tests.
Example C107_tests_ex : maps_ok (shop_file [] [a_test "t" find_steps]) /\ exists s0 s', generate_test_environment (shop_file [] [a_test "t" find_steps]) vm_new = Ok s0 /\
  run_tests whole (shop_file [] [a_test "t" find_steps]) 20 s0 = Ok ([(lit "t", true)], s').
Proof.
  assert (M : maps_ok (shop_file [] [a_test "t" find_steps])) by exact (shop_maps CEqual).
  split; [exact M|]. do 2 eexists. split; [vm_compute; reflexivity|]. vm_compute; reflexivity.
Qed.
