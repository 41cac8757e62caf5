(** C91: what a run of tests prints. *)
From Coq Require Import Ascii String NArith List Bool Lia Arith.
From Verif Require Import Prelude PreludeFacts InstrModel ComponentModel CalcModel CalcDemo DbModel EvalModel EvalSpec VmModel VmSpec VmTestSpec VmParts VmSteps VmRun VmBack VmFlat VmTextSpec VmText VmProps VmTextProps RunsSpec Runs RunsProps
  MainModel MainSpec PrintModel PrintSpec Print.
Import ListNotations.
Local Open Scope N_scope.

Definition dialog (c : string) : step := st IShowCustomDialog [c].
Definition helper : script := a_script "help" [dialog """in"""].
Definition talk : test := a_test "t" [dialog "1 + 1"; call_of "help"; st IBeep []; dialog """out"""].
Definition talk_file (ts : list test) : fmpfile := a_file [helper] ts.
Definition talk_lines : list line :=
  [LDialog (lit "2"); LCalling (lit "help"); LDialog (lit """in"""); LPopping (lit "help"); LUnimplemented IBeep; LDialog (lit """out"""); LPopping (lit "t")].

(** C91: the tests that come to an end print, for each one, a line at its start, the lines of its moves in their order and a line with its outcome. *)
Theorem C91_lines : forall E file ts s ls s', (exists fuel, tests_lines E file fuel ts s = (ls, Ok s')) <-> tests_print E file ts s ls s'.
Proof. exact tests_lines_ok. Qed.
Print Assumptions C91_lines.
Example C91_lines_ex : exists s', tests_print whole (talk_file []) [talk] vm_new (LRunning (lit "t") :: talk_lines ++ [LOutcome (lit "t") true]) s'.
Proof. eexists. apply tests_lines_ok. exists 20%nat. vm_compute. reflexivity. Qed.

(** C91: a run that is broken off has printed everything up to the step that could not be done, and nothing for it but a complaint where it is the end
    of a loop and there has been no loop. *)
Theorem C91_cut : forall E file ts s ls, (exists fuel, tests_lines E file fuel ts s = (ls, Panic)) <->
  exists before t after l1 s1 l2, ts = before ++ t :: after /\ tests_print E file before s l1 s1 /\ stuck_prints E file (begun s1 t) l2 /\ ls = l1 ++ LRunning (te_name t) :: l2.
Proof. exact tests_lines_panic. Qed.
Print Assumptions C91_cut.
Example C91_cut_ex : exists s1, tests_print whole (talk_file []) [talk] vm_new (LRunning (lit "t") :: talk_lines ++ [LOutcome (lit "t") true]) s1 /\
  stuck_prints whole (talk_file []) (begun s1 (a_test "u" [dialog "1"; st IEndLoop []])) [LDialog (lit "1"); LScope] /\
  stuck_prints whole (talk_file []) (begun s1 (a_test "u" [dialog "1"; dialog "("])) [LDialog (lit "1")].
Proof.
  eexists. split; [apply tests_lines_ok; exists 20%nat; vm_compute; reflexivity |].
  split; (apply run_lines_panic; [discriminate |]; exists 20%nat; vm_compute; reflexivity).
Qed.

(** C91: the lines of one move are those of the step on top, or of leaving the script. *)
Theorem C91_step : forall E file s s' ls, vm_step E file s = Ok s' -> (step_lines E file s = ls <-> prints E file s ls).
Proof. intros E file s s' ls H. apply step_exact in H. symmetry. eapply lines_exact. exact H. Qed.
Print Assumptions C91_step.
Example C91_step_ex : exists s', vm_step whole fmpfile_new (load_test vm_new talk) = Ok s' /\ prints whole fmpfile_new (load_test vm_new talk) [LDialog (lit "2")].
Proof. eexists. split; [vm_compute; reflexivity |]. eapply C91_step; vm_compute; reflexivity. Qed.

(** The lines that the program shows as reports. *)
Definition reports (ls : list line) : list event :=
  flat_map (fun l => match l with LRunning t => [ERunning t] | LOutcome t b => [EReport t b] | _ => [] end) ls.
Lemma reports_app a b : reports (a ++ b) = reports a ++ reports b.
Proof. apply flat_map_app. Qed.
Lemma reports_own ls : Forall own ls -> reports ls = [].
Proof. induction 1 as [| x l [A B] _ IH]; [reflexivity |]. cbn. destruct x; cbn [app]; try exact IH; [destruct (A test eq_refl) | destruct (B test pass eq_refl)]. Qed.
Lemma step_own E file s : Forall own (step_lines E file s).
Proof.
  unfold step_lines. destruct (running file s); [| constructor | constructor]. destruct (nthN _ _) as [cur |].
  2:{ destruct (vm_ip s) as [| [? ?] ?]; repeat constructor; discriminate. }
  destruct (opcode cur); repeat match goal with |- Forall _ (match ?x with _ => _ end) => destruct x | |- Forall _ (if ?x then _ else _) => destruct x end; repeat constructor; discriminate.
Qed.
Lemma run_lines_own E file fuel : forall s, Forall own (fst (run_lines E file fuel s)).
Proof.
  induction fuel as [| fuel IH]; intros s; (destruct (under_way_dec s) as [U | U]; [rewrite run_lines_under_way by exact U | rewrite run_lines_ended by exact U; constructor]); [constructor |].
  destruct (vm_step E file s) as [s1 | |]; cbn [fst]; [apply Forall_app; split; [apply step_own | apply IH] | apply step_own | apply step_own].
Qed.

(** C91: the events of the program (C71, C88) are the reports among these lines, and both runs end in the same way. *)
Theorem C91_events : forall E fuel file ts s,
  fst (print_tests E fuel file ts s) = reports (fst (tests_lines E file fuel ts s)) /\
  snd (print_tests E fuel file ts s) = (s' <- snd (tests_lines E file fuel ts s) ;; Ok (with_db s' (clear_records (vm_db s')))) /\
  snd (tests_lines E file fuel ts s) = (r <- run_tests_loop E file fuel ts s ;; Ok (snd r)).
Proof.
  intros E fuel file ts. induction ts as [| t ts IH]; intros s; [auto |]. cbn [print_tests tests_lines run_tests_loop]. unfold and_then, say, lift. cbn [fst snd app].
  assert (Q := run_lines_same E file fuel (load_test s t)). assert (O := run_lines_own E file fuel (load_test s t)).
  destruct (run_lines E file fuel (load_test s t)) as [l r]. cbn [fst snd] in *. rewrite <- Q. destruct r as [s1 | |]; cbn [fst snd bind app].
  - destruct (IH s1) as (A & B & C). destruct (tests_lines E file fuel ts s1) as [l' r']. destruct (print_tests E fuel file ts s1) as [e q]. cbn [fst snd] in *. subst e q.
    split; [| split; [reflexivity |]].
    + cbn [reports flat_map app]. fold (reports (l ++ LOutcome (te_name t) (vm_pass s1) :: l')). rewrite reports_app, (reports_own l O). reflexivity.
    + rewrite C. destruct (run_tests_loop E file fuel ts s1) as [[rs s2] | |]; reflexivity.
  - split; [| auto]. cbn [reports flat_map app]. fold (reports l). rewrite (reports_own l O). reflexivity.
  - split; [| auto]. cbn [reports flat_map app]. fold (reports l). rewrite (reports_own l O). reflexivity.
Qed.
Print Assumptions C91_events.
Example C91_events_ex : reports (LRunning (lit "t") :: talk_lines ++ [LOutcome (lit "t") true]) = [ERunning (lit "t"); EReport (lit "t") true].
Proof. reflexivity. Qed.

(** C91: a test that fails where the ones before have passed shows one failed assertion, and that is its last line; a test that passes shows none. *)
Theorem C91_assertion : forall E file s ls s', run_prints E file s ls s' -> vm_pass s = true ->
  (vm_pass s' = true /\ forall c, ~ In (LAssertion c) ls) \/ (vm_pass s' = false /\ exists l c, ls = l ++ [LAssertion c] /\ forall c, ~ In (LAssertion c) l).
Proof. exact run_assertion. Qed.
Print Assumptions C91_assertion.
Example C91_assertion_ex : exists s', run_prints whole (talk_file []) (begun vm_new (a_test "t" [dialog "1"; st IAssert ["1 == 1"%string]; st IAssert ["1 == 2"%string]; dialog "2"]))
  [LDialog (lit "1"); LAssertion (lit "1 == 2")] s' /\ vm_pass s' = false.
Proof. eexists. split; [apply run_lines_ok; exists 20%nat; vm_compute; reflexivity | reflexivity]. Qed.

(** C91: the lines about calling and leaving scripts are nested with matching names, and the last line of a test that passes is that of leaving its
    own script: what a script called from it prints stands between the two lines about it. *)
Theorem C91_nested : forall E file s t ls s', vm_ip s = [] -> run_prints E file (begun s t) ls s' -> vm_pass s' = true ->
  exists l, ls = l ++ [LPopping (sc_name (te_script t))] /\ nested l.
Proof.
  intros E file s t ls s' I R P. assert (Z : vm_ip s' = []).
  { clear I. remember (begun s t) as b eqn:B. clear B. induction R as [s0 U | s0 s1 s' a b U M Q R IH]; [| exact (IH P)]. destruct (vm_ip s0) eqn:V; [reflexivity |].
    destruct U. split; [exact P | rewrite V; discriminate]. }
  assert (U := run_nested E file _ _ _ R Z). cbn [begun vm_ip] in U. rewrite I in U. cbn [map fst] in U. inversion U as [| n st a b A B]; subst. inversion B; subst. eauto.
Qed.
Print Assumptions C91_nested.
Example C91_nested_ex : exists s', run_prints whole (talk_file []) (begun vm_new talk) talk_lines s' /\ vm_pass s' = true /\ vm_ip s' = [].
Proof. eexists. split; [apply run_lines_ok; exists 20%nat; vm_compute; reflexivity | split; reflexivity]. Qed.

(** C91: after a failure, the tests that are left print nothing but that they run and fail. *)
Theorem C91_after_failure : forall E file ts s, vm_pass s = false -> exists s', vm_pass s' = false /\
  tests_print E file ts s (flat_map (fun t => [LRunning (te_name t); LOutcome (te_name t) false]) ts) s'.
Proof.
  intros E file ts. induction ts as [| t ts IH]; intros s P; [exists s; split; [exact P | constructor] |].
  destruct (IH (begun s t) P) as (s' & P' & H). exists s'. split; [exact P' |]. cbn [flat_map app].
  replace (LOutcome (te_name t) false) with (LOutcome (te_name t) (vm_pass (begun s t))) by (cbn [begun vm_pass]; rewrite P; reflexivity).
  apply (TpTest E file t ts s (begun s t) []); [| exact H]. constructor. intros [U _]. cbn [begun vm_pass] in U. congruence.
Qed.
Print Assumptions C91_after_failure.
(** C91: so it is not true that a failed assertion is shown for each test reported as failed. *)
Theorem C91_shown_failure_refuted : exists ts s', tests_print whole (talk_file []) ts vm_new
  [LRunning (lit "b"); LAssertion (lit "1 == 2"); LOutcome (lit "b") false; LRunning (lit "t"); LOutcome (lit "t") false] s'.
Proof. exists [failing; talk]. eexists. apply tests_lines_ok. exists 20%nat. vm_compute. reflexivity. Qed.
Print Assumptions C91_shown_failure_refuted.
Example C91_after_failure_ex : exists s, vm_pass s = false /\ run_test whole fmpfile_new 9 (begun vm_new failing) = Ok s.
Proof. eexists. split; [| vm_compute; reflexivity]. reflexivity. Qed.
