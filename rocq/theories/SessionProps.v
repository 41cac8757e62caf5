(** C88: what the program does, from the texts and files given to it. *)
From Coq Require Import Ascii String NArith List Bool Lia Arith Permutation.
From Verif Require DecompRecoverSpec.
From Verif Require Import Prelude PreludeFacts InstrModel ComponentModel CalcModel CalcDemo DbModel DbGenSpec EvalModel EvalSpec VmModel VmSpec VmTestSpec VmProps VmTextSpec AsmSpec AsmProps DecompModel SchemaModel SchemaSpec SchemaProps RunsSpec Runs MainModel MainSpec MainProofs MainProps DecompRecoverProps AbortProps SessionSpec Session.
Import ListNotations.
Local Open Scope N_scope.

Lemma Forall2_weaken {A B} (P Q : A -> B -> Prop) l m : (forall a b, P a b -> Q a b) -> Forall2 P l m -> Forall2 Q l m.
Proof. intros H. induction 1; constructor; auto. Qed.

(** C88: compiling: whatever the order in which maps are visited, a run that comes to an end shows, prints and writes what the texts say: see
    [compiles] in SessionSpec.  It ends early with a panic only where the texts say so. *)
Theorem C88_compile : forall E order fuel no_testing tests inputs es r, (forall f, reordered f (order f)) ->
  main_compile E order fuel no_testing tests inputs = (es, r) -> r <> NoFuel ->
  exists last, ended r last /\ runs_program E (compiles E no_testing) tests inputs es last.
Proof.
  intros E order fuel nt tests inputs es r AO H NF. exists (option_of r). split; [destruct r; [reflexivity|reflexivity|now elim NF]|].
  apply C71_compile in H as [(-> & -> & i & I & P)|(ts & F & S)].
  - left. split; [reflexivity|]. split; [reflexivity|]. exists i. split; [exact I|]. now apply text_fails.
  - right. exists ts. split; [apply (Forall2_weaken _ _ _ _ (fun i t H => text_compiles E (snd i) t H) F)|]. eapply (compiles_session E order fuel nt (fun l => l)); eauto.
Qed.
Print Assumptions C88_compile.
Lemma same_order f : reordered f (same f).
Proof. unfold reordered, same. repeat (split; [first [reflexivity|apply Permutation_refl]|]). reflexivity. Qed.
Example C88_compile_ex : (forall f, reordered f (same f)) /\ exists es, two_files = (es, Ok both_files) /\
  runs_program whole (compiles whole false) [] [first_input; second_input] es (Some both_files).
Proof.
  split; [apply same_order|]. eexists. split; [apply two_files_run|].
  destruct (C88_compile whole same 50 false [] [first_input; second_input] _ _ same_order two_files_run) as (last & L & R); [discriminate|].
  destruct last; inversion L; subst. exact R.
Qed.
(** A test that breaks off: the report of the one before has been printed, and nothing is written. *)
Definition breaking_input : list N * list N := (lit "x.burn", lit "test A: script: [ define a() { set_variable(x, 1); } ], end test; test B: script: [ define b() { set_field(A::x, 1); } ], end test;").
Example C88_breaks_off_ex : exists g, main_compile whole same 50 false [] [breaking_input] = ([EInspect g; ERunning (lit "A"); EReport (lit "A") true; ERunning (lit "B")], Panic) /\ f_name g = lit "x".
Proof. eexists. split; [vm_compute; reflexivity|reflexivity]. Qed.

(** C88: decompiling. *)
Theorem C88_decompile : forall E order segment_order fuel no_testing tests inputs es r, (forall f, reordered f (order f)) -> (forall l, Permutation (segment_order l) l) ->
  Forall (fun i => bytes (snd i)) inputs -> main_decompile E order segment_order fuel no_testing tests inputs = (es, r) -> r <> NoFuel ->
  exists last, ended r last /\ runs_program E (decompiles E no_testing) tests inputs es last.
Proof.
  intros E order so fuel nt tests inputs es r AO PO B H NF. exists (option_of r). split; [destruct r; [reflexivity|reflexivity|now elim NF]|].
  apply C71_decompile in H as [(-> & -> & i & I & P)|(ts & F & S)].
  - left. split; [reflexivity|]. split; [reflexivity|]. exists i. split; [exact I|]. now apply text_fails.
  - right. exists ts. split; [apply (Forall2_weaken _ _ _ _ (fun i t H => text_compiles E (snd i) t H) F)|]. eapply (decompiles_session E order fuel nt so); eauto.
Qed.
Print Assumptions C88_decompile.
Example C88_decompile_ex : exists f g, bytes (DecompRecoverSpec.file_of [DecompRecoverSpec.stored demo_schema]) /\
  main_decompile whole (fun f => f) (fun l => l) (N.to_nat 5000) true [] [(lit "a.fmp12", DecompRecoverSpec.file_of [DecompRecoverSpec.stored demo_schema])] = ([EInspect f], Ok g) /\
  runs_program whole (decompiles whole true) [] [(lit "a.fmp12", DecompRecoverSpec.file_of [DecompRecoverSpec.stored demo_schema])] [EInspect f] (Some g).
Proof.
  assert (B : bytes (DecompRecoverSpec.file_of [DecompRecoverSpec.stored demo_schema])) by by_bytes.
  destruct C55_decompile_ex as (f & H & _). exists f. eexists. split; [exact B|]. split; [exact H|].
  destruct (C88_decompile whole (fun f => f) (fun l => l) (N.to_nat 5000) true [] [(lit "a.fmp12", DecompRecoverSpec.file_of [DecompRecoverSpec.stored demo_schema])] _ _ same_order (fun l => Permutation_refl l)
    ltac:(constructor; [exact B|constructor]) H) as (last & L & R); [discriminate|]. destruct last; inversion L; subst. exact R.
Qed.

(** C88: a file is written only after every test collected up to it has come to an end; what was shown, printed and written for it stands together. *)
Definition tests_of_run (no_testing : bool) (g : fmpfile) (rs : list (list N * bool)) : Prop :=
  if no_testing then rs = [] else map fst rs = map te_name (f_tests g).
Lemma reported_names E g ts s rs s' : reported E g ts s rs s' -> map fst rs = map te_name ts.
Proof. induction 1; cbn; congruence. Qed.
Lemma shown_written n c rs : ~ In (EWritten n c) (shows rs).
Proof. induction rs as [|r rs IH]; cbn; intuition discriminate. Qed.
Lemma tests_end_true E nt g es : tests_end E nt g es true -> exists rs, es = shows rs /\ tests_of_run nt g rs.
Proof.
  inversion 1 as [Q|s rs s' N T F S R| |]; subst.
  - exists []. split; [reflexivity|]. unfold tests_of_run. destruct nt; [reflexivity|]. destruct Q as [Q|Q]; [discriminate|]. now rewrite Q.
  - exists rs. split; [reflexivity|]. cbn. eapply reported_names; eauto.
Qed.
Lemma tests_end_written E nt g es ok n c : tests_end E nt g es ok -> ~ In (EWritten n c) es.
Proof.
  intros T. destruct T as [K|s rs s1 K1 K2 K3 K4 K5|K1 K2 K3|s b t a rs s1 K1 K2 K3 K4 K5 K6]; cbn; auto.
  - apply shown_written.
  - intros H. apply in_app_or in H as [H|[H|[]]]; [now apply shown_written in H|discriminate].
Qed.
Lemma session_writes E nt ts done inputs es last : compiles E nt ts done inputs es last -> forall n c, In (EWritten n c) es ->
  exists before g g' rs after, es = before ++ EInspect g :: shows rs ++ EWritten n c :: after /\ n = f_name g ++ lit ".fmp12" /\ reordered g g' /\ fits g' /\ c = image g' /\ tests_of_run nt g rs.
Proof.
  induction 1 as [done f C| | |done name code f g g' reports inputs X C N R T|done name code f g g' reports inputs X C N R T F|done name code f g g' reports inputs es last X C N R T F S IH]; intros n c Hi; try destruct Hi as [Hi|Hi];
    try discriminate; try contradiction.
  - now apply (tests_end_written _ _ _ _ _ n c T) in Hi.
  - now apply (tests_end_written _ _ _ _ _ n c T) in Hi.
  - apply in_app_or in Hi as [Hi|[Hi|Hi]].
    + now apply (tests_end_written _ _ _ _ _ n c T) in Hi.
    + inversion Hi; subst. destruct (tests_end_true _ _ _ _ T) as (rs & -> & Q). exists [], g, g', rs, es. split; [reflexivity|]. repeat (split; [solve [auto]|]).
      unfold tests_of_run in *. destruct nt; [exact Q|]. destruct R as (_ & _ & _ & _ & _ & _ & _ & _ & Qt). now rewrite <- Qt.
    + destruct (IH n c Hi) as (b & h & h' & rs & a & -> & K). exists (EInspect g :: reports ++ EWritten (name ++ lit ".fmp12") (image g') :: b), h, h', rs, a. split; [|exact K].
      cbn [app]. now rewrite <- app_assoc.
Qed.
Theorem C88_written : forall E order fuel no_testing tests inputs es r n c, (forall f, reordered f (order f)) ->
  main_compile E order fuel no_testing tests inputs = (es, r) -> r <> NoFuel -> In (EWritten n c) es ->
  exists before g g' rs after, es = before ++ EInspect g :: shows rs ++ EWritten n c :: after /\ n = f_name g ++ lit ".fmp12" /\ reordered g g' /\ fits g' /\ c = image g' /\ tests_of_run no_testing g rs.
Proof.
  intros E order fuel nt tests inputs es r n c AO H NF I. destruct (C88_compile E order fuel nt tests inputs es r AO H NF) as (last & _ & [(-> & _)|(ts & _ & S)]); [destruct I|].
  eapply session_writes; eauto.
Qed.
Print Assumptions C88_written.
Example C88_written_ex : exists es, two_files = (es, Ok both_files) /\ In (EWritten (lit "one.fmp12") (image first_file)) es /\ In (EWritten (lit "two.fmp12") (image both_files)) es.
Proof. eexists. split; [apply two_files_run|]. split; [do 3 right; left; reflexivity|]. do 7 right. left. reflexivity. Qed.

(** C88: a failing test does not keep the file from being written, and the program ends as if all was well. *)
Definition failing_input : list N * list N := (lit "x.burn", lit "test A: script: [ define a() { assert(1 == 2); } ], end test;").
Definition failing_file : fmpfile := Eval vm_compute in match compile_burn whole (snd failing_input) with Ok f => set_name f (lit "x") | _ => fmpfile_new end.
Theorem C88_failed_test_stops_refuted : exists inputs g c, main_compile whole same 50 false [] inputs = ([EInspect g; ERunning (lit "A"); EReport (lit "A") false; EWritten (lit "x.fmp12") c], Ok g).
Proof.
  exists [failing_input], failing_file, (image (same failing_file)). unfold main_compile. cbn [test_files for_inputs].
  assert (R : compile_one whole same 50 false fmpfile_new failing_input = (EInspect failing_file :: [ERunning (lit "A"); EReport (lit "A") false] ++ [EWritten (f_name failing_file ++ lit ".fmp12") (image (same failing_file))], Ok failing_file)).
  { apply (compile_one_runs whole same 50 false fmpfile_new failing_input (set_name failing_file []) (lit "x") failing_file [ERunning (lit "A"); EReport (lit "A") false]); first [fit | vm_compute; reflexivity]. }
  unfold and_then, lift. cbv zeta. cbn [fst snd]. rewrite !R. cbn [fst snd app]. reflexivity.
Qed.
Print Assumptions C88_failed_test_stops_refuted.
