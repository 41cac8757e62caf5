(** C100: everything that the program shows. *)
From Coq Require Import Ascii String NArith ZArith List Bool Lia Arith Permutation.
From Verif Require HistorySpec AbortProps ReportSpec ReportProps SourceSpec SourceProps TraceSpec TraceProps DecompRecoverSpec.
From Verif Require Import Prelude PreludeFacts InstrModel ComponentModel CalcModel CalcDemo DbModel DbGenSpec EvalModel VmModel VmSpec VmTestSpec VmTextSpec VmText AsmModel AsmSpec AsmLemmas AsmProps DecompModel SchemaModel
  SchemaSpec SchemaProps RunsSpec Runs DecompMaps MainModel MainSpec MainProofs MainProps SessionSpec Session SessionProps.
From Verif Require Import BurnModel GripeModel SourceModel PrintModel PrintSpec Print PrintProps TalkModel TalkSpec TalkRun TraceModel ReportModel WholeModel WholeSpec Whole.
Import ListNotations.
Local Open Scope N_scope.

(** A text that is complained about, with a test that names a variable nobody set. *)
Definition odd_input : list N * list N := (lit "odd.burn", lit "script: [ x define f { } ] test T: script: [ define g { assert(x != 5); } ] end test; ").
Definition odd_file : fmpfile := Eval vm_compute in match compile_burn whole (snd odd_input) with Ok f => set_name f (lit "odd") | _ => fmpfile_new end.
Definition odd_tests : list (spoken whole) :=
  [OfRunner whole (LRunning (lit "T")); OfCalculation whole (STree (NCompare (NVariable (lit "x")) TNeq (NNumber 5%Z))); OfCalculation whole (SUnknown (lit "x")); OfRunner whole (LPopping (lit "g"));
   OfRunner whole (LOutcome (lit "T") true)].
Definition odd_shown : list (shown whole) :=
  map WComplaint [GBetween] ++ WFile odd_file :: map WTests odd_tests ++ map WAssembler (TraceSpec.all_lines odd_file) ++ [WWritten (lit "odd.fmp12") (image odd_file)].
Lemma compile_one_shows E order fuel nt f i cs t n g l : source_told E (snd i) = (cs, Ok t) -> MainModel.strip_suffix (lit ".burn") (fst i) = Some n -> absorb (set_name f n) t = g ->
  testing_shown E order fuel nt g = (l, Ok tt) -> fits (order g) ->
  compile_one_shown E order fuel nt f i = (map WComplaint cs ++ WFile g :: l ++ map WAssembler (TraceSpec.all_lines (order g)) ++ [WWritten (f_name g ++ lit ".fmp12") (image (order g))], Ok g).
Proof.
  intros C S A T F. unfold compile_one_shown. rewrite C, S. unfold and_show, through, hidden, puts, unwrap. cbn [fst snd app]. rewrite A, T. cbn [fst snd app].
  rewrite (proj2 (TraceProps.C98_lines (order g) (TraceSpec.all_lines (order g)) (image (order g)))) by auto. cbn [fst snd]. reflexivity.
Qed.
Lemma odd_runs : whole_compile whole same 50 false [] [odd_input] = (odd_shown, Ok odd_file).
Proof.
  assert (R : compile_one_shown whole same 50 false fmpfile_new odd_input = (odd_shown, Ok odd_file)).
  { apply (compile_one_shows whole same 50 false fmpfile_new odd_input [GBetween] (set_name odd_file []) (lit "odd") odd_file (map WTests odd_tests)); [vm_compute; reflexivity..|fit]. }
  unfold whole_compile. cbn [test_files_shown inputs_shown]. generalize dependent odd_shown. intros es R. unfold and_show at 1, hidden at 1. cbn [fst snd]. unfold and_show. rewrite R. cbn [fst snd hidden app].
  now rewrite app_nil_r.
Qed.

(** C100: the files shown, the reports of tests and the files written among it are the events of C71, and both runs end in the same way. *)
Theorem C100_same : forall E order segment_order fuel no_testing tests inputs,
  seen E (whole_compile E order fuel no_testing tests inputs) = main_compile E order fuel no_testing tests inputs /\
  seen E (whole_decompile E order segment_order fuel no_testing tests inputs) = main_decompile E order segment_order fuel no_testing tests inputs.
Proof. intros. split; apply seen_whole; intros; [apply seen_compile|apply seen_decompile]. Qed.
Print Assumptions C100_same.
Example C100_same_ex : main_compile whole same 50 false [] [odd_input] =
  ([EInspect odd_file; ERunning (lit "T"); EReport (lit "T") true; EWritten (lit "odd.fmp12") (image odd_file)], Ok odd_file).
Proof.
  rewrite <- (proj1 (C100_same whole same (fun l => l) 50 false [] [odd_input])), odd_runs. unfold seen, odd_shown. generalize (TraceSpec.all_lines odd_file), (image odd_file). intros al im. cbn [fst snd]. apply f_equal2; [|reflexivity].
  rewrite flat_map_app. cbn [map flat_map event_of app]. rewrite !flat_map_app. replace (flat_map (event_of whole) (map WAssembler al)) with (@nil MainModel.event) by (induction al; auto). reflexivity.
Qed.

(** C100: compiling.  Whatever the order in which maps are visited, a run that comes to an end shows what the texts say, see [compiles_showing] in WholeSpec.v: for each text the
    complaints about it, the file, the lines of its tests, the lines of the assembler, and the file that is written. *)
Theorem C100_compile : forall E order fuel no_testing tests inputs es r, (forall f, reordered f (order f)) ->
  whole_compile E order fuel no_testing tests inputs = (es, r) -> r <> NoFuel ->
  exists last, ended r last /\ shows_program E (compiles_showing E no_testing) tests inputs es last.
Proof.
  intros E order fuel nt tests inputs es r AO H NF. exists (option_of r). split; [destruct r; [reflexivity|reflexivity|now elim NF]|].
  unfold whole_compile in H. destruct (test_files_shown E tests fmpfile_new) as [e1 r1] eqn:T. destruct (files_show E tests _ _ _ T) as [(-> & b & i & a & tgs & g & -> & F & Nt & ->)|(tgs & -> & F & ->)].
  - unfold and_show in H. cbn [fst snd] in H. injection H as <- <-. left. exists b, i, a, tgs, g. auto.
  - unfold and_show at 1 in H. cbn [fst snd] in H. destruct (inputs_shown E (compile_one_shown E order fuel nt) inputs _) as [e2 r2] eqn:R. cbn [fst snd] in H. injection H as <- <-. right. exists tgs, e2.
    split; [exact F|]. split; [|reflexivity]. eapply (compile_shows E order fuel nt (fun l => l)); eauto. now apply collected_start.
Qed.
Print Assumptions C100_compile.
Example C100_compile_ex : (forall f, reordered f (same f)) /\ whole_compile whole same 50 false [] [odd_input] = (odd_shown, Ok odd_file) /\ length (f_tests odd_file) = 1%nat.
Proof. split; [apply same_order|]. split; [exact odd_runs|]. reflexivity. Qed.
(** A test that breaks off: what was printed before stays, also of the calculation of the step that cannot be done, and nothing is assembled. *)
Definition broken_tests : list (spoken whole) :=
  odd_tests ++ [OfRunner whole (LRunning (lit "A")); OfCalculation whole (STree (NNumber 1%Z)); OfRunner whole (LPopping (lit "a")); OfRunner whole (LOutcome (lit "A") true);
    OfRunner whole (LRunning (lit "B")); OfCalculation whole (STree (NNumber 1%Z))].
Example C100_breaks_off_ex : exists g, whole_compile whole same 50 false [odd_input] [breaking_input] = (WComplaint GBetween :: WFile g :: map WTests broken_tests, Panic) /\ f_name g = lit "x" /\ length (f_tests g) = 3%nat.
Proof. eexists. split; [vm_compute; reflexivity|]. split; reflexivity. Qed.

(** C100: decompiling: for each file the lines about its records, the file, and the lines of the tests. *)
Theorem C100_decompile : forall E order segment_order fuel no_testing tests inputs es r, (forall f, reordered f (order f)) -> (forall l, Permutation (segment_order l) l) ->
  Forall (fun i => bytes (snd i)) inputs -> whole_decompile E order segment_order fuel no_testing tests inputs = (es, r) -> r <> NoFuel ->
  exists last, ended r last /\ shows_program E (decompiles_showing E no_testing) tests inputs es last.
Proof.
  intros E order so fuel nt tests inputs es r AO PO B H NF. exists (option_of r). split; [destruct r; [reflexivity|reflexivity|now elim NF]|].
  unfold whole_decompile in H. destruct (test_files_shown E tests fmpfile_new) as [e1 r1] eqn:T. destruct (files_show E tests _ _ _ T) as [(-> & b & i & a & tgs & g & -> & F & Nt & ->)|(tgs & -> & F & ->)].
  - unfold and_show in H. cbn [fst snd] in H. injection H as <- <-. left. exists b, i, a, tgs, g. auto.
  - unfold and_show at 1 in H. cbn [fst snd] in H. destruct (inputs_shown E (decompile_one_shown E order so fuel nt) inputs _) as [e2 r2] eqn:R. cbn [fst snd] in H. injection H as <- <-. right. exists tgs, e2.
    split; [exact F|]. split; [|reflexivity]. eapply (decompile_shows E order fuel nt so); eauto. now apply collected_start.
Qed.
Print Assumptions C100_decompile.
Example C100_decompile_ex : bytes (DecompRecoverSpec.file_of [ReportProps.demo_lines]) /\
  whole_decompile whole same (fun l => l) (N.to_nat 500) false [odd_input] [(lit "a.fmp12", DecompRecoverSpec.file_of [ReportProps.demo_lines]); (lit "b.fmp12", ReportProps.demo_unknown)] =
  (WComplaint GBetween :: map WDecompiler [RByte 9; RByte 8; RFunction; RFunction] ++ WFile ReportProps.demo_lines_file :: map WTests odd_tests ++ map WDecompiler [RByte 9; RCode 107 8192 0x34], Panic).
Proof.
  split; [exact ReportProps.demo_lines_bytes|]. unfold whole_decompile. cbn [test_files_shown inputs_shown]. unfold decompile_one_shown. cbn [fst snd].
  rewrite ReportProps.demo_lines_runs, ReportProps.demo_unknown_runs. vm_compute. reflexivity.
Qed.

(** C100: whatever is written, the lines of the assembler for it stand right before it, and before them the file and the lines of its tests. *)
Lemma session_shows E nt ts done inputs es last n c : compiles_showing E nt ts done inputs es last -> In (WWritten n c) es ->
  exists before g g' ls after, es = before ++ WFile g :: map WTests ls ++ map WAssembler (TraceSpec.all_lines g') ++ WWritten n c :: after /\
    n = f_name g ++ lit ".fmp12" /\ reordered g g' /\ fits g' /\ c = image g' /\ tests_shown E nt g' ls true.
Proof.
  assert (M : forall L (k : L -> shown E) l, (forall x, k x <> WWritten n c) -> ~ In (WWritten n c) (map k l)).
  { intros L k l Hk I. apply in_map_iff in I as (x & Q & _). now apply (Hk x). }
  induction 1 as [done f C|done name code inputs g Nt|done name code inputs f g Nn S|done name code f cs g g' ls inputs S C Nm R T|done name code f cs g g' ls l inputs S C Nm R T F|
    done name code f cs g g' ls inputs es last S C Nm R T F K IH]; intros I.
  - destruct I.
  - exfalso. revert I. apply M. discriminate.
  - exfalso. revert I. apply M. discriminate.
  - exfalso. apply in_app_or in I as [I|[I|I]]; [|discriminate|]; revert I; apply M; discriminate.
  - exfalso. apply in_app_or in I as [I|[I|I]]; [|discriminate|]; [revert I; apply M; discriminate|]. apply in_app_or in I as [I|I]; revert I; apply M; discriminate.
  - apply in_app_or in I as [I|[I|I]]; [exfalso; revert I; apply M; discriminate|discriminate|]. apply in_app_or in I as [I|I]; [exfalso; revert I; apply M; discriminate|].
    apply in_app_or in I as [I|I]; [exfalso; revert I; apply M; discriminate|]. destruct I as [I|I].
    + injection I as <- <-. exists (map WComplaint cs), g, g', ls, es. split; [reflexivity|]. rewrite Nm. auto.
    + destruct (IH I) as (b & h & h' & ls' & a & Q & P). generalize dependent (TraceSpec.all_lines g'). intros al.
      exists (map WComplaint cs ++ WFile g :: map WTests ls ++ map WAssembler al ++ WWritten (name ++ lit ".fmp12") (image g') :: b), h, h', ls', a. split; [|exact P].
      rewrite Q. repeat (rewrite <- app_assoc || rewrite <- app_comm_cons). reflexivity.
Qed.
Theorem C100_written : forall E order fuel no_testing tests inputs es r n c, (forall f, reordered f (order f)) ->
  whole_compile E order fuel no_testing tests inputs = (es, r) -> r <> NoFuel -> In (WWritten n c) es ->
  exists before g g' ls after, es = before ++ WFile g :: map WTests ls ++ map WAssembler (TraceSpec.all_lines g') ++ WWritten n c :: after /\
    n = f_name g ++ lit ".fmp12" /\ reordered g g' /\ fits g' /\ c = image g' /\ tests_shown E no_testing g' ls true.
Proof.
  intros E order fuel nt tests inputs es r n c AO H NF I. destruct (C100_compile _ _ _ _ _ _ _ _ AO H NF) as (last & _ & [(b & i & a & tgs & g & _ & _ & _ & -> & _)|(tgs & es' & _ & S & ->)]).
  - exfalso. apply in_map_iff in I as (x & Q & _). discriminate.
  - apply in_app_or in I as [I|I]; [exfalso; apply in_map_iff in I as (x & Q & _); discriminate|]. destruct (session_shows _ _ _ _ _ _ _ _ _ S I) as (b & g & g' & ls & a & -> & P).
    exists (map WComplaint (concat (map snd tgs)) ++ b), g, g', ls, a. split; [now rewrite <- app_assoc|exact P].
Qed.
Print Assumptions C100_written.
Example C100_written_ex : (forall f, reordered f (same f)) /\ exists es, whole_compile whole same 50 false [] [odd_input] = (es, Ok odd_file) /\ In (WWritten (lit "odd.fmp12") (image odd_file)) es.
Proof.
  split; [apply same_order|]. exists odd_shown. split; [exact odd_runs|]. unfold odd_shown. generalize (TraceSpec.all_lines odd_file), (image odd_file). intros al im. apply in_or_app. right. right.
  apply in_or_app. right. apply in_or_app. right. left. reflexivity.
Qed.

(** C100: a complaint about a text, or about a variable in a test, keeps nothing from being written: that both do is false. *)
Theorem C100_complaints_stop_refuted : exists es f, whole_compile whole same 50 false [] [odd_input] = (es, Ok f) /\ In (WComplaint GBetween) es /\ In (WTests (OfCalculation whole (SUnknown (lit "x")))) es /\
  exists n c, In (WWritten n c) es.
Proof.
  exists odd_shown, odd_file. split; [exact odd_runs|]. split; [left; reflexivity|]. split.
  - unfold odd_shown. generalize (TraceSpec.all_lines odd_file), (image odd_file). intros al im. right. right. apply in_or_app. left. right. right. left. reflexivity.
  - exists (lit "odd.fmp12"), (image odd_file). destruct C100_written_ex as (_ & es & R & I). rewrite odd_runs in R. now injection R as <-.
Qed.
Print Assumptions C100_complaints_stop_refuted.
