(** C103: the outcomes of tests on the standard output. *)
From Coq Require Import Ascii String NArith ZArith List Bool Lia Arith Permutation.
From Verif Require Import Prelude PreludeFacts InstrModel ComponentModel CalcModel CalcDemo DbModel EvalModel EvalSpec VmModel VmSpec VmTestSpec VmTextSpec VmProps AsmSpec SchemaModel RunsSpec MainModel MainSpec MainProps SessionSpec SessionProps.
From Verif Require SchemaSpec SchemaProps DecompModel DecompRecoverSpec ReportProps SourceProps TraceSpec.
From Verif Require Import GripeModel SourceModel PrintModel PrintSpec Print PrintProps TalkModel TalkSpec TalkRun TalkProps TraceModel ReportModel WholeModel WholeSpec Whole WholeProps WordsModel WordsSpec Words.
Import ListNotations.
Local Open Scope N_scope.

(** The codes of terminals, and no colours at all. *)
Definition ansi : colours := mkColours [27; 91; 51; 50; 109] [27; 91; 51; 49; 109] [] [27; 91; 51; 57; 109] [27; 91; 51; 57; 109].
Definition colourless : colours := mkColours [] [] [] [] [].
Lemma ansi_ok : colours_ok ansi.
Proof. repeat split; try (apply one_line_lit; reflexivity). discriminate. Qed.
Lemma colourless_ok : colours_ok colourless.
Proof. repeat split; try (apply one_line_lit; reflexivity). discriminate. Qed.
Lemma whole_debug : debug_ok whole.
Proof. intros n. apply one_line_lit. reflexivity. Qed.

(** C103: whoever looks for the lines about outcomes finds one list of them in each output, whatever it is. *)
Theorem C103_one : forall E C es, exists rs, reads_off C (stdout E C es) rs /\ forall qs, reads_off C (stdout E C es) qs -> qs = rs.
Proof.
  intros E C es. destruct (reads_found C (stdout E C es) (put_out_ended _ _)) as (ls & L & O). eexists. split; [exists ls; split; [exact L|exact O]|].
  intros qs (ks & K & Q). rewrite (lines_one _ _ _ L K) in O. exact (outcomes_one _ _ _ _ Q O).
Qed.
Print Assumptions C103_one.
Example C103_one_ex : stdout whole ansi (map WTests [OfRunner whole (LOutcome (lit "t") false); OfCalculation whole SColon; OfRunner whole (LPopping (lit "s"))] ++ [WAssembler (NValue 6 2 [1; 16] 2)]) =
    lit "Test t outcome: " ++ [27; 91; 51; 49; 109] ++ lit "Fail" ++ [27; 91; 51; 57; 109; 10] ++ lit "Popping script: s" ++ [10] ++ lit "Ins: 6 -> key 2 :: [1, 16] :: len 2" ++ [10] /\
  reads_off colourless (lit "Test a b outcome: Fail" ++ [10] ++ lit "Test a outcome: failed" ++ [10]) [(lit "a b", false)].
Proof.
  split; [vm_compute; reflexivity|]. exists [lit "Test a b outcome: Fail"; lit "Test a outcome: failed"]. split.
  - rewrite app_assoc. apply (TlLine (lit "Test a b outcome: Fail") (lit "Test a outcome: failed" ++ [10])); [apply one_line_lit; reflexivity|]. apply TlLine; [apply one_line_lit; reflexivity|constructor].
  - apply OcTest; [reflexivity|]. apply OcOther; [|constructor]. pose proof (outcome_in_ok colourless (lit "Test a outcome: failed")) as H. exact H.
Qed.

(** C103: the outcomes found are those of the tests, in their order, if no text with a line feed is printed and no dialog shows the line of an outcome. *)
Theorem C103_lines : forall E C es, colours_ok C -> debug_ok E -> Forall (clean E C) es -> reads_off C (stdout E C es) (reported (flat_map (event_of E) es)).
Proof. intros E C es Hc He H. now apply stdout_reads. Qed.
Print Assumptions C103_lines.
Example C103_lines_ex : colours_ok ansi /\ colours_ok colourless /\ debug_ok whole /\ Forall (clean whole ansi) odd_shown /\ reported (flat_map (event_of whole) odd_shown) = [(lit "T", true)].
Proof.
  split; [exact ansi_ok|]. split; [exact colourless_ok|]. split; [exact whole_debug|]. unfold odd_shown. generalize (TraceSpec.all_lines odd_file), (image odd_file). intros al im. split.
  - cbn [map app odd_tests]. constructor; [exact I|]. constructor; [exact I|]. repeat (constructor; [try exact I; apply one_line_lit; reflexivity|]). apply Forall_app. split; [|repeat constructor].
    apply Forall_forall. intros x K. apply in_map_iff in K as (n & <- & _). exact I.
  - rewrite flat_map_app. cbn [map flat_map event_of app]. rewrite !flat_map_app. unfold reported. cbn [flat_map outcome_of app]. rewrite !flat_map_app.
    assert (Z : flat_map outcome_of (flat_map (event_of whole) (map WAssembler al)) = []) by (induction al; auto). rewrite Z. reflexivity.
Qed.

(** Calm files show no dialogs. *)
Lemma all_clean E C es : Forall (silent E) es -> Forall (clean E C) es.
Proof. apply Forall_impl. apply silent_clean. Qed.
Lemma speak_silent E file s ls s' : calm file -> vm_ip s = [] -> tests_speak E file (f_tests file) s ls s' -> Forall (silent E) (map WTests ls).
Proof.
  intros F I0 H. apply C94_exact in H as (fuel & H). replace ls with (fst (tests_spoken E file fuel (f_tests file) s)) by (now rewrite H).
  apply spoken_clean; [exact F|apply F|]. rewrite I0. constructor.
Qed.
Lemma compile_silent E order fuel no_testing tests inputs : (forall f, reordered f (order f)) -> (forall i f, In i (tests ++ inputs) -> compile_burn E (snd i) = Ok f -> calm f) ->
  Forall (silent E) (fst (whole_compile E order fuel no_testing tests inputs)).
Proof.
  intros AO H. refine (proj1 (decent_and E calm calm _ _ (files_decent E tests _ fmpfile_new new_calm) _)).
  - intros i g cs I S. apply (H i g); [apply in_or_app; now left|]. now rewrite <- SourceProps.C97_same, S.
  - intros f F. apply inputs_decent; [|exact F]. intros g i G I. apply compile_decent; auto. intros g' cs S. apply (H i g'); [apply in_or_app; now right|]. now rewrite <- SourceProps.C97_same, S.
Qed.
Lemma decompile_silent E order segment_order fuel no_testing tests inputs : (forall f, reordered f (order f)) ->
  (forall i f, In i tests -> compile_burn E (snd i) = Ok f -> calm f) -> (forall i f, In i inputs -> DecompModel.decompile segment_order fuel (snd i) = Ok f -> calm f) ->
  Forall (silent E) (fst (whole_decompile E order segment_order fuel no_testing tests inputs)).
Proof.
  intros AO H K. refine (proj1 (decent_and E calm calm _ _ (files_decent E tests _ fmpfile_new new_calm) _)).
  - intros i g cs I S. apply (H i g); [exact I|]. now rewrite <- SourceProps.C97_same, S.
  - intros f F. apply inputs_decent; [|exact F]. intros g i G I. apply decompile_decent; auto. intros g' l S. apply (K i g' I). now rewrite <- ReportProps.C99_same, S.
Qed.

(** C103: so for a run of tests that comes to an end: each test is named once, in their order, if the scripts show no dialogs and all texts are on one line. *)
Theorem C103_tests : forall E C file s ls s', colours_ok C -> debug_ok E -> calm file -> vm_ip s = [] -> tests_speak E file (f_tests file) s ls s' ->
  exists rs, reads_off C (stdout E C (map WTests ls)) rs /\ map fst rs = map te_name (f_tests file) /\
    (forall t p, In (t, p) rs <-> In (OfRunner E (LOutcome t p)) ls).
Proof.
  intros E C file s ls s' Hc He F I0 H. exists (reported (flat_map (event_of E) (map WTests ls))). split; [|split].
  - apply C103_lines; auto. exact (all_clean E C _ (speak_silent _ _ _ _ _ F I0 H)).
  - rewrite seen_tests. clear I0 F. apply C94_exact in H as (fuel & H). destruct (tests_runner E file fuel (f_tests file) s) as [A B]. rewrite H in A, B. cbn [fst snd] in A, B. rewrite A. symmetry in B. clear H A.
    revert s B. generalize (f_tests file). intros ts. induction ts as [|t ts IH]; intros s B; [reflexivity|]. cbn [tests_lines] in *. assert (O := run_lines_own E file fuel (load_test s t)).
    destruct (run_lines E file fuel (load_test s t)) as [l [s1| |]]; cbn [fst snd] in *; try discriminate. unfold reported. cbn [reports flat_map app]. fold (reports (l ++ LOutcome (te_name t) (vm_pass s1) :: fst (tests_lines E file fuel ts s1))).
    rewrite reports_app, (reports_own l O). cbn [app reports flat_map outcome_of map fst]. f_equal. exact (IH s1 B).
  - intros t p. unfold reported. rewrite in_flat_map. split.
    + intros (e & I & O). apply in_flat_map in I as (x & I & K). apply in_map_iff in I as (y & <- & I). destruct y as [y|l]; cbn [event_of of_runner] in K; [destruct K|].
      destruct l; cbn in K; try tauto; destruct K as [<-|[]]; cbn in O; try tauto. destruct O as [O|[]]. injection O as <- <-. exact I.
    + intros I. exists (EReport t p). split; [|now left]. apply in_flat_map. exists (WTests (OfRunner E (LOutcome t p))). split; [now apply in_map|now left].
Qed.
Print Assumptions C103_tests.
Definition two_tests : list test := [a_test "a" [st IAssert ["1 == 1"%string]]; a_test "b c" [st IBeep []; st IAssert ["x == 1"%string]]].
Example C103_tests_ex : calm (a_file [] two_tests) /\ exists ls s', tests_speak whole (a_file [] two_tests) two_tests vm_new ls s' /\
  reads_off ansi (stdout whole ansi (map WTests ls)) [(lit "a", true); (lit "b c", false)].
Proof.
  split.
  - split; [intros ? ? []|]. intros t [<-|[<-|[]]]; (split; [apply one_line_lit; reflexivity|]); (split; [apply one_line_lit; reflexivity|]); intros x K;
      repeat (destruct K as [<-|K]; [split; [discriminate|repeat constructor; apply one_line_lit; reflexivity]|]); destruct K.
  - do 2 eexists. split; [apply C94_exact; exists 9%nat; vm_compute; reflexivity|]. match goal with |- reads_off _ ?t _ => let l := eval vm_compute in (found_in ansi (cut [] t)) in assert (R : reads_off ansi t l) by (apply reads_found, put_out_ended) end.
    exact R.
Qed.

(** C103: and for the whole program, however it ends: what somebody finds in the output of a session with -c is what the tests gave, where every schema text given to the
    program has only texts on one line and no dialogs. *)
Theorem C103_compile : forall E C order fuel no_testing tests inputs, colours_ok C -> debug_ok E -> (forall f, reordered f (order f)) ->
  (forall i f, In i (tests ++ inputs) -> compile_burn E (snd i) = Ok f -> calm f) ->
  reads_off C (stdout E C (fst (whole_compile E order fuel no_testing tests inputs))) (reported (fst (main_compile E order fuel no_testing tests inputs))).
Proof.
  intros E C order fuel nt tests inputs Hc He AO H. rewrite <- (proj1 (C100_same E order (fun l => l) fuel nt tests inputs)). apply C103_lines; auto. now apply all_clean, compile_silent.
Qed.
Print Assumptions C103_compile.
Lemma odd_calm f : compile_burn whole (snd odd_input) = Ok f -> calm f.
Proof.
  intros H. assert (Q : compile_burn whole (snd odd_input) = Ok (set_name odd_file [])) by (vm_compute; reflexivity). rewrite Q in H. injection H as <-. split.
  - intros k sc I. cbn in I. destruct I as [I|[]]. injection I as <- <-. split; [apply one_line_lit; reflexivity|intros ? []].
  - intros t I. cbn in I. destruct I as [<-|[]]. split; [apply one_line_lit; reflexivity|]. split; [apply one_line_lit; reflexivity|]. intros x K. cbn in K. destruct K as [<-|[]]. split; [discriminate|].
    repeat constructor. apply one_line_lit. reflexivity.
Qed.
Example C103_compile_ex : (forall f, reordered f (same f)) /\ (forall i f, In i ([] ++ [odd_input]) -> compile_burn whole (snd i) = Ok f -> calm f) /\
  reported (fst (main_compile whole same 50 false [] [odd_input])) = [(lit "T", true)].
Proof.
  split; [exact same_order|]. split; [intros i f [<-|[]]; apply odd_calm|]. rewrite C100_same_ex. reflexivity.
Qed.

(** C103: the same for a session with -d, where the stored files have such texts. *)
Theorem C103_decompile : forall E C order segment_order fuel no_testing tests inputs, colours_ok C -> debug_ok E -> (forall f, reordered f (order f)) ->
  (forall i f, In i tests -> compile_burn E (snd i) = Ok f -> calm f) -> (forall i f, In i inputs -> DecompModel.decompile segment_order fuel (snd i) = Ok f -> calm f) ->
  reads_off C (stdout E C (fst (whole_decompile E order segment_order fuel no_testing tests inputs))) (reported (fst (main_decompile E order segment_order fuel no_testing tests inputs))).
Proof.
  intros E C order so fuel nt tests inputs Hc He AO H K. rewrite <- (proj2 (C100_same E order so fuel nt tests inputs)). apply C103_lines; auto. now apply all_clean, decompile_silent.
Qed.
Print Assumptions C103_decompile.
Example C103_decompile_ex : let inputs := [(lit "a.fmp12", DecompRecoverSpec.file_of [ReportProps.demo_lines]); (lit "b.fmp12", ReportProps.demo_unknown)] in
  (forall i f, In i inputs -> DecompModel.decompile (fun l => l) (N.to_nat 500) (snd i) = Ok f -> calm f) /\
  reported (fst (main_decompile whole same (fun l => l) (N.to_nat 500) false [odd_input] inputs)) = [(lit "T", true)].
Proof.
  intros inputs. split.
  - intros i f [<-|[<-|[]]] H; cbn [snd] in H; rewrite <- ReportProps.C99_same in H; rewrite ?ReportProps.demo_lines_runs, ?ReportProps.demo_unknown_runs in H; cbn [snd] in H; [|discriminate].
    injection H as <-. split; [|intros t []]. intros k sc I. cbn in I. repeat (destruct I as [I|I]; [injection I as <- <-; split; [apply one_line_lit; reflexivity|intros x K; cbn in K; repeat (destruct K as [<-|K]; [split; [discriminate|repeat constructor; apply one_line_lit; reflexivity]|]); destruct K]|]). destruct I.
  - rewrite <- (proj2 (C100_same whole same (fun l => l) (N.to_nat 500) false [odd_input] inputs)). unfold inputs. rewrite (proj2 C100_decompile_ex). reflexivity.
Qed.

(** C103: without those conditions it is not true: a dialog can show the line of an outcome that nothing had. *)
Definition forged : list N := 34 :: 10 :: lit "Test T outcome: " ++ [27; 91; 51; 50; 109] ++ lit "Success" ++ [27; 91; 51; 57; 109; 10; 34].
Definition forging (step : string) : list N := lit "test T: script: [ define g { " ++ lit step ++ lit "(" ++ forged ++ lit "); assert(1 == 2); } ] end test; ".
Theorem C103_dialog_refuted : exists f ls s', compile_burn whole (forging "show_custom_dialog") = Ok f /\ tests_spoken whole f 20 (f_tests f) vm_new = (ls, Ok s') /\ vm_pass s' = false /\
  reads_off ansi (stdout whole ansi (map WTests ls)) [(lit "T", true); (lit "T", false)].
Proof.
  do 3 eexists. split; [vm_compute; reflexivity|]. split; [vm_compute; reflexivity|]. split; [reflexivity|].
  match goal with |- reads_off _ ?t _ => let l := eval vm_compute in (found_in ansi (cut [] t)) in assert (R : reads_off ansi t l) by (apply reads_found, put_out_ended) end. exact R.
Qed.
Print Assumptions C103_dialog_refuted.
(** C103: and so can an assertion that fails, as its text is printed. *)
Definition forging_assert : list N := lit "test T: script: [ define g { assert(1 == 2 " ++ forged ++ lit "); } ] end test; ".
Theorem C103_assertion_refuted : exists f ls s', compile_burn whole forging_assert = Ok f /\ tests_spoken whole f 20 (f_tests f) vm_new = (ls, Ok s') /\ vm_pass s' = false /\
  reads_off ansi (stdout whole ansi (map WTests ls)) [(lit "T", true); (lit "T", false)].
Proof.
  do 3 eexists. split; [vm_compute; reflexivity|]. split; [vm_compute; reflexivity|]. split; [reflexivity|].
  match goal with |- reads_off _ ?t _ => let l := eval vm_compute in (found_in ansi (cut [] t)) in assert (R : reads_off ansi t l) by (apply reads_found, put_out_ended) end. exact R.
Qed.
Print Assumptions C103_assertion_refuted.

(** C103: the names of tests never have a line feed, whatever the text; so it is only scripts that need looking at. *)
Definition name_kept (t : stoken) : Prop := k_kind t = KIdentifier -> one_line (k_text t).
Lemma spells_line E v s w : SchemaSpec.spells E v s w -> one_line v -> one_line w.
Proof.
  induction 1 as [v|v c s w L H IH|v c s w L W H IH]; intros V; auto. apply IH. apply one_line_app; [exact V|]. intros [K|[]]. subst c. destruct L as [L _]. discriminate L.
Qed.
Lemma keyword_kept k t : In (k, t) SchemaSpec.schema_keywords -> t <> KIdentifier.
Proof. cbn. intros H. repeat (destruct H as [H|H]; [injection H as _ <-; discriminate|]). destruct H. Qed.
Lemma word_kept E w t : SchemaSpec.word_token E w t -> one_line w -> name_kept t.
Proof. intros [k u H|u n A B D|u A B D F] W K; cbn [k_kind k_text tk] in *; [now apply keyword_kept in H|discriminate|exact W]. Qed.
Lemma words_kept E w ts : SchemaSpec.word_tokens E w ts -> one_line w -> Forall name_kept ts.
Proof. intros [|u H|u t H] W; repeat constructor. now apply (word_kept E u). Qed.
Lemma sign_kept k : k <> KIdentifier -> name_kept (tk k).
Proof. intros H K. now destruct (H K). Qed.
Lemma tokens_kept E n p s ts : SchemaSpec.sreads E n p s ts -> one_line p -> Forall name_kept ts.
Proof.
  assert (N1 : one_line []) by (intros []). assert (N2 : one_line [34]) by (apply one_line_lit; reflexivity). assert (N3 : one_line [125]) by (apply one_line_lit; reflexivity).
  induction 1; intros P;
    repeat match goal with
    | H : SchemaSpec.spells _ ?p _ ?w, P : one_line ?p |- _ => let Q := fresh in pose proof (spells_line _ _ _ _ H P) as Q; clear H
    | H : SchemaSpec.word_tokens _ ?w ?ws, P : one_line ?w |- _ => let Q := fresh in pose proof (words_kept _ _ _ H P) as Q; clear H
    | H : SchemaSpec.word_token _ ?w ?t, P : one_line ?w |- _ => let Q := fresh in pose proof (word_kept _ _ _ H P) as Q; clear H
    end; repeat (apply Forall_app; split); repeat constructor; auto; try (apply sign_kept; discriminate); try (intros K; discriminate K).
  apply sign_kept. intros ->. cbn in H1. repeat (destruct H1 as [H1|H1]; [discriminate|]). destruct H1.
Qed.
Theorem C103_names : forall E code f, compile_burn E code = Ok f -> forall t, In t (f_tests f) -> one_line (te_name t).
Proof.
  intros E code f H t I. apply SchemaProps.C53_compiled in H as (ts & cs & R & P & (_ & _ & _ & _ & _ & _ & _ & _ & T)). rewrite T in I. apply tokens_kept in R; [|intros []]. clear T.
  assert (Q : forall b a c, SchemaSpec.component_reads E b a c -> Forall name_kept a -> In t (SchemaSpec.tests_of [c]) -> one_line (te_name t)).
  { intros b a c [ | | | | |b' w n body v fin Hw Hn Hb Hc] F K; try (now destruct K). cbn in K. destruct K as [<-|[]]. inversion F as [|? ? _ F2]. inversion F2 as [|? ? F3 _]. now apply F3. }
  induction P as [|a c b cs A P IH|a c A]; [destruct I| |].
  - apply Forall_app in R as [R1 R2]. change (c :: cs) with ([c] ++ cs) in I. unfold SchemaSpec.tests_of in I. rewrite flat_map_app in I. apply in_app_or in I as [I|I]; [now apply (Q _ _ _ A R1)|now apply IH].
  - now apply (Q _ _ _ A R).
Qed.
Print Assumptions C103_names.
Example C103_names_ex : exists f, compile_burn whole (lit "test" ++ [10] ++ lit "T:" ++ [10] ++ lit "script: [ define g { assert(1 ==" ++ [10] ++ lit "1); } ] end test; ") = Ok f /\ map te_name (f_tests f) = [lit "T"] /\
  map (fun t => flat_map switches (sc_steps (te_script t))) (f_tests f) = [[lit "1 ==" ++ [10] ++ lit "1"]].
Proof. eexists. split; [vm_compute; reflexivity|split; reflexivity]. Qed.
