(** What the program makes of several input files.  Independent of [absorb] and the loops. *)
From Coq Require Import Ascii String NArith List Bool Permutation.
From Verif Require Import Prelude InstrModel ComponentModel CalcModel DbModel EvalModel VmModel DecompModel AsmModel AsmSpec SchemaModel DecompScriptSpec MainModel.
Import ListNotations.
Local Open Scope N_scope.

(** Of all files that have the id [k], the last one has [v] under it. *)
Definition latest {V} (part : fmpfile -> list (N * V)) (fs : list fmpfile) (k : N) (v : V) : Prop :=
  exists before f after, fs = before ++ f :: after /\ nget (part f) k = Some v /\ Forall (fun g => nget (part g) k = None) after.
Definition gathered {V} (part : fmpfile -> list (N * V)) (fs : list fmpfile) (f : fmpfile) : Prop :=
  NoDup (keys (part f)) /\ forall k v, nget (part f) k = Some v <-> latest part fs k v.

(** [f] is what has been collected from the test files [ts] and then the files [fs]. *)
Definition collected (ts fs : list fmpfile) (f : fmpfile) : Prop :=
  gathered f_tables fs f /\ gathered f_relationships fs f /\ gathered f_layouts fs f /\ gathered f_value_lists fs f /\ gathered f_scripts fs f /\
  gathered f_occurrences fs f /\ f_sources f = [] /\ f_tests f = concat (map f_tests ts) ++ concat (map f_tests fs).

(** The maps of a file have no key twice. *)
Definition keyed (f : fmpfile) : Prop :=
  NoDup (keys (f_tables f)) /\ NoDup (keys (f_relationships f)) /\ NoDup (keys (f_layouts f)) /\ NoDup (keys (f_value_lists f)) /\ NoDup (keys (f_scripts f)) /\ NoDup (keys (f_occurrences f)).

(** The same file with its maps in another order. *)
Definition reordered (f g : fmpfile) : Prop :=
  f_name g = f_name f /\ Permutation (f_tables f) (f_tables g) /\ Permutation (f_relationships f) (f_relationships g) /\ Permutation (f_layouts f) (f_layouts g) /\
  Permutation (f_value_lists f) (f_value_lists g) /\ Permutation (f_scripts f) (f_scripts g) /\ Permutation (f_occurrences f) (f_occurrences g) /\
  Permutation (f_sources f) (f_sources g) /\ f_tests g = f_tests f.

(** The two ways to fail: out of fuel or with a panic. *)
Definition failed {A} (hangs : bool) : outcome A := if hangs then NoFuel else Panic.

Section Sessions.
Context (E : fenv) (order : fmpfile -> fmpfile) (fuel : nat) (no_testing : bool).

(** What is printed about tests that have come to an end. *)
Definition shows (rs : list (list N * bool)) : list event := flat_map (fun r => [ERunning (fst r); EReport (fst r) (snd r)]) rs.

(** Running the tests of [f]: nothing happens without tests or with --no-testing.  When a test fails to come to an end, the reports of those before
    it have been printed, and that it was started. *)
Inductive tested (f : fmpfile) : list event -> outcome unit -> Prop :=
| TsNone : no_testing = true \/ f_tests f = [] -> tested f [] (Ok tt)
| TsRun : forall s rs s', no_testing = false -> f_tests f <> [] -> generate_test_environment (order f) vm_new = Ok s ->
    run_tests_with_cleanup E (order f) fuel s = Ok (rs, s') -> tested f (shows rs) (Ok tt)
| TsNoEnvironment : forall r, no_testing = false -> f_tests f <> [] -> generate_test_environment (order f) vm_new = failed r -> tested f [] (failed r)
| TsFail : forall s before t after rs s1 r, no_testing = false -> f_tests f <> [] -> generate_test_environment (order f) vm_new = Ok s ->
    f_tests (order f) = before ++ t :: after -> run_tests_loop E (order f) fuel before s = Ok (rs, s1) -> run_test E (order f) fuel (load_test s1 t) = failed r ->
    tested f (shows rs ++ [ERunning (te_name t)]) (failed r).

(** What happens for the inputs after the files [done]: each input is compiled, and everything collected up to it is tested and written under
    its name. *)
Inductive compile_session (ts : list fmpfile) : list fmpfile -> list (list N * list N) -> list event -> outcome fmpfile -> Prop :=
| CsEnd : forall done f, collected ts done f -> compile_session ts done [] [] (Ok f)
| CsCode : forall done name code inputs, compile_burn E code = Panic -> compile_session ts done ((name, code) :: inputs) [] Panic
| CsName : forall done name code inputs, (forall n, name <> n ++ lit ".burn") -> compile_session ts done ((name, code) :: inputs) [] Panic
| CsTests : forall done name code f g reports r inputs, compile_burn E code = Ok f -> collected ts (done ++ [f]) g -> f_name g = name ->
    tested g reports (failed r) -> compile_session ts done ((name ++ lit ".burn", code) :: inputs) (EInspect g :: reports) (failed r)
| CsLarge : forall done name code f g reports inputs, compile_burn E code = Ok f -> collected ts (done ++ [f]) g -> f_name g = name ->
    tested g reports (Ok tt) -> ~ fits (order g) -> compile_session ts done ((name ++ lit ".burn", code) :: inputs) (EInspect g :: reports) Panic
| CsMore : forall done name code f g reports inputs es last, compile_burn E code = Ok f -> collected ts (done ++ [f]) g -> f_name g = name ->
    tested g reports (Ok tt) -> fits (order g) -> compile_session ts (done ++ [f]) inputs es last ->
    compile_session ts done ((name ++ lit ".burn", code) :: inputs) (EInspect g :: reports ++ EWritten (name ++ lit ".fmp12") (image (order g)) :: es) last.

Context (segment_order : list (N * list (N * list N)) -> list (N * list (N * list N))).
Inductive decompile_session (ts : list fmpfile) : list fmpfile -> list (list N * list N) -> list event -> outcome fmpfile -> Prop :=
| DsEnd : forall done f, collected ts done f -> decompile_session ts done [] [] (Ok f)
| DsFail : forall done name buffer r inputs, DecompModel.decompile segment_order fuel buffer = failed r -> decompile_session ts done ((name, buffer) :: inputs) [] (failed r)
| DsTests : forall done name buffer f g reports r inputs, DecompModel.decompile segment_order fuel buffer = Ok f -> collected ts (done ++ [f]) g ->
    tested g reports (failed r) -> decompile_session ts done ((name, buffer) :: inputs) (EInspect f :: reports) (failed r)
| DsMore : forall done name buffer f g reports inputs es last, DecompModel.decompile segment_order fuel buffer = Ok f -> collected ts (done ++ [f]) g ->
    tested g reports (Ok tt) -> decompile_session ts (done ++ [f]) inputs es last ->
    decompile_session ts done ((name, buffer) :: inputs) (EInspect f :: reports ++ es) last.
End Sessions.

(** ** Decompiled files *)

(** The keys of a map are 1, 2, 3, ... *)
Definition numbered {V} (m : list (N * V)) : Prop := NoDup (keys m) /\ forall k, In k (keys m) <-> 1 <= k <= lenN m.
(** The fields of a table come in ascending order. *)
Definition sorted_fields (t : table) : Prop := increasing (keys (tb_fields t)).
(** What holds of every decompiled file. *)
Definition fine (f : fmpfile) : Prop :=
  f_name f = [] /\ f_value_lists f = [] /\ f_tests f = [] /\ NoDup (keys (f_tables f)) /\ Forall (fun e => sorted_fields (snd e)) (f_tables f) /\ numbered (f_relationships f) /\
  NoDup (keys (f_layouts f)) /\ NoDup (keys (f_scripts f)) /\ numbered (f_occurrences f) /\ NoDup (keys (f_sources f)).
