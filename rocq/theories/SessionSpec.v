(** What the program does, from the texts and files given to it.  Independent of the compiler, decompiler, test runner and assembler, except for their data. *)
From Coq Require Import Ascii String NArith List Bool Permutation.
From Verif Require HistorySpec StepsSpec AbortSpec.
From Verif Require Import Prelude InstrModel ComponentModel CalcModel RelModel RelSpec DbModel DbGenSpec EvalModel VmModel VmSpec VmTestSpec VmTextSpec AsmSpec SchemaModel SchemaSpec RunsSpec MainModel MainSpec.
Import ListNotations.
Local Open Scope N_scope.

(** ** The database and the layouts that the tests of a file start with *)

(** Of all entries with the name [n], [e] is the one visited last. *)
Definition last_named {V} (name : V -> list N) (l : list (N * V)) (n : list N) (e : N * V) : Prop :=
  exists before after, l = before ++ e :: after /\ name (snd e) = n /\ Forall (fun x => name (snd x) <> n) after.

(** Each relationship read in both directions. *)
Definition both_ways (pairs : list (N * N)) : list (N * N) := flat_map (fun p => [p; (snd p, fst p)]) pairs.

(** The database of a file: no records; its tables and occurrences under their ids, nothing found; the neighbours of each occurrence, in
    the order of the relationships; the names of its
    occurrences; the occurrence with the smallest id is the current one. *)
Record database_of (f : fmpfile) (d : db) : Prop := {
  of_tables : forall i, match nget (f_tables f) i with
    | Some t => exists tb, nthN (d_tables d) i = Some tb /\ dt_name tb = tb_name t /\ forall j, nthN (dt_fields tb) j = DbGenSpec.column t j
    | None => nthN (d_tables d) i = if i <=? max_key (keys (f_tables f)) then Some (mkDTable [] []) else None
    end;
  of_occurrences : forall i, nthN (d_occs d) i = occurrence_at f i;
  of_graph : forall x, neighbours (d_graph d) x = mentioned (both_ways (relation_pairs f)) x;
  of_names : forall n i, sget (d_index d) n = Some i <-> exists e, last_named oc_name (f_occurrences f) n e /\ i = fst e mod 65536;
  of_current : (f_occurrences f = [] /\ d_handle d = 0) \/
    exists i o, nget (f_occurrences f) i = Some o /\ (forall j, In j (keys (f_occurrences f)) -> i <= j) /\ d_handle d = i mod 65536;
}.

Definition set_up (f : fmpfile) (s : vm) : Prop :=
  exists d ls, s = mkVm [] [] None [] true false false d ls [] /\ database_of f d /\
    forall n o, sget ls n = Some o <-> exists e, last_named ly_name (f_layouts f) n e /\ o = ly_occurrence (snd e).

Section Session.
Context (E : fenv) (no_testing : bool).

(** ** The tests of a file *)
Inductive tests_end (g : fmpfile) : list event -> bool -> Prop :=
| TeNone : no_testing = true \/ f_tests g = [] -> tests_end g [] true
| TeRun : forall s rs s', no_testing = false -> f_tests g <> [] -> relations_fit g -> set_up g s -> reported E g (f_tests g) s rs s' -> tests_end g (shows rs) true
| TeNoDatabase : no_testing = false -> f_tests g <> [] -> ~ relations_fit g -> tests_end g [] false
| TeBreaksOff : forall s before t after rs s1, no_testing = false -> relations_fit g -> set_up g s -> f_tests g = before ++ t :: after ->
    reported E g before s rs s1 -> gets_stuck E g (begun s1 t) -> tests_end g (shows rs ++ [ERunning (te_name t)]) false.

(** ** What a text and a file hold *)
Definition schema_text (code : list N) (f : fmpfile) : Prop := exists ts cs, sreads E 0 [] code ts /\ program E ts cs /\ holds cs f.
Definition stored_file (buf : list N) (f : fmpfile) : Prop :=
  AbortSpec.decompilable buf /\ fine f /\ exists h, AbortSpec.file_records buf 2 h /\ HistorySpec.recovered h f /\ AbortSpec.tables_recovered h f /\
    forall k sc, nget (f_scripts f) k = Some sc -> StepsSpec.steps_of k h (sc_steps sc) /\ sc_args sc = [] /\ sc_account sc = [] /\ sc_user sc = [].

(** ** Sessions: what happens for the inputs after the files [done], and the file collected in the end or a panic.  The maps of a file are visited
    in some order, the same for the tests and for the assembler. *)
Inductive compiles (ts : list fmpfile) : list fmpfile -> list (list N * list N) -> list event -> option fmpfile -> Prop :=
| CoEnd : forall done f, collected ts done f -> compiles ts done [] [] (Some f)
| CoText : forall done name code inputs, (forall f, ~ schema_text code f) -> compiles ts done ((name, code) :: inputs) [] None
| CoName : forall done name code inputs, (forall n, name <> n ++ lit ".burn") -> compiles ts done ((name, code) :: inputs) [] None
| CoTests : forall done name code f g g' reports inputs, schema_text code f -> collected ts (done ++ [f]) g -> f_name g = name -> reordered g g' ->
    tests_end g' reports false -> compiles ts done ((name ++ lit ".burn", code) :: inputs) (EInspect g :: reports) None
| CoLarge : forall done name code f g g' reports inputs, schema_text code f -> collected ts (done ++ [f]) g -> f_name g = name -> reordered g g' ->
    tests_end g' reports true -> ~ fits g' -> compiles ts done ((name ++ lit ".burn", code) :: inputs) (EInspect g :: reports) None
| CoMore : forall done name code f g g' reports inputs es last, schema_text code f -> collected ts (done ++ [f]) g -> f_name g = name -> reordered g g' ->
    tests_end g' reports true -> fits g' -> compiles ts (done ++ [f]) inputs es last ->
    compiles ts done ((name ++ lit ".burn", code) :: inputs) (EInspect g :: reports ++ EWritten (name ++ lit ".fmp12") (image g') :: es) last.

Inductive decompiles (ts : list fmpfile) : list fmpfile -> list (list N * list N) -> list event -> option fmpfile -> Prop :=
| DcEnd : forall done f, collected ts done f -> decompiles ts done [] [] (Some f)
| DcFile : forall done name buf inputs, ~ AbortSpec.decompilable buf -> decompiles ts done ((name, buf) :: inputs) [] None
| DcTests : forall done name buf f g g' reports inputs, stored_file buf f -> collected ts (done ++ [f]) g -> reordered g g' ->
    tests_end g' reports false -> decompiles ts done ((name, buf) :: inputs) (EInspect f :: reports) None
| DcMore : forall done name buf f g g' reports inputs es last, stored_file buf f -> collected ts (done ++ [f]) g -> reordered g g' ->
    tests_end g' reports true -> decompiles ts (done ++ [f]) inputs es last ->
    decompiles ts done ((name, buf) :: inputs) (EInspect f :: reports ++ es) last.

(** The whole run: first the files of tests. *)
Definition runs_program (session : list fmpfile -> list fmpfile -> list (list N * list N) -> list event -> option fmpfile -> Prop)
  (tests inputs : list (list N * list N)) (es : list event) (last : option fmpfile) : Prop :=
  (es = [] /\ last = None /\ exists i, In i tests /\ forall f, ~ schema_text (snd i) f) \/
  (exists ts, Forall2 (fun i t => schema_text (snd i) t) tests ts /\ session ts [] inputs es last).
End Session.

(** The end of a run of the program, unless it runs on. *)
Definition ended {A} (r : outcome A) (last : option A) : Prop := r = match last with Some f => Ok f | None => Panic end.
