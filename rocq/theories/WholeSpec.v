(** Everything the program shows, from the texts and files given to it: the sessions of SessionSpec.v with all lines.  Independent of the compiler, decompiler, test
    runner and assembler, except for their data. *)
From Coq Require Import Ascii String NArith List Bool Permutation.
From Verif Require HistorySpec AbortSpec ReportSpec SourceSpec HaltSpec TraceSpec.
From Verif Require Import Prelude InstrModel ComponentModel CalcModel DbModel DbGenSpec EvalModel VmModel VmSpec VmTestSpec VmTextSpec AsmSpec SchemaModel SchemaSpec RunsSpec MainModel MainSpec SessionSpec.
From Verif Require Import GripeModel PrintModel PrintSpec TalkModel TalkSpec TraceModel ReportModel WholeModel.
Import ListNotations.
Local Open Scope N_scope.

Section Whole.
Context (E : fenv) (no_testing : bool).
Local Notation shown := (shown E).
Local Notation spoken := (spoken E).

(** ** Runs of tests *)

(** As [tests_end]. *)
Inductive tests_shown (g : fmpfile) : list spoken -> bool -> Prop :=
| ThNone : no_testing = true \/ f_tests g = [] -> tests_shown g [] true
| ThRun : forall s ls s', no_testing = false -> f_tests g <> [] -> relations_fit g -> set_up g s -> tests_speak E g (f_tests g) s ls s' -> tests_shown g ls true
| ThNoDatabase : no_testing = false -> f_tests g <> [] -> ~ relations_fit g -> tests_shown g [] false
| ThBreaksOff : forall s before t after l1 s1 l2, no_testing = false -> relations_fit g -> set_up g s -> f_tests g = before ++ t :: after ->
    tests_speak E g before s l1 s1 -> stuck_speaks E g (begun s1 t) l2 -> tests_shown g (l1 ++ OfRunner E (LRunning (te_name t)) :: l2) false.

(** ** Texts and files *)

(** A schema text, with the complaints about it. *)
Definition schema_says (code : list N) (f : fmpfile) (g : list gripe) : Prop :=
  exists ts cs, sreads E 0 [] code ts /\ SourceSpec.program_says E ts cs g /\ holds cs f.
(** A file, with the lines about its records. *)
Definition file_says (buf : list N) (f : fmpfile) (l : list report) : Prop :=
  stored_file buf f /\ exists h, HistorySpec.file_history buf 2 h /\ ReportSpec.told h l.
(** A file that cannot be decompiled: the lines about its first records, and about the one in which decompiling breaks off. *)
Definition no_file_says (buf : list N) (l : list report) : Prop :=
  ~ AbortSpec.decompilable buf /\ exists h l1 m w, ReportSpec.first_records buf 2 h w /\ l = l1 ++ m /\ ReportSpec.told h l1 /\ ReportSpec.last_words buf w m.

(** ** Sessions, as [compiles] and [decompiles] *)
Inductive compiles_showing (ts : list fmpfile) : list fmpfile -> list (list N * list N) -> list shown -> option fmpfile -> Prop :=
| CwEnd : forall done f, collected ts done f -> compiles_showing ts done [] [] (Some f)
| CwText : forall done name code inputs g, HaltSpec.schema_breaks E code g -> compiles_showing ts done ((name, code) :: inputs) (map WComplaint g) None
| CwName : forall done name code inputs f g, (forall n, name <> n ++ lit ".burn") -> schema_says code f g ->
    compiles_showing ts done ((name, code) :: inputs) (map WComplaint g) None
| CwTests : forall done name code f cs g g' ls inputs, schema_says code f cs -> collected ts (done ++ [f]) g -> f_name g = name -> reordered g g' ->
    tests_shown g' ls false -> compiles_showing ts done ((name ++ lit ".burn", code) :: inputs) (map WComplaint cs ++ WFile g :: map WTests ls) None
| CwLarge : forall done name code f cs g g' ls l inputs, schema_says code f cs -> collected ts (done ++ [f]) g -> f_name g = name -> reordered g g' ->
    tests_shown g' ls true -> TraceSpec.breaks_off 4075 (TraceSpec.all_acts g') l ->
    compiles_showing ts done ((name ++ lit ".burn", code) :: inputs) (map WComplaint cs ++ WFile g :: map WTests ls ++ map WAssembler l) None
| CwMore : forall done name code f cs g g' ls inputs es last, schema_says code f cs -> collected ts (done ++ [f]) g -> f_name g = name -> reordered g g' ->
    tests_shown g' ls true -> fits g' -> compiles_showing ts (done ++ [f]) inputs es last ->
    compiles_showing ts done ((name ++ lit ".burn", code) :: inputs)
      (map WComplaint cs ++ WFile g :: map WTests ls ++ map WAssembler (TraceSpec.all_lines g') ++ WWritten (name ++ lit ".fmp12") (image g') :: es) last.

Inductive decompiles_showing (ts : list fmpfile) : list fmpfile -> list (list N * list N) -> list shown -> option fmpfile -> Prop :=
| DwEnd : forall done f, collected ts done f -> decompiles_showing ts done [] [] (Some f)
| DwFile : forall done name buf inputs l, no_file_says buf l -> decompiles_showing ts done ((name, buf) :: inputs) (map WDecompiler l) None
| DwTests : forall done name buf f l g g' ls inputs, file_says buf f l -> collected ts (done ++ [f]) g -> reordered g g' ->
    tests_shown g' ls false -> decompiles_showing ts done ((name, buf) :: inputs) (map WDecompiler l ++ WFile f :: map WTests ls) None
| DwMore : forall done name buf f l g g' ls inputs es last, file_says buf f l -> collected ts (done ++ [f]) g -> reordered g g' ->
    tests_shown g' ls true -> decompiles_showing ts (done ++ [f]) inputs es last ->
    decompiles_showing ts done ((name, buf) :: inputs) (map WDecompiler l ++ WFile f :: map WTests ls ++ es) last.

(** The whole run: first the files of tests, up to one that is no schema text. *)
Definition shows_program (session : list fmpfile -> list fmpfile -> list (list N * list N) -> list shown -> option fmpfile -> Prop)
  (tests inputs : list (list N * list N)) (es : list shown) (last : option fmpfile) : Prop :=
  (exists before i after tgs g, tests = before ++ i :: after /\ Forall2 (fun j tg => schema_says (snd j) (fst tg) (snd tg)) before tgs /\ HaltSpec.schema_breaks E (snd i) g /\
    es = map WComplaint (concat (map snd tgs) ++ g) /\ last = None) \/
  (exists tgs es', Forall2 (fun j tg => schema_says (snd j) (fst tg) (snd tg)) tests tgs /\ session (map fst tgs) [] inputs es' last /\
    es = map WComplaint (concat (map snd tgs)) ++ es').
End Whole.
