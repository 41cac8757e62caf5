(** Model of /repo/src/main.rs once more, with everything that is printed on the way.

    Each function follows the one of the same name in MainModel.v.  The lines of both streams are in one list, in the order in which they are printed; a line is what it
    is about.  The option that prints the header of a file (main.rs:73-74, see HeadModel.v) is left out. *)
From Coq Require Import Ascii String NArith List Bool.
From Verif Require Import Prelude InstrModel ComponentModel CalcModel DbModel EvalModel VmModel SchemaModel MainModel.
From Verif Require Import GripeModel SourceModel PrintModel TalkModel TraceModel ReportModel.
Import ListNotations.
Local Open Scope N_scope.

(** What main.rs:28-86 and the functions it calls print: a complaint about a schema text (SourceModel.v), the file as JSON, a line of the tests (TalkModel.v), a line of the assembler (TraceModel.v), a file that is written, and
    a line of the decompiler (ReportModel.v). *)
Inductive shown (E : fenv) : Type :=
| WComplaint (g : gripe)
| WFile (f : fmpfile)
| WTests (x : spoken E)
| WAssembler (n : note)
| WWritten (name : list N) (contents : list N)
| WDecompiler (r : report).
Arguments WComplaint {E} g. Arguments WFile {E} f. Arguments WTests {E} x. Arguments WAssembler {E} n. Arguments WWritten {E} name contents. Arguments WDecompiler {E} r.

Section Whole.
Context (E : fenv).
Local Notation shown := (shown E).

(** What main.rs:20-96 shows, also before a panic, and the result. *)
Definition showing (A : Type) : Type := list shown * outcome A.
Definition hidden {A} (x : outcome A) : showing A := ([], x).
Definition puts (l : list shown) : showing unit := (l, Ok tt).
Definition through {L A} (c : L -> shown) (x : list L * outcome A) : showing A := (map c (fst x), snd x).
Definition and_show {A B} (x : showing A) (k : A -> showing B) : showing B :=
  match snd x with
  | Ok a => let r := k a in (fst x ++ fst r, snd r)
  | Panic => (fst x, Panic)
  | NoFuel => (fst x, NoFuel)
  end.
Local Notation "'let!' x := a 'in' b" := (and_show a (fun x => b)) (at level 200, x pattern, a at level 100, b at level 200).

(** As in MainModel.v. *)
Variable order : fmpfile -> fmpfile.
Variable segment_order : list (N * list (N * list N)) -> list (N * list (N * list N)).
Variable fuel : nat.
Variable no_testing : bool.

(** main.rs:57-61 and 87-91; building the database prints nothing. *)
Definition testing_shown (file : fmpfile) : showing unit :=
  if negb no_testing && (match f_tests file with [] => false | _ => true end) then
    let! s := hidden (generate_test_environment (order file) vm_new) in
    let! _ := through WTests (tests_spoken E (order file) fuel (f_tests (order file)) s) in
    hidden (Ok tt)
  else hidden (Ok tt).

(** main.rs:38-66: one input file. *)
Definition compile_one_shown (file : fmpfile) (input : list N * list N) : showing fmpfile :=
  let! tmp := through WComplaint (source_told E (snd input)) in
  let! name := hidden (unwrap (MainModel.strip_suffix (lit ".burn") (fst input))) in
  let file := absorb (set_name file name) tmp in
  let! _ := puts [WFile file] in
  let! _ := testing_shown file in
  let! buffer := through WAssembler (assemble_noted (order file)) in
  let! _ := puts [WWritten (f_name file ++ lit ".fmp12") buffer] in
  hidden (Ok file).

(** main.rs:68-93: one input file. *)
Definition decompile_one_shown (file : fmpfile) (input : list N * list N) : showing fmpfile :=
  let! tmp := through WDecompiler (decompile_reported segment_order fuel (snd input)) in
  let! _ := puts [WFile tmp] in
  let file := absorb file tmp in
  let! _ := testing_shown file in
  hidden (Ok file).

(** The loops over the input files: main.rs:28, 38 and 68. *)
Fixpoint inputs_shown (body : fmpfile -> list N * list N -> showing fmpfile) (inputs : list (list N * list N)) (file : fmpfile) : showing fmpfile :=
  match inputs with
  | [] => hidden (Ok file)
  | i :: inputs => let! file := body file i in inputs_shown body inputs file
  end.

(** main.rs:27-35: the files of tests. *)
Fixpoint test_files_shown (inputs : list (list N * list N)) (file : fmpfile) : showing fmpfile :=
  match inputs with
  | [] => hidden (Ok file)
  | i :: inputs => let! tmp := through WComplaint (source_told E (snd i)) in test_files_shown inputs (put_tests file (f_tests file ++ f_tests tmp))
  end.

(** main.rs:21-96 [main] with -c and with -d. *)
Definition whole_compile (tests inputs : list (list N * list N)) : showing fmpfile :=
  let! file := test_files_shown tests fmpfile_new in inputs_shown compile_one_shown inputs file.
Definition whole_decompile (tests inputs : list (list N * list N)) : showing fmpfile :=
  let! file := test_files_shown tests fmpfile_new in inputs_shown decompile_one_shown inputs file.
End Whole.
