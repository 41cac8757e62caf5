(** Model of /repo/src/main.rs: the program as a whole.

    Files are given by their base name and contents; that they can be opened, read and written is assumed.  What the program does to the
    outside is a list of events; the events before a panic are kept. *)
From Coq Require Import Ascii String NArith Arith List Bool.
From Verif Require Import Prelude InstrModel ComponentModel CalcModel DbModel EvalModel VmModel DecompModel AsmModel BurnModel SchemaModel.
Import ListNotations.
Local Open Scope N_scope.

(** The file as JSON (main.rs:55-56 and 78-79, the text is left out), the lines printed before and after each test (test.rs:154 and 159-163), and
    an assembled file (62-64) with its name.  Other lines on the terminal are left out. *)
Inductive event :=
| EInspect (f : fmpfile)
| ERunning (test : list N)
| EReport (test : list N) (pass : bool)
| EWritten (name : list N) (contents : list N).

Definition ran (A : Type) : Type := list event * outcome A.
Definition say (e : event) : ran unit := ([e], Ok tt).
Definition lift {A} (x : outcome A) : ran A := ([], x).
Definition and_then {A B} (x : ran A) (k : A -> ran B) : ran B :=
  match snd x with
  | Ok a => let r := k a in (fst x ++ fst r, snd r)
  | Panic => (fst x, Panic)
  | NoFuel => (fst x, NoFuel)
  end.

(** [HashMap::extend]: main.rs:48-54 and 80-86. *)
Definition extend {V} (m l : list (N * V)) : list (N * V) := fold_left (fun m e => nset m (fst e) (snd e)) l m.

(** main.rs:48-54 and 80-86; the name and the data sources stay. *)
Definition absorb (file tmp : fmpfile) : fmpfile :=
  mkFile (f_name file) (extend (f_tables file) (f_tables tmp)) (extend (f_relationships file) (f_relationships tmp)) (extend (f_layouts file) (f_layouts tmp))
    (extend (f_value_lists file) (f_value_lists tmp)) (extend (f_scripts file) (f_scripts tmp)) (extend (f_occurrences file) (f_occurrences tmp)) (f_sources file)
    (f_tests file ++ f_tests tmp).
Definition set_name (file : fmpfile) (name : list N) : fmpfile :=
  mkFile name (f_tables file) (f_relationships file) (f_layouts file) (f_value_lists file) (f_scripts file) (f_occurrences file) (f_sources file) (f_tests file).

(** [str::strip_suffix]: main.rs:46. *)
Definition strip_suffix (suffix s : list N) : option (list N) :=
  if (length suffix <=? length s)%nat && str_eqb (skipn (length s - length suffix) s) suffix then Some (firstn (length s - length suffix) s) else None.

Section Main.
Context (E : fenv).
(** The order in which the hash maps of a file are visited. *)
Variable order : fmpfile -> fmpfile.
(** The order in which the script segments are visited (see [decompile]). *)
Variable segment_order : list (N * list (N * list N)) -> list (N * list (N * list N)).
(** Bounds the steps of the script of one test, and of one decompilation. *)
Variable fuel : nat.
Variable no_testing : bool.

(** test.rs:149-167 [run_tests_with_cleanup], with what is printed; the records cleared at the end are not used any more.  See
    [run_tests_with_cleanup] in VmModel for the same loop without the lines printed. *)
Fixpoint print_tests (file : fmpfile) (ts : list test) (s : vm) : ran vm :=
  match ts with
  | [] => lift (Ok (with_db s (clear_records (vm_db s))))
  | t :: ts =>
    and_then (say (ERunning (te_name t))) (fun _ =>
    and_then (lift (run_test E file fuel (load_test s t))) (fun s =>
    and_then (say (EReport (te_name t) (vm_pass s))) (fun _ =>
    print_tests file ts s)))
  end.

(** main.rs:57-61 and 87-91. *)
Definition testing (file : fmpfile) : ran unit :=
  if negb no_testing && (match f_tests file with [] => false | _ => true end) then
    and_then (lift (generate_test_environment (order file) vm_new)) (fun s =>
    and_then (print_tests (order file) (f_tests (order file)) s) (fun _ => lift (Ok tt)))
  else lift (Ok tt).

(** main.rs:38-66: one input file. *)
Definition compile_one (file : fmpfile) (input : list N * list N) : ran fmpfile :=
  and_then (lift (compile_burn E (snd input))) (fun tmp =>
  and_then (lift (unwrap (strip_suffix (lit ".burn") (fst input)))) (fun name =>
  let file := absorb (set_name file name) tmp in
  and_then (say (EInspect file)) (fun _ =>
  and_then (testing file) (fun _ =>
  and_then (lift (assemble (order file))) (fun buffer =>
  and_then (say (EWritten (f_name file ++ lit ".fmp12") buffer)) (fun _ =>
  lift (Ok file))))))).

(** main.rs:68-93: one input file. *)
Definition decompile_one (file : fmpfile) (input : list N * list N) : ran fmpfile :=
  and_then (lift (decompile segment_order fuel (snd input))) (fun tmp =>
  and_then (say (EInspect tmp)) (fun _ =>
  let file := absorb file tmp in
  and_then (testing file) (fun _ =>
  lift (Ok file)))).

(** The loops over the input files: main.rs:28, 38 and 68. *)
Fixpoint for_inputs (body : fmpfile -> list N * list N -> ran fmpfile) (inputs : list (list N * list N)) (file : fmpfile) : ran fmpfile :=
  match inputs with
  | [] => lift (Ok file)
  | i :: inputs => and_then (body file i) (for_inputs body inputs)
  end.

(** main.rs:27-35: the files of tests. *)
Fixpoint test_files (inputs : list (list N * list N)) (file : fmpfile) : outcome fmpfile :=
  match inputs with
  | [] => Ok file
  | i :: inputs => tmp <- compile_burn E (snd i) ;; test_files inputs (put_tests file (f_tests file ++ f_tests tmp))
  end.

(** main.rs:21-96 [main] with -c and with -d; a run without -t has no files of tests. *)
Definition main_compile (tests inputs : list (list N * list N)) : ran fmpfile :=
  and_then (lift (test_files tests fmpfile_new)) (for_inputs compile_one inputs).
Definition main_decompile (tests inputs : list (list N * list N)) : ran fmpfile :=
  and_then (lift (test_files tests fmpfile_new)) (for_inputs decompile_one inputs).
End Main.
