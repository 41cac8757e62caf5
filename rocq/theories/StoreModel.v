(** Model of /repo/src/main.rs with the files it reads and writes: the inputs are paths, and each is read when it is its turn.

    What stands at a path is asked of the operating system ([place], [accepts]); it is assumed that no other program changes the files during the run, that a
    write changes the whole file or fails without changing anything, and that a file which was written can be read.  The command line itself is read by the
    library clap, which is not modelled: the paths are strings, and -c and -d exclude each other (src/cli.rs:16-23). *)
From Coq Require Import Ascii String NArith List Bool.
From Verif Require Import Prelude Utf8 ComponentModel CalcModel EvalModel DecompModel AsmModel SchemaModel JsonModel MainModel.
Import ListNotations.
Local Open Scope N_scope.

(** The files that main.rs:28-86 can read, by a number for each file. *)
Definition store : Type := list (N * list N).

(** [Path::file_name] of the standard library (main.rs:44), on Unix: the last component that is neither empty nor a dot, unless it is two dots. *)
Fixpoint components (s cur : list N) : list (list N) :=
  match s with
  | [] => [cur]
  | c :: s => if c =? 47 then cur :: components s [] else components s (cur ++ [c])
  end.
Definition counts (c : list N) : bool := negb (str_eqb c []) && negb (str_eqb c (lit ".")).
Definition file_name (path : list N) : option (list N) :=
  match rev (filter counts (components path [])) with
  | [] => None
  | c :: _ => if str_eqb c (lit "..") then None else Some c
  end.

Section Store.
Context (E : fenv).
(** The file at a path, whether or not there is one already: [None] if there can be none, as when a directory on the way is missing. *)
Variable place : list N -> option N.
(** Whether a file may be written. *)
Variable accepts : N -> bool.
(** See MainModel. *)
Variable order : fmpfile -> fmpfile.
Variable segment_order : list (N * list (N * list N)) -> list (N * list (N * list N)).
Variable fuel : nat.
Variable no_testing : bool.

(** What main.rs:28-86 does to the files, with the events. *)
Definition act (A : Type) : Type := store -> store * ran A.
Definition does {A} (x : ran A) : act A := fun d => (d, x).
Definition and_do {A B} (x : act A) (k : A -> act B) : act B := fun d =>
  match x d with
  | (d1, (es, Ok a)) => let r := k a d1 in (fst r, (es ++ fst (snd r), snd (snd r)))
  | (d1, (es, Panic)) => (d1, (es, Panic))
  | (d1, (es, NoFuel)) => (d1, (es, NoFuel))
  end.

(** [File::open] and [read_to_end] with their [expect]: main.rs:30, 40 and src/decompile/decompiler.rs:215-217, 224-227. *)
Definition contents (d : store) (p : list N) : option (list N) := match place p with Some i => nget d i | None => None end.
Definition read_file (p : list N) : act (list N) := fun d => (d, lift (unwrap (contents d p))).
(** [File::open] and [read_to_string]: main.rs:29-32 and 39-42. *)
Definition read_text (p : list N) : act (list N) := and_do (read_file p) (fun c => does (lift (unwrap (from_utf8 c)))).
(** [std::fs::write], as in main.rs:56 and 79. *)
Definition put (d : store) (p c : list N) : option store :=
  match place p with Some i => if accepts i then Some (nset d i c) else None | None => None end.
(** [write] with [expect]: main.rs:56, 79 and src/compile/assembler.rs:314. *)
Definition save (p c : list N) (e : event) : act unit := fun d => match put d p c with Some d' => (d', say e) | None => (d, lift Panic) end.
(** [write] whose result is not looked at: src/decompile/decompiler.rs:219. *)
Definition save_or_not (p c : list N) (e : event) : act unit := fun d => match put d p c with Some d' => (d', say e) | None => (d, lift (Ok tt)) end.

(** main.rs:38-66: one input.  [to_str] cannot fail, because the path was a string. *)
Definition compile_at (file : fmpfile) (path : list N) : act fmpfile :=
  and_do (read_text path) (fun text =>
  and_do (does (lift (compile_burn E text))) (fun tmp =>
  and_do (does (lift (unwrap (file_name path)))) (fun base =>
  and_do (does (lift (unwrap (strip_suffix (lit ".burn") base)))) (fun name =>
  let file := absorb (set_name file name) tmp in
  and_do (save (lit "inspect_output/test_compile") (utf8 (inspect_text (order file))) (EInspect file)) (fun _ =>
  and_do (does (testing E order fuel no_testing file)) (fun _ =>
  and_do (does (lift (assemble (order file)))) (fun buffer =>
  and_do (save (f_name file ++ lit ".fmp12") buffer (EWritten (f_name file ++ lit ".fmp12") buffer)) (fun _ =>
  does (lift (Ok file)))))))))).

(** src/decompile/decompiler.rs:214-221 [decompile_fmp12_file_with_header], the part before the file is read again. *)
Definition copy_header (path : list N) : act unit :=
  and_do (read_file path) (fun c => save_or_not (lit "header.log") c (EWritten (lit "header.log") c)).
(** main.rs:68-93: one input. *)
Definition decompile_at (print_header : bool) (file : fmpfile) (path : list N) : act fmpfile :=
  and_do (if print_header then copy_header path else does (lift (Ok tt))) (fun _ =>
  and_do (read_file path) (fun buffer =>
  and_do (does (lift (decompile segment_order fuel buffer))) (fun tmp =>
  and_do (save (lit "inspect_output/test_decompile") (utf8 (inspect_text (order tmp))) (EInspect tmp)) (fun _ =>
  let file := absorb file tmp in
  and_do (does (testing E order fuel no_testing file)) (fun _ =>
  does (lift (Ok file))))))).

(** The loops over the inputs: main.rs:28, 38 and 68. *)
Fixpoint for_paths (body : fmpfile -> list N -> act fmpfile) (paths : list (list N)) (file : fmpfile) : act fmpfile :=
  match paths with
  | [] => does (lift (Ok file))
  | p :: paths => and_do (body file p) (for_paths body paths)
  end.

(** main.rs:27-35: the files of tests. *)
Definition tests_at (file : fmpfile) (path : list N) : act fmpfile :=
  and_do (read_text path) (fun text =>
  and_do (does (lift (compile_burn E text))) (fun tmp => does (lift (Ok (put_tests file (f_tests file ++ f_tests tmp)))))).

(** main.rs:21-96 [main] with -c and with -d. *)
Definition store_compile (tests inputs : list (list N)) : act fmpfile :=
  and_do (for_paths tests_at tests fmpfile_new) (for_paths compile_at inputs).
Definition store_decompile (print_header : bool) (tests inputs : list (list N)) : act fmpfile :=
  and_do (for_paths tests_at tests fmpfile_new) (for_paths (decompile_at print_header) inputs).
End Store.
