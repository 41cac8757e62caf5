(** Model of the files that main.rs leaves behind.

    Files are found by the path they are opened with; that different paths are different files, and that writing succeeds, is assumed. *)
From Coq Require Import Ascii String NArith List Bool.
From Verif Require Import Prelude Utf8 ComponentModel CalcModel EvalModel DecompModel SchemaModel JsonModel MainModel.
Import ListNotations.
Local Open Scope N_scope.

(** Contents by path: what main.rs:56, 79 and assembler.rs:314 write. *)
Definition disk : Type := list (list N * list N).

Section Files.
Context (E : fenv).
(** See MainModel. *)
Variable order : fmpfile -> fmpfile.
Variable segment_order : list (N * list (N * list N)) -> list (N * list (N * list N)).
Variable fuel : nat.
Variable no_testing : bool.

(** [std::fs::write] in main.rs:56 and 79 (the JSON, [inspect] is the path) and src/compile/assembler.rs:313-315 [emit_assembly]. *)
Definition write_event (inspect : list N) (d : disk) (e : event) : disk :=
  match e with
  | EInspect f => sset d inspect (utf8 (inspect_text (order f)))
  | EWritten name contents => sset d name contents
  | _ => d
  end.
Definition disk_after (inspect : list N) (es : list event) (d : disk) : disk := fold_left (write_event inspect) es d.

(** main.rs:71-76 with src/decompile/decompiler.rs:214-221 [decompile_fmp12_file_with_header]: the file is copied before it is decompiled; that
    this copy could not be written is ignored. *)
Definition decompile_one_headed (file : fmpfile) (input : list N * list N) : ran fmpfile :=
  and_then (say (EWritten (lit "header.log") (snd input))) (fun _ => decompile_one E order segment_order fuel no_testing file input).
Definition main_decompile_headed (tests inputs : list (list N * list N)) : ran fmpfile :=
  and_then (lift (test_files E tests fmpfile_new)) (for_inputs decompile_one_headed inputs).

(** main.rs:21-96: the disk after the program. *)
Definition compile_on (tests inputs : list (list N * list N)) (d : disk) : disk :=
  disk_after (lit "inspect_output/test_compile") (fst (main_compile E order fuel no_testing tests inputs)) d.
Definition decompile_on (print_header : bool) (tests inputs : list (list N * list N)) (d : disk) : disk :=
  disk_after (lit "inspect_output/test_decompile")
    (fst (if print_header then main_decompile_headed tests inputs else main_decompile E order segment_order fuel no_testing tests inputs)) d.
End Files.
