(** Model of the standard output of the program, word for word: the lines of WholeModel.v as the text that is printed.

    The lines on the error stream (the complaints of src/burn_script/parser.rs:54-205, test.rs:422, 458, 644, 705 and 830-863, decompiler.rs:60 and chunk.rs:282) and what is
    written to files are not part of it.  What the crate color_print makes of its tags is a parameter; [cprintln] is taken to print its text, with the tags replaced and the
    open ones closed, and then a line feed, as [println] does. *)
From Coq Require Import Ascii String NArith List Bool.
From Verif Require Import Prelude InstrModel ComponentModel CalcModel EvalModel VmModel JsonModel PrintModel TalkModel TraceModel ReportModel WholeModel.
Import ListNotations.
Local Open Scope N_scope.

(** What is printed by the [cprintln!] calls of test.rs:143-162 and 449 for <green>, for <red>, for a <red> inside of <red>, for </green> and </red>, and where the tags that are left open are closed. *)
Record colours := mkColours { green : list N; red : list N; again : list N; plain : list N; close : list N }.

(** [{:x}] of a number, as in decompiler.rs:144-205. *)
Definition hex_digit (n : N) : N := if n <? 10 then 48 + n else 87 + n.
Fixpoint hex_loop (fuel : nat) (n : N) : list N :=
  match fuel with
  | O => []
  | S fuel => if n <? 16 then [hex_digit n] else hex_loop fuel (n / 16) ++ [hex_digit (n mod 16)]
  end.
Definition hex (n : N) : list N := hex_loop (S (N.size_nat n)) n.

(** [{:?}] of a list of bytes, as in assembler.rs:80 and 109. *)
Fixpoint listed (l : list N) : list N :=
  match l with
  | [] => []
  | [b] => digits b
  | b :: l => digits b ++ lit ", " ++ listed l
  end.
Definition bytes_words (l : list N) : list N := lit "[" ++ listed l ++ lit "]".

Section Words.
Context (E : fenv) (C : colours).

(** src/testing/test.rs:137 and 154, 143-145 and 160-162, 197, 215, 443, 449; 422 and 458 are printed on the error stream. *)
Definition line_words (l : line) : option (list N) :=
  match l with
  | LRunning test => Some (lit "Running test: " ++ test)
  | LOutcome test true => Some (lit "Test " ++ test ++ lit " outcome: " ++ green C ++ lit "Success" ++ plain C)
  | LOutcome test false => Some (lit "Test " ++ test ++ lit " outcome: " ++ red C ++ lit "Fail" ++ plain C)
  | LPopping script => Some (lit "Popping script: " ++ script)
  | LCalling script => Some (lit "calling " ++ script)
  | LDialog text => Some text
  | LAssertion calculation => Some (red C ++ lit "Assertion failed" ++ again C ++ lit ": " ++ calculation ++ close C)
  | LScope | LUnimplemented _ => None
  end.

(** src/testing/calc_eval.rs:291, a [Result] that is always [Ok]; the other lines of calculations are printed on the error stream. *)
Definition spoken_words (x : spoken E) : option (list N) :=
  match x with
  | OfCalculation _ (STree n) => Some (lit "RESULT: Ok(" ++ debug E n ++ lit ")")
  | OfCalculation _ _ => None
  | OfRunner _ l => line_words l
  end.

(** src/compile/assembler.rs:80, 109, 133 and 181. *)
Definition note_words (n : note) : list N :=
  match n with
  | NKey l => lit "Pushing " ++ bytes_words l
  | NValue ins key val len => lit "Ins: " ++ digits ins ++ lit " -> key " ++ digits key ++ lit " :: " ++ bytes_words val ++ lit " :: len " ++ digits len
  | NDirectory ins l => lit "Ins: " ++ hex ins ++ lit ", dir: " ++ bytes_words l
  | NTable l => lit "pushing " ++ bytes_words l
  end.

(** src/decompile/decompiler.rs:297; the other lines are printed on the error stream. *)
Definition report_words (r : report) : option (list N) :=
  match r with RByte b => Some (digits b) | _ => None end.

Definition shown_words (x : shown E) : option (list N) :=
  match x with
  | WTests x => spoken_words x
  | WAssembler n => Some (note_words n)
  | WDecompiler r => report_words r
  | WComplaint _ | WFile _ | WWritten _ _ => None
  end.

(** Each line ends with a line feed ([println!], as in test.rs:137-458). *)
Definition put_out {A} (words : A -> option (list N)) (l : list A) : list N :=
  flat_map (fun x => match words x with Some w => w ++ [10] | None => [] end) l.
Definition stdout (l : list (shown E)) : list N := put_out shown_words l.
End Words.
