(** Model of the error stream of the program, word for word: the lines of WholeModel.v that are printed by [eprintln!].  What a panic prints is not part of it. *)
From Coq Require Import Ascii String NArith List Bool.
From Verif Require Import Prelude InstrModel ComponentModel CalcModel BurnModel EvalModel VmModel JsonModel GripeModel PrintModel TalkModel TraceModel ReportModel WholeModel WordsModel.
Import ListNotations.
Local Open Scope N_scope.

(** What derive(Debug) gives for a token of a script (src/burn_script/tokens.rs:2-38) and for an instruction (src/fm_script_engine/fm_script_engine_instructions.rs:5); both are parameters. *)
Record debugs := mkDebugs { of_token : btoken -> list N; of_instruction : instruction -> list N }.

Section Mutter.
Context (E : fenv) (D : debugs).

(** src/burn_script/parser.rs:54, 84, 129 and 187, 198, 205. *)
Definition gripe_words (g : gripe) : list N :=
  match g with
  | GHead => lit "invalid token."
  | GStep w => lit "Invalid script step: " ++ w
  | GBracket => lit "Expected '{' after loop."
  | GToken t => lit "Invalid token in script: " ++ of_token D t
  | GBetween => lit "Unrecognized token"
  end.

(** src/testing/test.rs:644, 705, and 830, 841, 852 and 863. *)
Definition calculation_mutters (x : said (f64 E)) : option (list N) :=
  match x with
  | SColon => Some (lit "invalid ':' found.")
  | STree _ => None
  | SUnknown name => Some (lit "Unknown variable: " ++ name)
  | SNotNumbers => Some (lit "Unable to add non-number types.")
  end.

(** src/testing/test.rs:422 and 458. *)
Definition runner_mutters (l : line) : option (list N) :=
  match l with
  | LScope => Some (lit "invalid scope resultion. Please check that loop and if blocks are terminated correctly.")
  | LUnimplemented op => Some (lit "Unimplemented instruction: " ++ of_instruction D op)
  | _ => None
  end.

(** src/decompile/decompiler.rs:60 and src/chunk.rs:282. *)
Definition decompiler_mutters (r : report) : option (list N) :=
  match r with
  | RByte _ => None
  | RFunction => Some (lit "unrecognized intrinsic.")
  | RCode part local code => Some (lit "Unknown code @ B:" ++ digits part ++ lit ", O:" ++ digits local ++ lit ": " ++ hex code)
  end.

(** Which of the lines of WholeModel.v go to the error stream: the [eprintln!] calls of test.rs:422-863, burn_script/parser.rs:54-205, decompiler.rs:60 and chunk.rs:282. *)
Definition muttered (x : shown E) : option (list N) :=
  match x with
  | WComplaint g => Some (gripe_words g)
  | WTests (OfCalculation _ x) => calculation_mutters x
  | WTests (OfRunner _ l) => runner_mutters l
  | WDecompiler r => decompiler_mutters r
  | WAssembler _ | WFile _ | WWritten _ _ => None
  end.
(** The error stream as one text: every [eprintln!] (test.rs:422-863 and the others) ends its line. *)
Definition stderr (l : list (shown E)) : list N := put_out muttered l.
End Mutter.
