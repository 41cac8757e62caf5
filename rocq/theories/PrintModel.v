(** Model of what the test runner prints: /repo/src/testing/test.rs.

    The texts of the lines and their colours are left out: a line is what it is about.  The lines that calculations print (the tree of each one on
    the standard output; an unknown variable, operands that are no numbers and a misplaced colon on the error stream) are in TalkModel.v. *)
From Coq Require Import Ascii String NArith List Bool.
From Verif Require Import Prelude InstrModel ComponentModel CalcModel DbModel EvalModel VmModel.
Import ListNotations.
Local Open Scope N_scope.

(** test.rs:137 and 154, 143-145 and 160-162, 197, 215, 443, 449; on the error stream 422 and 458. *)
Inductive line :=
| LRunning (test : list N)
| LOutcome (test : list N) (pass : bool)
| LPopping (script : list N)
| LCalling (script : list N)
| LDialog (text : list N)
| LAssertion (calculation : list N)
| LScope
| LUnimplemented (o : instruction).

Section Print.
Context (E : fenv) (file : fmpfile).

(** test.rs:176-463 [step]: the lines printed by the step taken from [s].  For a step that ends in a panic, those printed before.  The stack
    of [punc_stack] gets an entry together with [loop_scopes] (336-337), and neither is ever taken away: one is empty if the other is. *)
Definition step_lines (s : vm) : list line :=
  match running file s with
  | Ok sc =>
    match nthN (sc_steps sc) (here s) with
    | None => match vm_ip s with (name, _) :: _ => [LPopping name] | [] => [] end
    | Some cur =>
      match opcode cur with
      | IPerformScript =>
        match (a <- at_ (switches cur) 0 ;; v <- calc E s a ;; v <- unwrap (strip_suffix v) ;; unwrap (strip_prefix v)) with
        | Ok name => match find_script file name with Some _ => [LCalling name] | None => [] end
        | _ => []
        end
      | IEndLoop => match vm_loops s with [] => [LScope] | _ => [] end
      | IShowCustomDialog =>
        match (a <- at_ (switches cur) 0 ;; calc E s a) with Ok v => [LDialog v] | _ => [] end
      | IAssert =>
        match (a <- at_ (switches cur) 0 ;; v <- calc E s a ;; Ok (a, v)) with
        | Ok (a, v) => if str_eqb v (lit "false") then [LAssertion a] else []
        | _ => []
        end
      | IGoToLayout | IGoToRecordRequestPage | IEnterFindMode | IUnsortRecords | IPerformFind | IShowAllRecords | ISetVariable | ISetField
      | ILoop | IIf | IElseIf | IElse | IEndIf | IExitLoopIf | INewRecordRequest | ICommentedOut | IBlankLineComment => []
      | o => [LUnimplemented o]
      end
    end
  | _ => []
  end.

(** test.rs:138-140 and 156-158: see [run_test]. *)
Fixpoint run_lines (fuel : nat) (s : vm) : list line * outcome vm :=
  match vm_pass s, vm_ip s with
  | true, _ :: _ =>
    match fuel with
    | O => ([], NoFuel)
    | S fuel =>
      match vm_step E file s with
      | Ok s1 => let r := run_lines fuel s1 in (step_lines s ++ fst r, snd r)
      | o => (step_lines s, o)
      end
    end
  | _, _ => ([], Ok s)
  end.

(** test.rs:132-167: see [run_tests_loop]. *)
Fixpoint tests_lines (fuel : nat) (ts : list test) (s : vm) : list line * outcome vm :=
  match ts with
  | [] => ([], Ok s)
  | t :: ts =>
    let r := run_lines fuel (load_test s t) in
    match snd r with
    | Ok s1 => let q := tests_lines fuel ts s1 in (LRunning (te_name t) :: fst r ++ LOutcome (te_name t) (vm_pass s1) :: fst q, snd q)
    | o => (LRunning (te_name t) :: fst r, o)
    end
  end.
End Print.
