(** What a run of tests prints, along the moves of the runner.  Independent of the runner, except for its state. *)
From Coq Require Import Ascii String NArith List Bool.
From Verif Require Import Prelude InstrModel ComponentModel CalcModel DbModel EvalModel VmModel VmSpec VmTestSpec VmTextSpec RunsSpec PrintModel.
Import ListNotations.
Local Open Scope N_scope.

(** Steps that never print anything. *)
Definition silent_steps : list instruction :=
  [IGoToLayout; IGoToRecordRequestPage; IEnterFindMode; IUnsortRecords; IPerformFind; IShowAllRecords; ISetVariable; ISetField; ILoop; IEndLoop; IIf; IElseIf;
   IElse; IEndIf; IExitLoopIf; INewRecordRequest; ICommentedOut; IBlankLineComment].
(** Steps that print what they do. *)
Definition speaking_steps : list instruction := [IPerformScript; IShowCustomDialog; IAssert].

Section Lines.
Context (E : fenv) (file : fmpfile).

(** [says n m cur ls]: at depth [n] and with the contents [m], the step [cur] prints [ls]. *)
Inductive says (n : N) (m : mem) (cur : step) : list line -> Prop :=
| SaDialog : forall c cs v, opcode cur = IShowCustomDialog -> switches cur = c :: cs -> computes E n m c v -> says n m cur [LDialog v]
| SaFailed : forall c cs, opcode cur = IAssert -> switches cur = c :: cs -> computes E n m c (lit "false") -> says n m cur [LAssertion c]
| SaHolds : forall c cs v, opcode cur = IAssert -> switches cur = c :: cs -> computes E n m c v -> v <> lit "false" -> says n m cur []
| SaCall : forall c cs callee sc, opcode cur = IPerformScript -> switches cur = c :: cs -> computes E n m c (in_quotes callee) -> first_script file callee sc ->
    says n m cur [LCalling callee]
| SaNobody : forall c cs callee, opcode cur = IPerformScript -> switches cur = c :: cs -> computes E n m c (in_quotes callee) ->
    (forall sc, ~ first_script file callee sc) -> says n m cur []
| SaSilent : In (opcode cur) silent_steps -> says n m cur []
| SaUnimplemented : ~ In (opcode cur) (speaking_steps ++ silent_steps) -> says n m cur [LUnimplemented (opcode cur)].

(** The line of a move: of the step on top, or of leaving the script. *)
Inductive prints (s : vm) : list line -> Prop :=
| PrStep : forall code name k fr cur ls, code_on_top file s code -> vm_ip s = (name, k) :: fr -> nthN code k = Some cur ->
    says (lenN (vm_ip s)) (mem_of s) cur ls -> prints s ls
| PrPop : forall code name k fr, code_on_top file s code -> vm_ip s = (name, k) :: fr -> lenN code <= k -> prints s [LPopping name].

(** The lines of a run to its end. *)
Inductive run_prints : vm -> list line -> vm -> Prop :=
| RpEnd : forall s, ~ under_way s -> run_prints s [] s
| RpMove : forall s s1 s' ls ls', under_way s -> moves_to E file s s1 -> prints s ls -> run_prints s1 ls' s' -> run_prints s (ls ++ ls') s'.

(** The lines of a run up to a step that cannot be done: before the end of a loop where there was none, there is a complaint. *)
Definition last_words (s : vm) (ls : list line) : Prop :=
  ((exists code name k fr cur, code_on_top file s code /\ vm_ip s = (name, k) :: fr /\ nthN code k = Some cur /\ opcode cur = IEndLoop) /\ ls = [LScope]) \/
  ((forall code name k fr cur, code_on_top file s code -> vm_ip s = (name, k) :: fr -> nthN code k = Some cur -> opcode cur <> IEndLoop) /\ ls = []).
Inductive stuck_prints : vm -> list line -> Prop :=
| SpHere : forall s ls, under_way s -> (forall s', ~ moves_to E file s s') -> last_words s ls -> stuck_prints s ls
| SpMove : forall s s1 ls ls', under_way s -> moves_to E file s s1 -> prints s ls -> stuck_prints s1 ls' -> stuck_prints s (ls ++ ls').

(** The lines of a list of tests. *)
Inductive tests_print : list test -> vm -> list line -> vm -> Prop :=
| TpNone : forall s, tests_print [] s [] s
| TpTest : forall t ts s s1 ls ls' s', run_prints (begun s t) ls s1 -> tests_print ts s1 ls' s' ->
    tests_print (t :: ts) s (LRunning (te_name t) :: ls ++ LOutcome (te_name t) (vm_pass s1) :: ls') s'.
End Lines.

(** Calls and ends of scripts are nested, with matching names. *)
Inductive nested : list line -> Prop :=
| NeNone : nested []
| NeCall : forall n a b, nested a -> nested b -> nested (LCalling n :: a ++ LPopping n :: b)
| NeOther : forall x a, (forall n, x <> LCalling n /\ x <> LPopping n) -> nested a -> nested (x :: a).
