(** What the runner does with an arbitrary list of steps, structured or not.  Independent of the runner, except for its state. *)
From Coq Require Import Ascii String NArith List Bool.
From Verif Require Import Prelude InstrModel ComponentModel CalcModel DbModel EvalModel VmModel VmSpec VmTestSpec.
Import ListNotations.
Local Open Scope N_scope.

(** [j] is the first place from [i] on with one of some kinds of steps; there is none from [i] on. *)
Definition first_from (code : list step) (l : list instruction) (i j : N) : Prop :=
  i <= j /\ (exists s, nthN code j = Some s /\ In (opcode s) l) /\ forall k s, i <= k < j -> nthN code k = Some s -> ~ In (opcode s) l.
Definition none_from (code : list step) (l : list instruction) (i : N) : Prop := forall k s, i <= k -> nthN code k = Some s -> ~ In (opcode s) l.
Definition branch_steps : list instruction := [IEndIf; IElse; IElseIf].

Section Text.
Context (E : fenv) (file : fmpfile).

(** [control n code k s m br lps k' m' br' lps']: at depth [n], the step [s] at place [k] leads to the place [k'].  [br] tells that a branch
    of the last if was taken; [lps] are the places of all loop steps met so far in any script, the last first: they are never taken away. *)
Inductive control (n : N) (code : list step) (k : N) (s : step) (m : mem) : bool -> list N -> N -> mem -> bool -> list N -> Prop :=
| CtLoop : forall br lps, opcode s = ILoop -> control n code k s m br lps (k + 1) m br (k :: lps)
| CtEndLoop : forall br l lps, opcode s = IEndLoop -> control n code k s m br (l :: lps) (l + 1) m br (l :: lps)
| CtStay : forall br lps m', leaving s -> leaves E n s m m' false -> control n code k s m br lps (k + 1) m' br lps
| CtExit : forall br lps m' j, leaving s -> leaves E n s m m' true -> first_from code [IEndLoop] k j -> control n code k s m br lps (j + 1) m' br lps
| CtIf : forall br lps c cs, opcode s = IIf -> switches s = c :: cs -> computes E n m c (lit "true") -> control n code k s m br lps (k + 1) m true lps
| CtIfNot : forall br lps c cs v j, opcode s = IIf -> switches s = c :: cs -> computes E n m c v -> v <> lit "true" ->
    first_from code branch_steps k j -> control n code k s m br lps j m br lps
| CtIfNone : forall br lps c cs v, opcode s = IIf -> switches s = c :: cs -> computes E n m c v -> v <> lit "true" ->
    none_from code branch_steps k -> control n code k s m br lps (lenN code) m br lps
| CtElseIf : forall lps c cs, opcode s = IElseIf -> switches s = c :: cs -> computes E n m c (lit "true") ->
    control n code k s m false lps (k + 1) m true lps
| CtElseIfNot : forall lps c cs v j, opcode s = IElseIf -> switches s = c :: cs -> computes E n m c v -> v <> lit "true" ->
    first_from code branch_steps (k + 1) j -> control n code k s m false lps j m false lps
| CtElseIfNone : forall lps c cs v, opcode s = IElseIf -> switches s = c :: cs -> computes E n m c v -> v <> lit "true" ->
    none_from code branch_steps (k + 1) -> control n code k s m false lps (lenN code) m false lps
| CtElse : forall lps, opcode s = IElse -> control n code k s m false lps (k + 1) m false lps
| CtTaken : forall lps j, In (opcode s) [IElse; IElseIf] -> first_from code [IEndIf] k j -> control n code k s m true lps j m false lps
(* without an end of the if, the script is left, and the flag stays; after elif, the first argument of the last step is computed *)
| CtElseOpen : forall lps, opcode s = IElse -> none_from code [IEndIf] k -> control n code k s m true lps (lenN code + 1) m true lps
| CtElseIfOpen : forall lps pre z c cs v, opcode s = IElseIf -> none_from code [IEndIf] k -> code = pre ++ [z] -> switches z = c :: cs ->
    computes E n m c v -> control n code k s m true lps (lenN code + 1) m true lps
| CtEndIf : forall br lps, opcode s = IEndIf -> control n code k s m br lps (k + 1) m false lps.

(** The steps of the script on top: those of the test if it is the only one, else those of the first script of the file with the name on
    top, even if that is the name of a test. *)
Definition code_on_top (s : vm) (code : list step) : Prop :=
  exists t name k fr, vm_test s = Some t /\ vm_ip s = (name, k) :: fr /\
    match fr with
    | [] => code = sc_steps (te_script t)
    | _ => (exists sc, first_script file name sc /\ code = sc_steps sc) \/ ((forall sc, ~ first_script file name sc) /\ code = [])
    end.
Definition place_on_top (s : vm) (k : N) : Prop := exists name fr, vm_ip s = (name, k) :: fr.

(** The state with other contents. *)
Definition put (s : vm) (ip : list (list N * N)) (m : mem) (br : bool) (lps : list N) : vm :=
  mkVm ip (m_vars m) (vm_test s) lps (m_pass m) br (m_find m) (m_db m) (vm_layouts s) (m_criteria m).
Definition with_scope (m : mem) : mem := mkMem (m_db m) (m_vars m ++ [[]]) (m_find m) (m_criteria m) (m_pass m).

Inductive moves_to (s : vm) : vm -> Prop :=
| ToNext : forall code name k fr cur m', code_on_top s code -> vm_ip s = (name, k) :: fr -> nthN code k = Some cur -> simple cur ->
    does E (vm_layouts s) (lenN (vm_ip s)) cur (mem_of s) m' -> moves_to s (put s ((name, k + 1) :: fr) m' (vm_branch s) (vm_loops s))
| ToPlace : forall code name k fr cur k' m' br' lps', code_on_top s code -> vm_ip s = (name, k) :: fr -> nthN code k = Some cur ->
    control (lenN (vm_ip s)) code k cur (mem_of s) (vm_branch s) (vm_loops s) k' m' br' lps' -> moves_to s (put s ((name, k') :: fr) m' br' lps')
| ToScript : forall code name k fr cur c cs callee sc, code_on_top s code -> vm_ip s = (name, k) :: fr -> nthN code k = Some cur ->
    opcode cur = IPerformScript -> switches cur = c :: cs -> computes E (lenN (vm_ip s)) (mem_of s) c (in_quotes callee) -> first_script file callee sc ->
    moves_to s (put s ((callee, 0) :: (name, k + 1) :: fr) (with_scope (mem_of s)) (vm_branch s) (vm_loops s))
| ToItself : forall code name k fr cur c cs callee, code_on_top s code -> vm_ip s = (name, k) :: fr -> nthN code k = Some cur ->
    opcode cur = IPerformScript -> switches cur = c :: cs -> computes E (lenN (vm_ip s)) (mem_of s) c (in_quotes callee) ->
    (forall sc, ~ first_script file callee sc) -> moves_to s (put s (vm_ip s) (with_scope (mem_of s)) (vm_branch s) (vm_loops s))
| ToCaller : forall code name k fr, code_on_top s code -> vm_ip s = (name, k) :: fr -> lenN code <= k ->
    moves_to s (put s fr (mem_of s) (vm_branch s) (vm_loops s)).

(** A run goes on until an assertion has failed or no script is left. *)
Inductive runs_to : vm -> vm -> Prop :=
| RuFailed : forall s, vm_pass s = false -> runs_to s s
| RuDone : forall s, vm_ip s = [] -> runs_to s s
| RuStep : forall s s1 s', vm_pass s = true -> vm_ip s <> [] -> moves_to s s1 -> runs_to s1 s' -> runs_to s s'.
End Text.
