(** What a whole test is meant to do, in terms of the state of the runner before and after it. *)
From Coq Require Import Ascii String NArith List Bool Sorted.
From Verif Require Import Prelude StrOrder InstrModel ComponentModel CalcModel CalcSpec DbModel DbSpec EvalModel EvalSpec EvalFuel VmModel VmSpec.
Import ListNotations.
Local Open Scope N_scope.

(** What of the runner's state the scripts work on, and the state with other contents and the pointer moved to the next step. *)
Definition mem_of (s : vm) : mem := mkMem (vm_db s) (vm_vars s) (vm_find s) (vm_criteria s) (vm_pass s).
Definition moved_on (s : vm) (m : mem) : vm :=
  mkVm (match vm_ip s with (name, k) :: fr => (name, k + 1) :: fr | [] => [] end)
       (m_vars m) (vm_test s) (vm_loops s) (m_pass m) (vm_branch s) (m_find m) (m_db m) (vm_layouts s) (m_criteria m).

(** The first script of the file with a name. *)
Definition first_script (file : fmpfile) (name : list N) (sc : script) : Prop :=
  exists before after, map snd (f_scripts file) = before ++ sc :: after /\ sc_name sc = name /\ Forall (fun x => sc_name x <> name) before.

(** The step the runner is about to execute. *)
Definition current (file : fmpfile) (s : vm) (cur : step) : Prop :=
  exists t name k fr code, vm_test s = Some t /\ vm_ip s = (name, k) :: fr /\ nthN code k = Some cur /\
    match fr with [] => code = sc_steps (te_script t) | _ => exists sc, first_script file name sc /\ code = sc_steps sc end.

(** The library has respected programs for scripts of the file; and for all of them, in case the program [p] calls any. *)
Definition describes (library : list N -> option prog) (file : fmpfile) (p : prog) : Prop :=
  (forall name q, library name = Some q -> respected q /\ exists sc, first_script file name sc /\ lays q (sc_steps sc)) /\
  (calls p = true -> forall name sc, first_script file name sc -> library name <> None).

(** The runner between two tests. *)
Definition ready (s : vm) : Prop := vm_ip s = [] /\ vm_pass s = true /\ vm_branch s = false.
(** What the script of a test starts with: one more scope of variables is put after those there are. *)
Definition start (s : vm) : mem := mkMem (vm_db s) (vm_vars s ++ [[]]) (vm_find s) (vm_criteria s) (vm_pass s).
(** The end of a test. *)
Definition ended (e : ending) (s : vm) : Prop :=
  match e with
  | Through => ready s
  | Failed => vm_pass s = false
  | Exits => False
  end.

Section Flat.
Context (E : fenv) (maps : list (list N * N)).

(** Steps one after the other, up to a failed assertion. *)
Inductive in_order (n : N) : list step -> mem -> ending -> mem -> Prop :=
| InEnd : forall m, in_order n [] m Through m
| InStep : forall s l m m1 e m', does E maps n s m m1 -> m_pass m1 = true -> in_order n l m1 e m' -> in_order n (s :: l) m e m'
| InFail : forall s l m m', does E maps n s m m' -> m_pass m' = false -> in_order n (s :: l) m Failed m'.

(** The steps of the first branch whose condition is true, or those of the else branch. *)
Inductive picks (n : N) (m : mem) (els : list step) : list (list N * list step) -> list step -> Prop :=
| PickElse : picks n m els [] els
| PickHere : forall c b bs, computes E n m c (lit "true") -> picks n m els ((c, b) :: bs) b
| PickNext : forall c b bs v body, computes E n m c v -> v <> lit "true" -> picks n m els bs body -> picks n m els ((c, b) :: bs) body.

(** Rounds of a loop with steps before and after an exit condition. *)
Inductive rounds (n : N) (before : list step) (x : step) (after : list step) (m : mem) : ending -> mem -> Prop :=
| RoundExit : forall m1 m', in_order n before m Through m1 -> leaves E n x m1 m' true -> rounds n before x after m Through m'
| RoundAgain : forall m1 m2 m3 e m', in_order n before m Through m1 -> leaves E n x m1 m2 false -> in_order n after m2 Through m3 ->
    rounds n before x after m3 e m' -> rounds n before x after m e m'
| RoundFail : forall m', in_order n before m Failed m' -> rounds n before x after m Failed m'
| RoundFailAfter : forall m1 m2 m', in_order n before m Through m1 -> leaves E n x m1 m2 false -> in_order n after m2 Failed m' ->
    rounds n before x after m Failed m'.
End Flat.

(** The steps of an if block and of a loop. *)
Fixpoint clause_steps (bs : list (list N * list step)) (els : option (list step)) : list step :=
  match bs with
  | (c, b) :: bs => mkStep IElseIf 0 [c] :: b ++ clause_steps bs els
  | [] => match els with Some b => mkStep IElse 0 [] :: b | None => [] end ++ [mkStep IEndIf 0 []]
  end.
Definition if_steps (c : list N) (b : list step) (bs : list (list N * list step)) (els : option (list step)) : list step :=
  mkStep IIf 0 [c] :: b ++ clause_steps bs els.
Definition loop_steps (before : list step) (x : step) (after : list step) : list step :=
  mkStep ILoop 0 [] :: (before ++ x :: after) ++ [mkStep IEndLoop 0 []].
