(** What calculations and runs of tests print, independent of the evaluator and the runner. *)
From Coq Require Import Ascii String NArith List Bool.
From Verif Require Import Prelude InstrModel ComponentModel CalcModel CalcSpec DbModel EvalModel EvalSpec TreeSpec LexSpec TokensSpec PhraseSpec VmModel VmSpec VmTestSpec
  VmTextSpec RunsSpec PrintModel PrintSpec TalkModel.
Import ListNotations.
Local Open Scope N_scope.

Section Calculations.
Context (E : fenv) (v : view).
Local Notation node := (node (f64 E)).

(** A name nothing is known about, and the lookup of a text that ends at such a name. *)
Definition unset (s : list N) : Prop := parse64 E s = None /\ ~ is_quoted s /\ ~ field_name s /\ variable_unset v s.
Definition ends_at (s u : list N) : Prop := (s = u \/ leads_far E v s u) /\ unset u.

(** [part n m]: to evaluate [n], its part [m] is evaluated.  Arguments that a function does not use are not, nor are those of Get. *)
Inductive part : node -> node -> Prop :=
| PaConcatL : forall l r, part (NConcat l r) l
| PaConcatR : forall l r, part (NConcat l r) r
| PaCompareL : forall l op r, part (NCompare l op r) l
| PaCompareR : forall l op r, part (NCompare l op r) r
| PaBinaryL : forall l op r, part (NBinary l op r) l
| PaBinaryR : forall l op r, part (NBinary l op r) r
| PaFirst : forall f a rest, In f (map lit ["Abs"; "Acos"; "Asin"; "Char"]%string) -> part (NCall f (a :: rest)) a
| PaAsin : forall a b rest, part (NCall (lit "Asin"%string) (a :: b :: rest)) b
| PaMin : forall args a, In a args -> part (NCall (lit "Min"%string) args) a.
Inductive inside : node -> node -> Prop :=
| InSelf : forall n, inside n n
| InPart : forall n m k, part n m -> inside m k -> inside n k.

(** The texts that are looked up at a node: names, the values of the operands of arithmetic, and the values that Min compares. *)
Inductive looks_up : node -> list N -> Prop :=
| LuVariable : forall s, looks_up (NVariable s) s
| LuField : forall s, looks_up (NField s) s
| LuOperand : forall l op r m a, part (NBinary l op r) m -> value_is E v m a -> looks_up (NBinary l op r) a
| LuMin : forall args m a, (2 <= length args)%nat -> In m args -> value_is E v m a -> looks_up (NCall (lit "Min"%string) args) a.

(** Evaluating the tree meets the unset name [u]. *)
Definition meets (n : node) (u : list N) : Prop := exists m s, inside n m /\ looks_up m s /\ ends_at s u.
(** Evaluating the tree does arithmetic with an operand that is no number. *)
Definition mixes (n : node) : Prop :=
  exists l op r m a t, inside n (NBinary l op r) /\ part (NBinary l op r) m /\ value_is E v m a /\ stands_for E v a OText t.

(** *** The lines of a tree, in their order *)
Local Notation lines := (list (said (f64 E))).
Definition has_value (n : node) : Prop := exists r, value_is E v n r.
Definition is_known (s : list N) : Prop := exists t r, stands_for E v s t r.
(** First the lines [A]; then, if evaluation goes on, those of [B]. *)
Definition then_if (goes_on : Prop) (A B : lines -> Prop) (ls : lines) : Prop :=
  exists a b, ls = a ++ b /\ A a /\ ((goes_on /\ B b) \/ (~ goes_on /\ b = [])).
(** The lookup of a text prints a line only if it ends at an unset name. *)
Definition looking_up (s : list N) (ls : lines) : Prop := (exists u, ends_at s u /\ ls = [SUnknown u]) \/ ((forall u, ~ ends_at s u) /\ ls = []).
(** The values of two trees are looked up, the left one first. *)
Definition looking_up_both (l r : node) (ls : lines) : Prop :=
  exists a b, value_is E v l a /\ value_is E v r b /\ then_if (is_known a) (looking_up a) (looking_up b) ls.
(** A complaint if one of the values stands for no number. *)
Definition no_numbers (l r : node) (ls : lines) : Prop :=
  (ls = [SNotNumbers] /\ exists m a t, (m = l \/ m = r) /\ value_is E v m a /\ stands_for E v a OText t) \/
  (ls = [] /\ forall m a t, m = l \/ m = r -> value_is E v m a -> ~ stands_for E v a OText t).
Definition nothing (ls : lines) : Prop := ls = [].

(** [recites n ls]: the lines of evaluating [n], whether or not it has a value; where a part has none, nothing more is evaluated.  The operands
    of arithmetic are looked up after both have been evaluated; Min looks up the smallest value so far and the next one, after that has been evaluated. *)
Fixpoint recites (n : node) : lines -> Prop :=
  match n with
  | NNumber _ | NString _ => nothing
  | NVariable s | NField s => looking_up s
  | NConcat l r => then_if (has_value l) (recites l) (recites r)
  | NCompare l op r =>
    match op with TEq | TNeq | TLt | TLtq | TGt | TGtq => then_if (has_value l) (recites l) (recites r) | _ => nothing end
  | NBinary l op r =>
    then_if (has_value l) (recites l) (then_if (has_value r) (recites r)
      (then_if (forall m a, m = l \/ m = r -> value_is E v m a -> is_known a) (looking_up_both l r)
        (match op with TPlus | TMinus | TMultiply | TDivide => no_numbers l r | _ => nothing end)))
  | NCall f args =>
    match args with
    | [] => nothing
    | a :: rest =>
      if existsb (str_eqb f) (map lit ["Abs"; "Acos"; "Char"]%string) then recites a
      else if str_eqb f (lit "Asin"%string) then match rest with [] => recites a | b :: _ => then_if (has_value a) (recites a) (recites b) end
      else if str_eqb f (lit "Min"%string) then
        then_if (has_value a) (recites a)
          ((fix more (done todo : list node) : lines -> Prop :=
              match todo with
              | [] => nothing
              | y :: todo =>
                then_if (has_value y) (recites y)
                  (then_if (has_value (NCall (lit "Min"%string) (done ++ [y]))) (looking_up_both (NCall (lit "Min"%string) done) y) (more (done ++ [y]) todo))
              end) [a] rest)
      else nothing
    end
  | NUnary _ _ | NGrouping _ _ _ => nothing
  end.
End Calculations.

(** [strays s k]: read from the left there are [k] colons in [s] that are neither part of a string literal nor one of the two of a field name.  What is
    read as the name after the colons is skipped. *)
Inductive strays (E : fenv) : list N -> nat -> Prop :=
| StEnd : strays E [] 0
| StOther : forall c s k, c <> 34 -> c <> 58 -> strays E s k -> strays E (c :: s) k
| StString : forall body s k, ~ In 34 body -> strays E s k -> strays E (34 :: body ++ 34 :: s) k
| StOpen : forall body, ~ In 34 body -> strays E (34 :: body) 0
| StField : forall name r k, name_part E name r -> strays E r k -> strays E (58 :: 58 :: name ++ r) k
| StColon : forall d name r k, d <> 58 -> name_part E name r -> strays E r k -> strays E (58 :: d :: name ++ r) (S k)
| StLast : strays E [58] 1.

(** [piece s r k]: the tokeniser can read on from [s] to [r], and meets [k] such colons on the way. *)
Inductive piece (E : fenv) : list N -> list N -> nat -> Prop :=
| PiSpace : forall c s, whitespace c = true -> piece E (c :: s) s 0
| PiWord : forall w t r, w <> [] -> word w -> starts_solid w -> ends_word (hd_error r) -> word_token E w t -> piece E (w ++ r) r 0
| PiSign : forall c s, In c [40; 41; 43; 44; 45; 42; 47; 38] -> piece E (c :: s) s 0
| PiNeq : forall s, piece E (33 :: 61 :: s) s 0
| PiNot : forall d s, d <> 61 -> piece E (33 :: d :: s) (d :: s) 0
| PiCompare : forall c d s, In c [60; 61; 62] -> piece E (c :: d :: s) (d :: s) 0
| PiString : forall body s, ~ In 34 body -> piece E (34 :: body ++ 34 :: s) s 0
| PiOpen : forall body, ~ In 34 body -> piece E (34 :: body) [] 0
| PiField : forall w name r, word w -> starts_solid w -> name_part E name r -> piece E (w ++ 58 :: 58 :: name ++ r) r 0
| PiColon : forall w d name r, word w -> starts_solid w -> d <> 58 -> name_part E name r -> piece E (w ++ 58 :: d :: name ++ r) r 1
| PiLast : forall w, word w -> starts_solid w -> piece E (w ++ [58]) [] 1.
Inductive pieces (E : fenv) : list N -> list N -> nat -> Prop :=
| PsNone : forall s, pieces E s s 0
| PsMore : forall s r q j k, piece E s r j -> pieces E r q k -> pieces E s q (j + k).
(** The colons met before the place where the text cannot be read on. *)
Definition strays_before (E : fenv) (s : list N) (k : nat) : Prop := exists r, pieces E s r k /\ r <> [] /\ forall q j, ~ piece E r q j.

(** The lines of a calculation, whether or not it has a value. *)
Inductive calculation_recites (E : fenv) (v : view) (c : list N) : list (said (f64 E)) -> Prop :=
| CrTree : forall k ts n ls, splits E c ts -> tree_of E ts n -> strays E c k -> recites E v n ls -> calculation_recites E v c (repeat SColon k ++ STree n :: ls)
| CrNoTree : forall k ts, splits E c ts -> (~ exists n, tree_of E ts n) -> strays E c k -> calculation_recites E v c (repeat SColon k)
| CrUnread : forall k, (~ exists ts, splits E c ts) -> strays_before E c k -> calculation_recites E v c (repeat SColon k).
Definition has_result (E : fenv) (v : view) (c : list N) : Prop := exists ts n, splits E c ts /\ tree_of E ts n /\ has_value E v n.
(** The lines of calculations one after the other, up to the first one that has no value. *)
Inductive calculations_recite (E : fenv) (v : view) : list (list N) -> list (said (f64 E)) -> Prop :=
| CsNone : calculations_recite E v [] []
| CsOn : forall c cs ls ms, has_result E v c -> calculation_recites E v c ls -> calculations_recite E v cs ms -> calculations_recite E v (c :: cs) (ls ++ ms)
| CsStuck : forall c cs ls, ~ has_result E v c -> calculation_recites E v c ls -> calculations_recite E v (c :: cs) ls.

Section Runs.
Context (E : fenv) (file : fmpfile).

(** [evaluates code br cur cs]: the step [cur] evaluates the calculations [cs] one after the other, if it comes to an end; [br] tells that a
    branch of the last if was taken.  Then elif evaluates nothing if the if ends somewhere after it, and else the first
    argument of the last step of the script. *)
Inductive evaluates (code : list step) (k : N) (cur : step) : bool -> list (list N) -> Prop :=
| EvFirst : forall br c cs, In (opcode cur) [IPerformScript; IGoToLayout; IIf; IExitLoopIf; IShowCustomDialog; IAssert] -> switches cur = c :: cs ->
    evaluates code k cur br [c]
| EvSecond : forall br x c cs, In (opcode cur) [ISetVariable; ISetField] -> switches cur = x :: c :: cs -> evaluates code k cur br [c]
| EvRecord : forall br c, opcode cur = IGoToRecordRequestPage -> switches cur = [c] -> evaluates code k cur br [c]
| EvRecordExit : forall br c d cs, opcode cur = IGoToRecordRequestPage -> switches cur = c :: d :: cs -> evaluates code k cur br [c; d]
| EvElseIf : forall c cs, opcode cur = IElseIf -> switches cur = c :: cs -> evaluates code k cur false [c]
| EvTaken : forall j, opcode cur = IElseIf -> first_from code [IEndIf] k j -> evaluates code k cur true []
| EvOpen : forall pre z c cs, opcode cur = IElseIf -> none_from code [IEndIf] k -> code = pre ++ [z] -> switches z = c :: cs -> evaluates code k cur true [c]
| EvNone : forall br, ~ In (opcode cur) [IPerformScript; IGoToLayout; IIf; IExitLoopIf; IShowCustomDialog; IAssert; ISetVariable; ISetField;
    IGoToRecordRequestPage; IElseIf] -> evaluates code k cur br [].

(** The lines of a calculation that has a value: first a complaint for each misplaced colon, then the tree, then complaints about names and operands. *)
Definition calculation_says (v : view) (c : list N) (ls : list (said (f64 E))) : Prop :=
  exists colons ts n r complaints, ls = repeat SColon colons ++ STree n :: complaints /\ splits E c ts /\ tree_of E ts n /\ value_is E v n r /\
    strays E c colons /\ recites E v n complaints /\
    (forall x, In x complaints <-> (exists u, x = SUnknown u /\ meets E v n u) \/ (x = SNotNumbers /\ mixes E v n)).

(** [asks s cs]: the move from [s] evaluates the calculations [cs]. *)
Inductive asks (s : vm) : list (list N) -> Prop :=
| AsStep : forall code name k fr cur cs, code_on_top file s code -> vm_ip s = (name, k) :: fr -> nthN code k = Some cur ->
    evaluates code k cur (vm_branch s) cs -> asks s cs
| AsPop : forall code name k fr, code_on_top file s code -> vm_ip s = (name, k) :: fr -> lenN code <= k -> asks s [].

(** The calculations that a step tries to evaluate, also one that cannot be done: none if an argument is missing. *)
Definition tries (s : vm) (cs : list (list N)) : Prop := asks s cs \/ ((forall ds, ~ asks s ds) /\ cs = []).

Local Notation spoken := (spoken E).
(** The lines of a run to its end: for each move those of its calculations, and then those of the runner (PrintSpec.v). *)
Inductive run_speaks : vm -> list spoken -> vm -> Prop :=
| RsEnd : forall s, ~ under_way s -> run_speaks s [] s
| RsMove : forall s s1 s' cs css ls rest, under_way s -> moves_to E file s s1 -> asks s cs -> Forall2 (calculation_says (view_of s)) cs css -> prints E file s ls ->
    run_speaks s1 rest s' -> run_speaks s (map (OfCalculation E) (concat css) ++ map (OfRunner E) ls ++ rest) s'.

(** The lines of a run up to a step that cannot be done: last those of the calculations that it tries to evaluate. *)
Inductive stuck_speaks : vm -> list spoken -> Prop :=
| SsHere : forall s cs cl ls, under_way s -> (forall s', ~ moves_to E file s s') -> tries s cs -> calculations_recite E (view_of s) cs cl -> last_words file s ls ->
    stuck_speaks s (map (OfCalculation E) cl ++ map (OfRunner E) ls)
| SsMove : forall s s1 cs css ls rest, under_way s -> moves_to E file s s1 -> asks s cs -> Forall2 (calculation_says (view_of s)) cs css -> prints E file s ls ->
    stuck_speaks s1 rest -> stuck_speaks s (map (OfCalculation E) (concat css) ++ map (OfRunner E) ls ++ rest).

(** The lines of a list of tests. *)
Inductive tests_speak : list test -> vm -> list spoken -> vm -> Prop :=
| TsNone : forall s, tests_speak [] s [] s
| TsTest : forall t ts s s1 ls ls' s', run_speaks (begun s t) ls s1 -> tests_speak ts s1 ls' s' ->
    tests_speak (t :: ts) s (OfRunner E (LRunning (te_name t)) :: ls ++ OfRunner E (LOutcome (te_name t) (vm_pass s1)) :: ls') s'.
End Runs.
