(** What scripts are meant to do: the effect of each step, and the meaning of structured programs. *)
From Coq Require Import Ascii String NArith List Bool Sorted.
From Verif Require Import Prelude InstrModel ComponentModel CalcModel CalcSpec DbModel DbSpec EvalModel EvalSpec EvalFuel.
Import ListNotations.
Local Open Scope N_scope.

(** What a script works on: the data, the variables of all scopes, find mode with its criteria, and whether the test still passes. *)
Record mem := mkMem {
  m_db : db;
  m_vars : list scope;
  m_find : bool;
  m_criteria : list (list N * list N);
  m_pass : bool;
}.

(** A text in double quotes. *)
Definition in_quotes (s : list N) : list N := 34 :: s ++ [34].

(** A decimal number below 2^64, perhaps with a plus sign. *)
Definition unsigned (s : list N) (n : N) : Prop := (numeral s n \/ exists s', s = 43 :: s' /\ numeral s' n) /\ n < 18446744073709551616.

(** Where the given text moves the record pointer. *)
Inductive moves : db -> list N -> db -> Prop :=
| MvNumber : forall d s n d', unsigned s n -> apply_op d (OGoto n) = Ok d' -> moves d s d'
| MvPrevious : forall d d', apply_op d OPrevious = Ok d' -> moves d (in_quotes (lit "previous")) d'
| MvNext : forall d d', apply_op d ONext = Ok d' -> moves d (in_quotes (lit "next")) d'
| MvFirst : forall d d', apply_op d OFirst = Ok d' -> moves d (in_quotes (lit "first")) d'
| MvLast : forall d d', apply_op d OLast = Ok d' -> moves d (in_quotes (lit "last")) d'
| MvOther : forall d s, (forall n, ~ unsigned s n) -> ~ In s (map (fun w => in_quotes (lit w)) ["previous"; "next"; "first"; "last"]%string) ->
    moves d s d.

(** The current record pointer. *)
Definition pointer (d : db) (p : N) : Prop := exists o, nthN (d_occs d) (d_handle d) = Some o /\ to_ptr o = p.

(** The values of a field of the current table; the first field with that name counts. *)
Definition column (d : db) (field : list N) (values : list (list N)) : Prop :=
  exists o tb i fd, nthN (d_occs d) (d_handle d) = Some o /\ nthN (d_tables d) (to_table o) = Some tb /\
    field_at tb field i /\ nthN (dt_fields tb) i = Some fd /\ df_records fd = values.

(** The part of a name before its first double colon, if there is one, and that between the first and the next, if any. *)
Definition first_part (name part : list N) : Prop :=
  (~ has_colons name /\ part = name) \/
  exists b, name = part ++ 58 :: 58 :: b /\ ~ has_colons (part ++ [58]).
Definition second_part (name part : list N) : Prop :=
  exists a b, name = a ++ 58 :: 58 :: b /\ ~ has_colons (a ++ [58]) /\ first_part b part.

(** Record [r] satisfies a criterion. *)
Definition satisfies (d : db) (c : list N * list N) (r : N) : Prop :=
  exists field values, second_part (fst c) field /\ column d field values /\ nthN values r = Some (snd c).

(** The records found: ascending, and exactly those that satisfy a criterion; every criterion must name a field. *)
Definition finds (d : db) (cs : list (list N * list N)) (rs : list N) : Prop :=
  StronglySorted N.lt rs /\ (forall r, In r rs <-> exists c, In c cs /\ satisfies d c r) /\
  forall c, In c cs -> exists field values, second_part (fst c) field /\ column d field values.

Section Steps.
Context (E : fenv) (maps : list (list N * N)).

(** In a script running at a depth of [n], the calculation [c] gives the text [v]. *)
Definition computes (n : N) (m : mem) (c v : list N) : Prop := calc_gives E (mkView (m_db m) (m_vars m) n) c (Ok v).

Definition set_db (m : mem) (d : db) : mem := mkMem d (m_vars m) (m_find m) (m_criteria m) (m_pass m).

(** The steps that only have an effect on the data, and go on with the next step. *)
Definition simple (s : step) : Prop :=
  match opcode s with
  | IPerformScript | ILoop | IEndLoop | IExitLoopIf | IIf | IElseIf | IElse | IEndIf => False
  | IGoToRecordRequestPage => (length (switches s) <= 1)%nat
  | _ => True
  end.

(** Those without any effect. *)
Definition idle (o : instruction) : Prop :=
  ~ In o [IPerformScript; ILoop; IEndLoop; IExitLoopIf; IIf; IElseIf; IElse; IEndIf; IGoToLayout; IGoToRecordRequestPage; IEnterFindMode;
          IPerformFind; IShowAllRecords; ISetVariable; ISetField; INewRecordRequest; IShowCustomDialog; IAssert].

Inductive does (n : N) (s : step) (m : mem) : mem -> Prop :=
| DoLayout : forall c cs name o, opcode s = IGoToLayout -> switches s = c :: cs -> computes n m c (in_quotes name) ->
    sget maps name = Some o -> does n s m (set_db m (set_current_occurrence (m_db m) (o mod 65536)))
| DoNoLayout : forall c cs name, opcode s = IGoToLayout -> switches s = c :: cs -> computes n m c (in_quotes name) ->
    sget maps name = None -> does n s m m
| DoMove : forall c v d, opcode s = IGoToRecordRequestPage -> switches s = [c] -> computes n m c v -> m_find m = false ->
    (exists p, pointer (m_db m) p) -> moves (m_db m) v d -> does n s m (set_db m d)
| DoMoveFind : forall c v, opcode s = IGoToRecordRequestPage -> switches s = [c] -> computes n m c v -> m_find m = true -> does n s m m
| DoEnterFind : opcode s = IEnterFindMode -> does n s m (mkMem (m_db m) (m_vars m) true (m_criteria m) (m_pass m))
| DoFind : forall rs d, opcode s = IPerformFind -> finds (m_db m) (m_criteria m) rs -> apply_op (m_db m) (OFind rs) = Ok d ->
    does n s m (mkMem d (m_vars m) false [] (m_pass m))
| DoShowAll : forall d, opcode s = IShowAllRecords -> apply_op (m_db m) OShowAll = Ok d -> does n s m (set_db m d)
| DoVariable : forall name c cs v before sc after, opcode s = ISetVariable -> switches s = name :: c :: cs -> computes n m c v ->
    m_vars m = before ++ sc :: after -> lenN before = n - 1 ->
    does n s m (mkMem (m_db m) (before ++ sset sc name v :: after) (m_find m) (m_criteria m) (m_pass m))
| DoField : forall name c cs v occ field d, opcode s = ISetField -> switches s = name :: c :: cs -> computes n m c v -> m_find m = false ->
    first_part name occ -> second_part name field -> apply_op (m_db m) (OWrite occ field v) = Ok d -> does n s m (set_db m d)
| DoCriterion : forall name c cs v, opcode s = ISetField -> switches s = name :: c :: cs -> computes n m c v -> m_find m = true ->
    does n s m (mkMem (m_db m) (m_vars m) (m_find m) (m_criteria m ++ [(name, v)]) (m_pass m))
| DoNew : forall d, opcode s = INewRecordRequest -> apply_op (m_db m) OCreate = Ok d -> does n s m (set_db m d)
| DoDialog : forall c cs v, opcode s = IShowCustomDialog -> switches s = c :: cs -> computes n m c v -> does n s m m
| DoAssert : forall c cs v, opcode s = IAssert -> switches s = c :: cs -> computes n m c v -> v <> lit "false" -> does n s m m
| DoAssertFails : forall c cs, opcode s = IAssert -> switches s = c :: cs -> computes n m c (lit "false") ->
    does n s m (mkMem (m_db m) (m_vars m) (m_find m) (m_criteria m) false)
| DoNothing : idle (opcode s) -> does n s m m.

(** Steps that may leave a loop: exit-if, and going to a record with a second argument, which leaves the loop when the pointer
    does not move. *)
Definition leaving (s : step) : Prop :=
  opcode s = IExitLoopIf \/ opcode s = IGoToRecordRequestPage /\ (2 <= length (switches s))%nat.
Inductive leaves (n : N) (s : step) (m : mem) : mem -> bool -> Prop :=
| LvExit : forall c cs, opcode s = IExitLoopIf -> switches s = c :: cs -> computes n m c (lit "true") -> leaves n s m m true
| LvStay : forall c cs v, opcode s = IExitLoopIf -> switches s = c :: cs -> computes n m c v -> v <> lit "true" -> leaves n s m m false
| LvMoved : forall c e cs v w d p q, opcode s = IGoToRecordRequestPage -> switches s = c :: e :: cs -> computes n m c v -> computes n m e w ->
    m_find m = false -> moves (m_db m) v d -> pointer (m_db m) p -> pointer d q -> p <> q -> leaves n s m (set_db m d) false
| LvStuck : forall c e cs v w d p, opcode s = IGoToRecordRequestPage -> switches s = c :: e :: cs -> computes n m c v -> computes n m e w ->
    m_find m = false -> moves (m_db m) v d -> pointer (m_db m) p -> pointer d p -> leaves n s m (set_db m d) true
| LvFind : forall c e cs v w, opcode s = IGoToRecordRequestPage -> switches s = c :: e :: cs -> computes n m c v -> computes n m e w ->
    m_find m = true -> leaves n s m m false.

(** ** Structured programs *)
Inductive prog :=
| Done
| Do (s : step) (rest : prog)
| Leave (s : step) (rest : prog)
| Call (s : step) (rest : prog)
| Loop (body rest : prog)
| If (c : list N) (body : prog) (more : clauses) (rest : prog)
with clauses :=
| NoElse
| Else (body : prog)
| ElseIf (c : list N) (body : prog) (more : clauses).

(** The list of steps for a program. *)
Inductive lays : prog -> list step -> Prop :=
| LayDone : lays Done []
| LayDo : forall s p l, simple s -> lays p l -> lays (Do s p) (s :: l)
| LayLeave : forall s p l, leaving s -> lays p l -> lays (Leave s p) (s :: l)
| LayCall : forall s p l, opcode s = IPerformScript -> lays p l -> lays (Call s p) (s :: l)
| LayLoop : forall a b p q l k, opcode a = ILoop -> opcode b = IEndLoop -> lays p l -> lays q k -> lays (Loop p q) (a :: l ++ b :: k)
| LayIf : forall a c cs p q r l k j, opcode a = IIf -> switches a = c :: cs -> lays p l -> lays_clauses q k -> lays r j ->
    lays (If c p q r) (a :: l ++ k ++ j)
with lays_clauses : clauses -> list step -> Prop :=
| LayNoElse : forall e, opcode e = IEndIf -> lays_clauses NoElse [e]
| LayElse : forall a p l e, opcode a = IElse -> lays p l -> opcode e = IEndIf -> lays_clauses (Else p) (a :: l ++ [e])
| LayElseIf : forall a c cs p q l k, opcode a = IElseIf -> switches a = c :: cs -> lays p l -> lays_clauses q k ->
    lays_clauses (ElseIf c p q) (a :: l ++ k).

(** How a program ends: at its end, by leaving the loop around it, or by a failed assertion. *)
Inductive ending := Through | Exits | Failed.

(** The programs of the scripts that can be called. *)
Context (library : list N -> option prog).

(** [exec n p m e m']: at depth [n], the program takes [m] to [m'] and ends in the way [e].  A called script runs one deeper,
    with one more scope of variables put after those there are. *)
Inductive exec : N -> prog -> mem -> ending -> mem -> Prop :=
| XDone : forall n m, exec n Done m Through m
| XDo : forall n s p m m' e m'', does n s m m' -> m_pass m' = true -> exec n p m' e m'' -> exec n (Do s p) m e m''
| XFail : forall n s p m m', does n s m m' -> m_pass m' = false -> exec n (Do s p) m Failed m'
| XLeave : forall n s p m m', leaves n s m m' true -> exec n (Leave s p) m Exits m'
| XStay : forall n s p m m' e m'', leaves n s m m' false -> exec n p m' e m'' -> exec n (Leave s p) m e m''
| XCall : forall n s c cs name q p m m' e m'', switches s = c :: cs -> computes n m c (in_quotes name) -> library name = Some q ->
    exec (n + 1) q (mkMem (m_db m) (m_vars m ++ [[]]) (m_find m) (m_criteria m) (m_pass m)) Through m' ->
    exec n p m' e m'' -> exec n (Call s p) m e m''
| XCallFail : forall n s c cs name q p m m', switches s = c :: cs -> computes n m c (in_quotes name) -> library name = Some q ->
    exec (n + 1) q (mkMem (m_db m) (m_vars m ++ [[]]) (m_find m) (m_criteria m) (m_pass m)) Failed m' ->
    exec n (Call s p) m Failed m'
| XLoop : forall n p q m m' e m'', repeats n p m Through m' -> exec n q m' e m'' -> exec n (Loop p q) m e m''
| XLoopFail : forall n p q m m', repeats n p m Failed m' -> exec n (Loop p q) m Failed m'
| XIf : forall n c p q r m m' e m'', computes n m c (lit "true") -> exec n p m Through m' -> exec n r m' e m'' -> exec n (If c p q r) m e m''
| XIfEnds : forall n c p q r m e m', computes n m c (lit "true") -> exec n p m e m' -> e <> Through -> exec n (If c p q r) m e m'
| XElse : forall n c v p q r m m' e m'', computes n m c v -> v <> lit "true" -> chooses n q m Through m' -> exec n r m' e m'' ->
    exec n (If c p q r) m e m''
| XElseEnds : forall n c v p q r m e m', computes n m c v -> v <> lit "true" -> chooses n q m e m' -> e <> Through ->
    exec n (If c p q r) m e m'
(** The first clause whose condition holds. *)
with chooses : N -> clauses -> mem -> ending -> mem -> Prop :=
| ChNone : forall n m, chooses n NoElse m Through m
| ChElse : forall n p m e m', exec n p m e m' -> chooses n (Else p) m e m'
| ChHere : forall n c p q m e m', computes n m c (lit "true") -> exec n p m e m' -> chooses n (ElseIf c p q) m e m'
| ChNext : forall n c v p q m e m', computes n m c v -> v <> lit "true" -> chooses n q m e m' -> chooses n (ElseIf c p q) m e m'
(** Repetition of a body until it exits. *)
with repeats : N -> prog -> mem -> ending -> mem -> Prop :=
| RpAgain : forall n p m m' e m'', exec n p m Through m' -> repeats n p m' e m'' -> repeats n p m e m''
| RpExit : forall n p m m', exec n p m Exits m' -> repeats n p m Through m'
| RpFail : forall n p m m', exec n p m Failed m' -> repeats n p m Failed m'.

(** ** The programs the runner respects *)
(** No loop inside a loop, no if inside an if, calls only outside of both, and no exit inside an if.  The flags tell whether
    loops, ifs and exits are allowed. *)
Fixpoint tame (lo fi le : bool) (p : prog) : bool :=
  match p with
  | Done => true
  | Do _ r => tame lo fi le r
  | Leave _ r => le && tame lo fi le r
  | Call _ r => lo && fi && tame lo fi le r
  | Loop b r => lo && tame false fi true b && tame lo fi le r
  | If _ b q r => fi && tame lo false false b && tame_clauses lo q && tame lo fi le r
  end
with tame_clauses (lo : bool) (q : clauses) : bool :=
  match q with
  | NoElse => true
  | Else b => tame lo false false b
  | ElseIf _ b q => tame lo false false b && tame_clauses lo q
  end.
Definition respected (p : prog) : Prop := tame true true false p = true.

(** Whether a program calls scripts. *)
Fixpoint calls (p : prog) : bool :=
  match p with
  | Done => false
  | Do _ r | Leave _ r => calls r
  | Call _ _ => true
  | Loop b r => calls b || calls r
  | If _ b q r => calls b || calls_clauses q || calls r
  end
with calls_clauses (q : clauses) : bool :=
  match q with
  | NoElse => false
  | Else b => calls b
  | ElseIf _ b q => calls b || calls_clauses q
  end.

End Steps.
