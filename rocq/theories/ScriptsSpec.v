(** Which scripts an arbitrary list of tokens stands for.  Independent of the parser. *)
From Coq Require Import Ascii String NArith List Bool.
From Verif Require Import Prelude InstrModel ComponentModel CalcModel BurnModel VmSpec BurnSpec.
Import ListNotations.
Local Open Scope N_scope.

(** The blocks that are open, the innermost first. *)
Inductive blk := InIf | InLoop.
Definition closing_step (b : blk) : step := match b with InIf => mkStep IEndIf 0 [] | InLoop => mkStep IEndLoop 0 [] end.

Definition kind (k : btype) (t : btoken) : Prop := bt_type t = k.
Definition kind_in (l : list btype) (t : btoken) : Prop := In (bt_type t) l.
Definition continues (ts : list btoken) : Prop := exists t u, ts = t :: u /\ kind_in [BElse; BElif] t.
Definition known (w : list N) (op : instruction) : Prop := exists k, In (k, op) step_words /\ w = lit k.
Definition unknown (w : list N) : Prop := forall op, ~ known w op.

(** [body_reads open ts steps open' rest]: with the blocks [open] open, the body of a script is read from [ts], gives [steps], and leaves
    the tokens [rest] and the blocks [open'] open. *)
Inductive body_reads : list blk -> list btoken -> list step -> list blk -> list btoken -> Prop :=
| BrOut : forall o, body_reads o [] [] o []
(* a step with its arguments and a semicolon; a step that the text ends in is lost *)
| BrStep : forall o n op vs z ts l o' r, kind BIdentifier n -> known (bt_value n) op -> kind BSemiColon z ->
    body_reads o ts l o' r -> body_reads o (n :: args vs ++ z :: ts) (mkStep op 0 vs :: l) o' r
| BrStepCut : forall o n op vs, kind BIdentifier n -> known (bt_value n) op -> body_reads o (n :: args vs) [] o []
(* a word that is no step is passed over; what follows it is read for itself *)
| BrUnknown : forall o n ts l o' r, kind BIdentifier n -> unknown (bt_value n) -> body_reads o ts l o' r -> body_reads o (n :: ts) l o' r
(* a closing bracket ends the script, stands before a further branch, or closes the innermost block *)
| BrEnd : forall c ts, kind BCloseBracket c -> body_reads [] (c :: ts) [] [] ts
| BrBranch : forall b o c ts l o' r, kind BCloseBracket c -> continues ts -> body_reads (b :: o) ts l o' r -> body_reads (b :: o) (c :: ts) l o' r
| BrClose : forall b o c ts l o' r, kind BCloseBracket c -> ~ continues ts -> body_reads o ts l o' r ->
    body_reads (b :: o) (c :: ts) (closing_step b :: l) o' r
(* a loop or an else without its opening bracket ends the script; the token after it is lost *)
| BrLoop : forall o w b ts l o' r, kind BLoop w -> kind BOpenBracket b -> body_reads (InLoop :: o) ts l o' r ->
    body_reads o (w :: b :: ts) (mkStep ILoop 0 [] :: l) o' r
| BrElse : forall o w b ts l o' r, kind BElse w -> kind BOpenBracket b -> body_reads o ts l o' r ->
    body_reads o (w :: b :: ts) (mkStep IElse 0 [] :: l) o' r
| BrBroken : forall o w x ts, kind_in [BLoop; BElse] w -> ~ kind BOpenBracket x -> body_reads o (w :: x :: ts) [] o ts
(* conditions; one that the text ends in is lost, but its block is open *)
| BrIf : forall o w vs b ts l o' r, kind BIf w -> kind BOpenBracket b -> body_reads (InIf :: o) ts l o' r ->
    body_reads o (w :: args vs ++ b :: ts) (mkStep IIf 0 vs :: l) o' r
| BrIfCut : forall o w vs, kind BIf w -> body_reads o (w :: args vs) [] (InIf :: o) []
| BrElif : forall o w vs b ts l o' r, kind BElif w -> kind BOpenBracket b -> body_reads o ts l o' r ->
    body_reads o (w :: args vs ++ b :: ts) (mkStep IElseIf 0 vs :: l) o' r
| BrElifCut : forall o w vs, kind BElif w -> body_reads o (w :: args vs) [] o []
(* everything else is passed over *)
| BrOther : forall o t ts l o' r, ~ kind_in [BIdentifier; BCloseBracket; BLoop; BElse; BIf; BElif] t -> body_reads o ts l o' r ->
    body_reads o (t :: ts) l o' r.

(** The name and the parameters of a script. *)
Definition name_of (t : btoken) (n : list N) : Prop := (kind BIdentifier t /\ n = bt_value t) \/ (~ kind BIdentifier t /\ n = []).
Inductive parameters_of : list btoken -> list (list N) -> Prop :=
| PaNil : parameters_of [] []
| PaArgument : forall t ts vs, kind BArgument t -> parameters_of ts vs -> parameters_of (t :: ts) (bt_value t :: vs)
| PaOther : forall t ts vs, ~ kind_in [BArgument; BOpenBracket] t -> parameters_of ts vs -> parameters_of (t :: ts) vs.

(** [scripts_read open ts scs]: what stands between scripts is passed over, and the blocks a script leaves open are open in the next. *)
Inductive scripts_read : list blk -> list btoken -> list script -> Prop :=
| SsEnd : forall o, scripts_read o [] []
| SsOther : forall o t ts scs, ~ kind BDefine t -> scripts_read o ts scs -> scripts_read o (t :: ts) scs
| SsScript : forall o d n name head ps b ts l o' r scs, kind BDefine d -> name_of n name -> parameters_of head ps -> kind BOpenBracket b ->
    body_reads o ts l o' r -> scripts_read o' r scs -> scripts_read o (d :: n :: head ++ b :: ts) (mkScript name [] [] ps l :: scs)
| SsCut : forall o d n name head ps, kind BDefine d -> name_of n name -> parameters_of head ps ->
    scripts_read o (d :: n :: head) [mkScript name [] [] ps []].

(** A step that the tokens account for: it is named with its arguments, belongs to a block keyword, or closes a block. *)
Inductive accounted (ts : list btoken) (x : step) : Prop :=
| AcStep : forall k, In (k, opcode x) step_words -> In (mkBtok BIdentifier (lit k)) ts ->
    (forall v, In v (switches x) -> In (mkBtok BArgument v) ts) -> accounted ts x
| AcCondition : forall t k, In (opcode x, k) [(IIf, BIf); (IElseIf, BElif)] -> In t ts -> kind k t ->
    (forall v, In v (switches x) -> In (mkBtok BArgument v) ts) -> accounted ts x
| AcBlock : forall t k, In (opcode x, k) [(ILoop, BLoop); (IElse, BElse); (IEndIf, BCloseBracket); (IEndLoop, BCloseBracket)] -> In t ts -> kind k t ->
    switches x = [] -> accounted ts x.
