(** What the script compiler complains about, token by token, independent of the parser.  The scripts and blocks are those of ScriptsSpec.v; here each rule also
    says what is complained about.  An opening bracket in a body, and commas and parentheses in the head of a script, are passed over without a word. *)
From Coq Require Import Ascii String NArith List Bool.
From Verif Require Import Prelude InstrModel ComponentModel CalcModel BurnModel VmSpec BurnSpec ScriptsSpec GripeModel.
Import ListNotations.
Local Open Scope N_scope.

(** [body_says open ts steps gripes open' rest]. *)
Inductive body_says : list blk -> list btoken -> list step -> list gripe -> list blk -> list btoken -> Prop :=
| YsOut : forall o, body_says o [] [] [] o []
| YsStep : forall o n op vs z ts l g o' r, kind BIdentifier n -> known (bt_value n) op -> kind BSemiColon z ->
    body_says o ts l g o' r -> body_says o (n :: args vs ++ z :: ts) (mkStep op 0 vs :: l) g o' r
| YsStepCut : forall o n op vs, kind BIdentifier n -> known (bt_value n) op -> body_says o (n :: args vs) [] [] o []
| YsUnknown : forall o n ts l g o' r, kind BIdentifier n -> unknown (bt_value n) -> body_says o ts l g o' r -> body_says o (n :: ts) l (GStep (bt_value n) :: g) o' r
| YsEnd : forall c ts, kind BCloseBracket c -> body_says [] (c :: ts) [] [] [] ts
| YsBranch : forall b o c ts l g o' r, kind BCloseBracket c -> continues ts -> body_says (b :: o) ts l g o' r -> body_says (b :: o) (c :: ts) l g o' r
| YsClose : forall b o c ts l g o' r, kind BCloseBracket c -> ~ continues ts -> body_says o ts l g o' r ->
    body_says (b :: o) (c :: ts) (closing_step b :: l) g o' r
| YsLoop : forall o w b ts l g o' r, kind BLoop w -> kind BOpenBracket b -> body_says (InLoop :: o) ts l g o' r ->
    body_says o (w :: b :: ts) (mkStep ILoop 0 [] :: l) g o' r
| YsElse : forall o w b ts l g o' r, kind BElse w -> kind BOpenBracket b -> body_says o ts l g o' r ->
    body_says o (w :: b :: ts) (mkStep IElse 0 [] :: l) g o' r
| YsBroken : forall o w x ts, kind_in [BLoop; BElse] w -> ~ kind BOpenBracket x -> body_says o (w :: x :: ts) [] [GBracket] o ts
| YsIf : forall o w vs b ts l g o' r, kind BIf w -> kind BOpenBracket b -> body_says (InIf :: o) ts l g o' r ->
    body_says o (w :: args vs ++ b :: ts) (mkStep IIf 0 vs :: l) g o' r
| YsIfCut : forall o w vs, kind BIf w -> body_says o (w :: args vs) [] [] (InIf :: o) []
| YsElif : forall o w vs b ts l g o' r, kind BElif w -> kind BOpenBracket b -> body_says o ts l g o' r ->
    body_says o (w :: args vs ++ b :: ts) (mkStep IElseIf 0 vs :: l) g o' r
| YsElifCut : forall o w vs, kind BElif w -> body_says o (w :: args vs) [] [] o []
| YsBare : forall o t ts l g o' r, kind BOpenBracket t -> body_says o ts l g o' r -> body_says o (t :: ts) l g o' r
| YsOther : forall o t ts l g o' r, ~ kind_in [BIdentifier; BCloseBracket; BLoop; BElse; BIf; BElif; BOpenBracket] t -> body_says o ts l g o' r ->
    body_says o (t :: ts) l (GToken t :: g) o' r.

(** In the head of a script: one complaint for each token that does not belong there. *)
Inductive head_says : list btoken -> list gripe -> Prop :=
| HsNil : head_says [] []
| HsFine : forall t ts g, kind_in [BArgument; BComma; BOpenParen; BCloseParen] t -> head_says ts g -> head_says (t :: ts) g
| HsOther : forall t ts g, ~ kind_in [BArgument; BComma; BOpenParen; BCloseParen; BOpenBracket] t -> head_says ts g -> head_says (t :: ts) (GHead :: g).

(** [text_says open ts scripts gripes]. *)
Inductive text_says : list blk -> list btoken -> list script -> list gripe -> Prop :=
| XsEnd : forall o, text_says o [] [] []
| XsOther : forall o t ts scs g, ~ kind BDefine t -> text_says o ts scs g -> text_says o (t :: ts) scs (GBetween :: g)
| XsScript : forall o d n name head ps gh b ts l gb o' r scs g, kind BDefine d -> name_of n name -> parameters_of head ps -> head_says head gh -> kind BOpenBracket b ->
    body_says o ts l gb o' r -> text_says o' r scs g -> text_says o (d :: n :: head ++ b :: ts) (mkScript name [] [] ps l :: scs) (gh ++ gb ++ g)
| XsCut : forall o d n name head ps gh, kind BDefine d -> name_of n name -> parameters_of head ps -> head_says head gh ->
    text_says o (d :: n :: head) [mkScript name [] [] ps []] gh.

(** Token [x] stands between [before] and [after], but not as the name of a script. *)
Definition stands (ts before : list btoken) (x : btoken) (after : list btoken) : Prop :=
  ts = before ++ x :: after /\ forall p d, before = p ++ [d] -> ~ kind BDefine d.

(** The step that a token and those after it say. *)
Inductive becomes : btoken -> list btoken -> step -> Prop :=
| BcStep : forall x op vs z a, kind BIdentifier x -> known (bt_value x) op -> kind BSemiColon z -> becomes x (args vs ++ z :: a) (mkStep op 0 vs)
| BcLoop : forall x a, kind BLoop x -> becomes x a (mkStep ILoop 0 [])
| BcElse : forall x a, kind BElse x -> becomes x a (mkStep IElse 0 [])
| BcIf : forall x vs b a, kind BIf x -> kind BOpenBracket b -> becomes x (args vs ++ b :: a) (mkStep IIf 0 vs)
| BcElif : forall x vs b a, kind BElif x -> kind BOpenBracket b -> becomes x (args vs ++ b :: a) (mkStep IElseIf 0 vs).
