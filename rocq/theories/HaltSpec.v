(** Where script and schema texts that cannot be read break off, and what is complained about before that.  Independent of the parsers. *)
From Coq Require Import Ascii String NArith List Bool.
From Verif Require Import Prelude InstrModel ComponentModel CalcModel BurnModel SchemaModel SchemaSpec GripeModel GripeSpec SourceSpec.
From Verif Require BurnSpec ScriptsSpec.
Import ListNotations.
Local Open Scope N_scope.

(** ** Scripts *)
Section Scripts.
Import BurnSpec ScriptsSpec.

(** [passes open ts gripes open' rest]: the first thing in the body of a script is read and complained about, and reading goes on at [rest]. *)
Inductive passes : list blk -> list btoken -> list gripe -> list blk -> list btoken -> Prop :=
| PsStep : forall o n op vs z ts, kind BIdentifier n -> known (bt_value n) op -> kind BSemiColon z -> passes o (n :: args vs ++ z :: ts) [] o ts
| PsUnknown : forall o n ts, kind BIdentifier n -> unknown (bt_value n) -> passes o (n :: ts) [GStep (bt_value n)] o ts
| PsBranch : forall b o c ts, kind BCloseBracket c -> continues ts -> passes (b :: o) (c :: ts) [] (b :: o) ts
| PsClose : forall b o c ts, kind BCloseBracket c -> ~ continues ts -> passes (b :: o) (c :: ts) [] o ts
| PsLoop : forall o w b ts, kind BLoop w -> kind BOpenBracket b -> passes o (w :: b :: ts) [] (InLoop :: o) ts
| PsElse : forall o w b ts, kind BElse w -> kind BOpenBracket b -> passes o (w :: b :: ts) [] o ts
| PsIf : forall o w vs b ts, kind BIf w -> kind BOpenBracket b -> passes o (w :: args vs ++ b :: ts) [] (InIf :: o) ts
| PsElif : forall o w vs b ts, kind BElif w -> kind BOpenBracket b -> passes o (w :: args vs ++ b :: ts) [] o ts
| PsBare : forall o t ts, kind BOpenBracket t -> passes o (t :: ts) [] o ts
| PsOther : forall o t ts, ~ kind_in [BIdentifier; BCloseBracket; BLoop; BElse; BIf; BElif; BOpenBracket] t -> passes o (t :: ts) [GToken t] o ts.

(** A loop or an else with nothing after it; a step without its semicolon, or a condition without its bracket, followed by something else. *)
Inductive unreadable : list btoken -> Prop :=
| UnLone : forall w, kind_in [BLoop; BElse] w -> unreadable [w]
| UnStep : forall n op vs x ts, kind BIdentifier n -> known (bt_value n) op -> ~ kind_in [BArgument; BSemiColon] x -> unreadable (n :: args vs ++ x :: ts)
| UnCondition : forall w vs x ts, kind_in [BIf; BElif] w -> ~ kind_in [BArgument; BOpenBracket] x -> unreadable (w :: args vs ++ x :: ts).

Inductive body_breaks : list blk -> list btoken -> list gripe -> Prop :=
| BbHere : forall o ts, unreadable ts -> body_breaks o ts []
| BbMore : forall o ts g o' ts' g', passes o ts g o' ts' -> body_breaks o' ts' g' -> body_breaks o ts (g ++ g').

Inductive text_breaks : list blk -> list btoken -> list gripe -> Prop :=
| XbDefine : forall o d, kind BDefine d -> text_breaks o [d] []
| XbBody : forall o d n head gh b ts g, kind BDefine d -> head_says head gh -> kind BOpenBracket b -> body_breaks o ts g ->
    text_breaks o (d :: n :: head ++ b :: ts) (gh ++ g)
| XbOther : forall o t ts g, ~ kind BDefine t -> text_breaks o ts g -> text_breaks o (t :: ts) (GBetween :: g)
| XbScript : forall o d n head gh b ts l gb o' r g, kind BDefine d -> head_says head gh -> kind BOpenBracket b -> body_says o ts l gb o' r ->
    text_breaks o' r g -> text_breaks o (d :: n :: head ++ b :: ts) (gh ++ gb ++ g).
End Scripts.

Section Halt.
Context (E : fenv).

(** A script text that cannot be divided into tokens is not complained about. *)
Definition script_breaks (code : list N) (g : list gripe) : Prop :=
  ((forall ts, ~ BurnSpec.reads E code ts) /\ g = []) \/ exists ts, BurnSpec.reads E code ts /\ text_breaks [] ts g.

(** ** Schemas *)

(** A script in a test or on its own: the word, a colon, an opening bracket and the text. *)
Definition script_begins (ts : list stoken) (x : stoken) (rest : list stoken) : Prop :=
  exists w c o, ts = w :: c :: o :: x :: rest /\ is KScript w /\ is KColon c /\ is KOpenSquare o.
Definition begins_with (l : list kind) (ts : list stoken) : Prop := exists a b, ts = a ++ b /\ map k_kind a = l.

(** The body of a test. *)
Inductive test_breaks : list stoken -> list gripe -> Prop :=
| TkOther : forall t ts g, none_of [KScript; KAssertionBlock; KEnd] t -> test_breaks ts g -> test_breaks (t :: ts) g
| TkScript : forall ts x rest sc gs g, script_begins ts x rest -> script_says E (k_text x) [sc] gs -> test_breaks rest g -> test_breaks ts (gs ++ g)
| TkAsserts : forall w c l z ts g, is KAssertionBlock w -> is KColon c -> assert_list l -> none_of [KAssertion; KComma] z -> test_breaks ts g ->
    test_breaks (w :: c :: l ++ z :: ts) g
| TkHead : forall w ts, is KScript w -> (forall x rest, ~ script_begins (w :: ts) x rest) -> test_breaks (w :: ts) []
| TkText : forall ts x rest g, script_begins ts x rest -> script_breaks (k_text x) g -> test_breaks ts g
| TkCount : forall ts x rest l g, script_begins ts x rest -> script_says E (k_text x) l g -> length l <> 1%nat -> test_breaks ts g
| TkNoColon : forall w ts, is KAssertionBlock w -> ~ begins_with [KColon] ts -> test_breaks (w :: ts) []
| TkEnd : forall w ts, is KEnd w -> ~ begins_with [KTest; KSemiColon] ts -> test_breaks (w :: ts) [].

(** What cannot be the beginning of a component. *)
Inductive component_breaks : list stoken -> list gripe -> Prop :=
| CbOther : forall w ts, none_of [KScript; KTest] w -> (forall b a c rest, component_reads E b a c -> (b = false -> rest = []) -> w :: ts <> a ++ rest) ->
    component_breaks (w :: ts) []
| CbHead : forall w ts, is KScript w -> (forall x rest, ~ script_begins (w :: ts) x rest) -> component_breaks (w :: ts) []
| CbText : forall ts x rest g, script_begins ts x rest -> script_breaks (k_text x) g -> component_breaks ts g
| CbEnd : forall ts x rest l g, script_begins ts x rest -> script_says E (k_text x) l g -> ~ begins_with [KCloseSquare] rest -> component_breaks ts g
| CbName : forall w ts, is KTest w -> ~ begins_with [KIdentifier] ts -> component_breaks (w :: ts) []
| CbTest : forall w n ts g, is KTest w -> is KIdentifier n -> test_breaks ts g -> component_breaks (w :: n :: ts) g.

(** A text that is no schema: the complaints about its complete components, and those about the one it breaks off in. *)
Definition schema_breaks (code : list N) (g : list gripe) : Prop :=
  ((forall ts, ~ sreads E 0 [] code ts) /\ g = []) \/
  exists parts cs b gb, sreads E 0 [] code (concat (map fst parts) ++ b) /\ Forall2 (fun p c => component_says E true (fst p) c (snd p)) parts cs /\
    component_breaks b gb /\ g = concat (map snd parts) ++ gb.
End Halt.
