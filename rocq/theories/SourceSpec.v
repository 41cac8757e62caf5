(** What is complained about in a schema text: the complaints about its script texts, one after the other.  The components are those of SchemaSpec.v, the
    complaints about a script text those of GripeSpec.v. *)
From Coq Require Import Ascii String NArith List Bool.
From Verif Require Import Prelude InstrModel ComponentModel CalcModel SchemaModel SchemaSpec GripeModel GripeSpec.
From Verif Require BurnSpec ScriptsSpec.
Import ListNotations.
Local Open Scope N_scope.

Section Says.
Context (E : fenv).

Definition script_says (code : list N) (l : list script) (g : list gripe) : Prop := exists ts, BurnSpec.reads E code ts /\ text_says [] ts l g.

(** As [test_body]. *)
Inductive test_says : bool -> script * list (list N) -> list stoken -> script * list (list N) -> list gripe -> Prop :=
| TsEnd : forall b v, test_says b v [] v []
| TsOther : forall b v t ts v' g, none_of [KScript; KAssertionBlock; KEnd] t -> test_says b v ts v' g -> test_says b v (t :: ts) v' g
| TsScript : forall b v w c o x sc ts v' gs g, is KScript w -> is KColon c -> is KOpenSquare o -> script_says (k_text x) [sc] gs ->
    test_says b (sc, snd v) ts v' g -> test_says b v (w :: c :: o :: x :: ts) v' (gs ++ g)
| TsAsserts : forall b v w c l z ts v' g, is KAssertionBlock w -> is KColon c -> assert_list l -> none_of [KAssertion; KComma] z ->
    test_says b (fst v, snd v ++ asserts l) ts v' g -> test_says b v (w :: c :: l ++ z :: ts) v' g
| TsAssertsEnd : forall v w c l, is KAssertionBlock w -> is KColon c -> assert_list l -> test_says false v (w :: c :: l) (fst v, snd v ++ asserts l) [].

(** As [component_reads]; components without a script text are not complained about. *)
Inductive component_says : bool -> list stoken -> component -> list gripe -> Prop :=
| CsScripts : forall w c o x q l g, is KScript w -> is KColon c -> is KOpenSquare o -> script_says (k_text x) l g -> is KCloseSquare q ->
    component_says true [w; c; o; x; q] (CScripts l) g
| CsTest : forall b w n body v fin g, is KTest w -> is KIdentifier n -> test_says b (script_new, []) body v g -> closing b KTest fin ->
    component_says b (w :: n :: body ++ fin) (CTest (k_text n) (fst v) (snd v)) g
| CsOther : forall b w u c, none_of [KScript; KTest] w -> component_reads E b (w :: u) c -> component_says b (w :: u) c [].

Inductive program_says : list stoken -> list component -> list gripe -> Prop :=
| PsNil : program_says [] [] []
| PsMore : forall a c b cs g gs, component_says true a c g -> program_says b cs gs -> program_says (a ++ b) (c :: cs) (g ++ gs)
| PsOpen : forall a c g, component_says false a c g -> program_says a [c] g.
End Says.
