(** The schema language: how a text is divided into tokens, which components a list of tokens has, and what a file holds for them.
    Independent of the tokeniser and the parser. *)
From Coq Require Import Ascii String NArith List Bool.
From Verif Require Import Prelude InstrModel ComponentModel CalcModel SchemaModel.
From Verif Require BurnSpec ScriptsSpec.
Import ListNotations.
Local Open Scope N_scope.

(** ** Texts and tokens *)

(** = [ ] ( ) quote ! { } ; : , *)
Definition signs : list N := [61; 91; 93; 40; 41; 34; 33; 123; 125; 59; 58; 44].
Definition letter (c : N) : Prop := whitespace c = false /\ ~ In c signs.
Definition schema_keywords : list (string * kind) :=
  [("table", KTable); ("relationship", KRelationship); ("value_list", KValueList); ("table_occurence", KTableOccurence);
   ("script", KScript); ("test", KTest); ("end", KEnd)]%string.
Definition schema_reserved (w : list N) : Prop := exists k t, In (k, t) schema_keywords /\ w = lit k.
Definition starts_with_digit (w : list N) : Prop := exists c u, w = c :: u /\ 48 <= c <= 57.
Definition blank (s : list N) : Prop := Forall (fun c => whitespace c = true) s.
Definition no_blank_first (s : list N) : Prop := forall c u, s = c :: u -> whitespace c = false.

Section Reads.
Context (E : fenv).

(** A word that is neither a keyword nor a number must not start with a digit. *)
Inductive word_token : list N -> stoken -> Prop :=
| WtKey : forall k t, In (k, t) schema_keywords -> word_token (lit k) (tk t)
| WtNumber : forall w n, ~ schema_reserved w -> w <> [] -> parse64 E w = Some n -> word_token w (mkStok KNumericLiteral (show64 E n))
| WtName : forall w, ~ schema_reserved w -> parse64 E w = None -> w <> [] -> ~ starts_with_digit w -> word_token w (mkStok KIdentifier w).
Definition spoiled (w : list N) : Prop := ~ schema_reserved w /\ parse64 E w = None /\ starts_with_digit w.

(** A word, as written; white space after a spoiled word is passed over, so the next word becomes part of it. *)
Inductive spells : list N -> list N -> list N -> Prop :=
| SpEnd : forall v, spells v [] v
| SpLetter : forall v c s w, letter c -> spells (v ++ [c]) s w -> spells v (c :: s) w
| SpBlank : forall v c s w, spoiled v -> whitespace c = true -> spells v s w -> spells v (c :: s) w.

(** The tokens of a word before a sign: none for no word and for a spoiled one. *)
Inductive word_tokens : list N -> list stoken -> Prop :=
| WsNone : word_tokens [] []
| WsSpoiled : forall w, spoiled w -> word_tokens w []
| WsWord : forall w t, word_token w t -> word_tokens w [t].

(** [reads n p s ts]: after [n] tokens and the characters [p], which belong to the next word, the text [s] has the tokens [ts].
    A word at the very end is lost.  A square bracket must not be the first token, and a parenthesis must have two tokens before it, both
    not counting a word that touches it.  The signs that close a string or a calculation begin the next word. *)
Inductive sreads : nat -> list N -> list N -> list stoken -> Prop :=
| SrLost : forall n p s w, spells p s w -> sreads n p s []
| SrBlank : forall n c s ts, whitespace c = true -> sreads n [] s ts -> sreads n [] (c :: s) ts
| SrWord : forall n p a w t c s ts, spells p a w -> word_token w t -> whitespace c = true -> sreads (S n) [] s ts -> sreads n p (a ++ c :: s) (t :: ts)
| SrSign : forall n p a w ws c k s ts, spells p a w -> word_tokens w ws ->
    In (c, k) [(93, KCloseSquare); (41, KCloseParen); (33, KExclamation); (125, KCloseCurly); (59, KSemiColon); (58, KColon); (44, KComma)] ->
    sreads (n + length ws + 1) [] s ts -> sreads n p (a ++ c :: s) (ws ++ tk k :: ts)
| SrParen : forall n p a w ws s ts, spells p a w -> word_tokens w ws -> (2 <= n)%nat ->
    sreads (n + length ws + 1) [] s ts -> sreads n p (a ++ 40 :: s) (ws ++ tk KOpenParen :: ts)
| SrEqual : forall n p a w ws s ts, spells p a w -> word_tokens w ws ->
    sreads (n + length ws + 1) [] s ts -> sreads n p (a ++ 61 :: 61 :: s) (ws ++ tk KEComparison :: ts)
| SrAssign : forall n p a w ws d s ts, spells p a w -> word_tokens w ws -> d <> 61 ->
    sreads (n + length ws + 1) [] (d :: s) ts -> sreads n p (a ++ 61 :: d :: s) (ws ++ tk KAssign :: ts)
| SrAssignEnd : forall n p a w ws, spells p a w -> word_tokens w ws -> sreads n p (a ++ [61]) ws
| SrBlock : forall n p a w ws sp body s ts, spells p a w -> word_tokens w ws -> (1 <= n)%nat ->
    blank sp -> no_blank_first body -> ~ In 93 body -> sreads (n + length ws + 3) [] s ts ->
    sreads n p (a ++ 91 :: sp ++ body ++ 93 :: s) (ws ++ tk KOpenSquare :: mkStok KScript body :: tk KCloseSquare :: ts)
| SrBlockEnd : forall n p a w ws sp, spells p a w -> word_tokens w ws -> (1 <= n)%nat -> blank sp -> sreads n p (a ++ 91 :: sp) (ws ++ [tk KOpenSquare])
| SrString : forall n p a w ws sp body s ts, spells p a w -> word_tokens w ws ->
    blank sp -> no_blank_first body -> ~ In 34 body -> s <> [] -> sreads (n + length ws + 1) [34] s ts ->
    sreads n p (a ++ 34 :: sp ++ body ++ 34 :: s) (ws ++ mkStok KString body :: ts)
| SrStringEnd : forall n p a w ws sp, spells p a w -> word_tokens w ws -> blank sp -> sreads n p (a ++ 34 :: sp) ws
| SrCalc : forall n p a w ws sp body s ts, spells p a w -> word_tokens w ws ->
    blank sp -> no_blank_first body -> ~ In 125 body -> s <> [] -> sreads (n + length ws + 2) [125] s ts ->
    sreads n p (a ++ 123 :: sp ++ body ++ 125 :: s) (ws ++ tk KOpenCurly :: mkStok KCalculation body :: ts)
| SrCalcEnd : forall n p a w ws sp, spells p a w -> word_tokens w ws -> blank sp -> sreads n p (a ++ 123 :: sp) (ws ++ [tk KOpenCurly]).
End Reads.

(** ** Components *)
Inductive component :=
| CTable (name : list N)
| CValueList (name : list N)
| CRelationship (table1 table2 : list N)
| COccurrence (name table : list N)
| CScripts (l : list script)
| CTest (name : list N) (s : script) (assertions : list (list N)).

Definition is (k : kind) (t : stoken) : Prop := k_kind t = k.
Definition none_of (l : list kind) (t : stoken) : Prop := ~ In (k_kind t) l.

(** The end of a component: the word end, the word of the component and a semicolon.  At the end of the text it may be missing. *)
Inductive closing : bool -> kind -> list stoken -> Prop :=
| ClEnd : forall k e w s, is KEnd e -> is k w -> is KSemiColon s -> closing true k [e; w; s]
| ClNone : forall k, closing false k [].

(** The tables of a relationship: of all names with a colon after them, the last counts, together with the token after the colon. *)
Inductive rel_body : bool -> list N * list N -> list stoken -> list N * list N -> Prop :=
| RbEnd : forall b v, rel_body b v [] v
| RbOther : forall b v t ts v', none_of [KIdentifier; KEnd] t -> rel_body b v ts v' -> rel_body b v (t :: ts) v'
| RbPair : forall b v x c t ts v', is KIdentifier x -> is KColon c -> rel_body b (k_text x, k_text t) ts v' -> rel_body b v (x :: c :: t :: ts) v'
| RbName : forall b v x t ts v', is KIdentifier x -> ~ is KColon t -> rel_body b v (t :: ts) v' -> rel_body b v (x :: t :: ts) v'
| RbLast : forall v x, is KIdentifier x -> rel_body true v [x] v.

(** The table of an occurrence. *)
Inductive occ_body : list N -> list stoken -> list N -> Prop :=
| ObEnd : forall v, occ_body v [] v
| ObOther : forall v t ts v', none_of [KTable; KEnd] t -> occ_body v ts v' -> occ_body v (t :: ts) v'
| ObTable : forall v w c n ts v', is KTable w -> is KColon c -> is KIdentifier n -> occ_body (k_text n) ts v' -> occ_body v (w :: c :: n :: ts) v'.

Section Components.
Context (E : fenv).

(** The scripts a script text stands for. *)
Definition text_scripts (code : list N) (l : list script) : Prop := exists ts, BurnSpec.reads E code ts /\ ScriptsSpec.scripts_read [] ts l.

(** The script and the assertions of a test. *)
Definition asserts (l : list stoken) : list (list N) := map k_text (filter (fun t => kind_eqb (k_kind t) KAssertion) l).
Definition assert_list (l : list stoken) : Prop := Forall (fun t => is KAssertion t \/ is KComma t) l.
Inductive test_body : bool -> script * list (list N) -> list stoken -> script * list (list N) -> Prop :=
| TbEnd : forall b v, test_body b v [] v
| TbOther : forall b v t ts v', none_of [KScript; KAssertionBlock; KEnd] t -> test_body b v ts v' -> test_body b v (t :: ts) v'
| TbScript : forall b v w c o x sc ts v', is KScript w -> is KColon c -> is KOpenSquare o -> text_scripts (k_text x) [sc] ->
    test_body b (sc, snd v) ts v' -> test_body b v (w :: c :: o :: x :: ts) v'
| TbAsserts : forall b v w c l z ts v', is KAssertionBlock w -> is KColon c -> assert_list l -> none_of [KAssertion; KComma] z ->
    test_body b (fst v, snd v ++ asserts l) ts v' -> test_body b v (w :: c :: l ++ z :: ts) v'
| TbAssertsEnd : forall v w c l, is KAssertionBlock w -> is KColon c -> assert_list l -> test_body false v (w :: c :: l) (fst v, snd v ++ asserts l).

(** The tokens of a component; the flag tells if its end is there. *)
Inductive component_reads : bool -> list stoken -> component -> Prop :=
| CrTable : forall b w n body fin, is KTable w -> is KIdentifier n -> Forall (none_of [KEnd]) body -> closing b KTable fin ->
    component_reads b (w :: n :: body ++ fin) (CTable (k_text n))
| CrValueList : forall b w n body fin, is KValueList w -> is KIdentifier n -> Forall (none_of [KEnd]) body -> closing b KValueList fin ->
    component_reads b (w :: n :: body ++ fin) (CValueList (k_text n))
| CrRelationship : forall b w c body v fin, is KRelationship w -> is KColon c -> rel_body b ([], []) body v -> closing b KRelationship fin ->
    component_reads b (w :: c :: body ++ fin) (CRelationship (fst v) (snd v))
| CrOccurrence : forall b w n body v fin, is KTableOccurence w -> is KIdentifier n -> occ_body [] body v -> closing b KTableOccurence fin ->
    component_reads b (w :: n :: body ++ fin) (COccurrence (k_text n) v)
| CrScripts : forall w c o x q l, is KScript w -> is KColon c -> is KOpenSquare o -> text_scripts (k_text x) l -> is KCloseSquare q ->
    component_reads true [w; c; o; x; q] (CScripts l)
| CrTest : forall b w n body v fin, is KTest w -> is KIdentifier n -> test_body b (script_new, []) body v -> closing b KTest fin ->
    component_reads b (w :: n :: body ++ fin) (CTest (k_text n) (fst v) (snd v)).

(** A schema is a list of components; only the last one may lack its end. *)
Inductive program : list stoken -> list component -> Prop :=
| PrNil : program [] []
| PrMore : forall a c b cs, component_reads true a c -> program b cs -> program (a ++ b) (c :: cs)
| PrOpen : forall a c, component_reads false a c -> program a [c].
End Components.

(** ** What a file holds for a list of components *)
Definition tables_of (cs : list component) : list table := flat_map (fun c => match c with CTable n => [mkTable n [] [] [] false] | _ => [] end) cs.
Definition value_lists_of (cs : list component) : list value_list := flat_map (fun c => match c with CValueList n => [mkValueList n [] []] | _ => [] end) cs.
Definition occurrences_of (cs : list component) : list occurrence := flat_map (fun c => match c with COccurrence n t => [mkOcc n 0 t [] []] | _ => [] end) cs.
Definition scripts_of (cs : list component) : list script := flat_map (fun c => match c with CScripts l => l | _ => [] end) cs.
Definition tests_of (cs : list component) : list test := flat_map (fun c => match c with CTest n s l => [mkTest n s [] [] l] | _ => [] end) cs.

(** [m] has exactly the elements of [l], with the keys [first], [first + 1], ... *)
Definition consecutive {V} (first : N) (l : list V) (m : list (N * V)) : Prop :=
  NoDup (keys m) /\ (forall i, nget m (first + N.of_nat i) = nth_error l i) /\ (forall k, k < first -> nget m k = None).

(** A relationship gets the number of tables before it plus one, and replaces the one that has this number. *)
Definition relationship_at (cs : list component) (k : N) (r : relationship) : Prop :=
  exists before a b after, cs = before ++ CRelationship a b :: after /\ k = lenN (tables_of before) + 1 /\ r = mkRel 0 a 0 0 b 0 CEqual /\
    forall x y u v, after = u ++ CRelationship x y :: v -> tables_of u <> [].

Definition holds (cs : list component) (f : fmpfile) : Prop :=
  f_name f = [] /\ f_layouts f = [] /\ f_sources f = [] /\
  consecutive 1 (tables_of cs) (f_tables f) /\
  consecutive 1 (value_lists_of cs) (f_value_lists f) /\
  consecutive 1 (scripts_of cs) (f_scripts f) /\
  consecutive 0 (occurrences_of cs) (f_occurrences f) /\
  (NoDup (keys (f_relationships f)) /\ forall k r, nget (f_relationships f) k = Some r <-> relationship_at cs k r) /\
  f_tests f = tests_of cs.

(** ** A way to write schemas *)
Inductive field_option :=
| FWord (w : list N)          (* Text, *)
| FString (s : list N)        (* a description in quotes *)
| FCalc (s : list N)          (* {calculation}, *)
| FCheck (s : list N)         (* !{calculation}, *)
| FFoundIn (s : list N).      (* foundIn[list], *)
Inductive source :=
| STable (name : list N) (fields : list (list N * list field_option))
| SValueList (name : list N) (values : list (list N))
| SRelationship (table1 table2 : list N) (criteria : list (list N * list N))
| SOccurrence (name table : list N)
| SScripts (code : list N)
| STest (name code : list N).

Definition option_text (o : field_option) : list N :=
  match o with
  | FWord w => w
  | FString s => 34 :: s ++ [34]
  | FCalc s => 123 :: s ++ [125]
  | FCheck s => 33 :: 123 :: s ++ [125]
  | FFoundIn s => lit "foundIn" ++ 91 :: s ++ [93]
  end.
Definition options_text (l : list field_option) : list N := concat (map (fun o => 32 :: option_text o ++ [44]) l).
Definition field_text (f : list N * list field_option) : list N := lit "  " ++ fst f ++ 58 :: options_text (snd f) ++ [10].
Definition source_text (s : source) : list N :=
  match s with
  | STable n fs => lit "table " ++ n ++ 58 :: 10 :: concat (map field_text fs) ++ lit "end table;" ++ [10]
  | SValueList n vs => lit "value_list " ++ n ++ 58 :: 10 :: options_text (map FString vs) ++ lit " end value_list;" ++ [10]
  | SRelationship a b l => lit "relationship:" ++ 10 :: a ++ 58 :: b ++ 44 :: 10 :: concat (map (fun c => fst c ++ lit " == " ++ snd c ++ [44; 10]) l) ++ lit "end relationship;" ++ [10]
  | SOccurrence n t => lit "table_occurence " ++ n ++ 58 :: 10 :: lit "table: " ++ t ++ 44 :: 10 :: lit "end table_occurence;" ++ [10]
  | SScripts code => lit "script: [" ++ code ++ 93 :: [10]
  | STest n code => lit "test " ++ n ++ 58 :: 10 :: lit "script: [" ++ code ++ 93 :: 44 :: 10 :: lit "end test;" ++ [10]
  end.

(** What can be written. *)
Section Sources.
Context (E : fenv).
Definition plain_name (w : list N) : Prop := w <> [] /\ Forall letter w /\ ~ schema_reserved w /\ parse64 E w = None /\ ~ starts_with_digit w.
Definition option_ok (o : field_option) : Prop :=
  match o with
  | FWord w => plain_name w
  | FString s => ~ In 34 s
  | FCalc s | FCheck s => ~ In 125 s
  | FFoundIn s => ~ In 93 s
  end.
(** [source_ok s c]: the source [s] can be written and stands for the component [c]. *)
Inductive source_ok : source -> component -> Prop :=
| SoTable : forall n fs, plain_name n -> Forall (fun f => plain_name (fst f) /\ Forall option_ok (snd f)) fs -> source_ok (STable n fs) (CTable n)
| SoValueList : forall n vs, plain_name n -> Forall (fun v => ~ In 34 v) vs -> source_ok (SValueList n vs) (CValueList n)
| SoRelationship : forall a b l, plain_name a -> plain_name b -> Forall (fun c => plain_name (fst c) /\ plain_name (snd c)) l ->
    source_ok (SRelationship a b l) (CRelationship a b)
| SoOccurrence : forall n t, plain_name n -> plain_name t -> source_ok (SOccurrence n t) (COccurrence n t)
| SoScripts : forall code l, no_blank_first code -> ~ In 93 code -> text_scripts E code l -> source_ok (SScripts code) (CScripts l)
| SoTest : forall n code sc, plain_name n -> no_blank_first code -> ~ In 93 code -> text_scripts E code [sc] -> source_ok (STest n code) (CTest n sc []).
End Sources.
