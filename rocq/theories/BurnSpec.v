(** The script language: how a text is divided into tokens, what the tokens of a structured script are, and which steps it stands for.
    Independent of the tokeniser and the parser. *)
From Coq Require Import Ascii String NArith List Bool Arith.
From Verif Require Import Prelude InstrModel ComponentModel CalcModel BurnModel VmSpec.
Import ListNotations.
Local Open Scope N_scope.

(** ** Texts and tokens *)

(** opening parenthesis, both curly brackets, comma, semicolon, ! = > < + - * / & *)
Definition breaks : list N := [40; 123; 125; 44; 59; 33; 61; 62; 60; 43; 45; 42; 47; 38].
Definition word_char (c : N) : Prop := whitespace c = false /\ ~ In c breaks.
Definition is_word (w : list N) : Prop := w <> [] /\ Forall word_char w.
Definition keywords : list (string * btype) :=
  [("define", BDefine); ("let", BLet); ("loop", BLoop); ("if", BIf); ("elif", BElif); ("else", BElse)]%string.
Definition reserved (w : list N) : Prop := exists k t, In (k, t) keywords /\ w = lit k.

(** Texts with all parentheses closed, and arguments: these have commas only inside parentheses. *)
Inductive balanced : list N -> Prop :=
| BaNil : balanced []
| BaChar : forall c s, c <> 40 -> c <> 41 -> balanced s -> balanced (c :: s)
| BaGroup : forall a s, balanced a -> balanced s -> balanced (40 :: a ++ 41 :: s).
Inductive argument : list N -> Prop :=
| ArNil : argument []
| ArChar : forall c s, c <> 40 -> c <> 41 -> c <> 44 -> argument s -> argument (c :: s)
| ArGroup : forall a s, balanced a -> argument s -> argument (40 :: a ++ 41 :: s).
(** What is left of an argument without its end: parentheses may be open. *)
Inductive hanging : list N -> Prop :=
| HaEnd : forall a, balanced a -> hanging a
| HaOpen : forall a s, balanced a -> hanging s -> hanging (a ++ 40 :: s).
Inductive dangling : list N -> Prop :=
| DaEnd : forall a, argument a -> dangling a
| DaOpen : forall a s, argument a -> hanging s -> dangling (a ++ 40 :: s).

(** The value of an argument: spaces in front are left out, unless a string literal of an argument before is still open. *)
Definition open_after (q : bool) (raw : list N) : bool := xorb q (Nat.odd (count_occ N.eq_dec raw 34)).
Definition value (q : bool) (raw v : list N) : Prop :=
  if q then v = raw else exists sp, raw = sp ++ v /\ Forall (fun c => c = 32) sp /\ (forall u, v <> 32 :: u).

(** A list of arguments with the closing parenthesis, and one without. *)
Inductive arguments : bool -> list N -> list (list N) -> Prop :=
| AsLast : forall q raw v, argument raw -> value q raw v -> arguments q (raw ++ [41]) [v]
| AsMore : forall q raw v s vs, argument raw -> value q raw v -> arguments (open_after q raw) s vs -> arguments q (raw ++ 44 :: s) (v :: vs).
Inductive unclosed : bool -> list N -> list (list N) -> Prop :=
| UnEnd : forall q raw, dangling raw -> unclosed q raw []
| UnMore : forall q raw v s vs, argument raw -> value q raw v -> unclosed (open_after q raw) s vs -> unclosed q (raw ++ 44 :: s) (v :: vs).

Definition args (vs : list (list N)) : list btoken := map (mkBtok BArgument) vs.

Section Reads.
Context (E : fenv).

Inductive word_reads : list N -> btoken -> Prop :=
| WoKey : forall k t, In (k, t) keywords -> word_reads (lit k) (btok t)
| WoNumber : forall w, ~ reserved w -> parse64 E w <> None -> word_reads w (mkBtok BNumericLiteral w)
| WoName : forall w, ~ reserved w -> parse64 E w = None -> word_reads w (mkBtok BIdentifier w).

(** The tokens of a text.  A word at the very end is lost, and so is the character after a single > or <; a ! that is not followed by =
    counts as an assignment. *)
Inductive reads : list N -> list btoken -> Prop :=
| RdEnd : reads [] []
| RdSpace : forall c s ts, whitespace c = true -> reads s ts -> reads (c :: s) ts
| RdWord : forall w t c s ts, is_word w -> word_reads w t -> ~ word_char c -> reads (c :: s) ts -> reads (w ++ c :: s) (t :: ts)
| RdLost : forall w, is_word w -> reads w []
| RdArgs : forall a vs s ts, arguments false a vs -> reads s ts -> reads (40 :: a ++ s) (args vs ++ ts)
| RdUnclosed : forall a vs, unclosed false a vs -> reads (40 :: a) (args vs)
| RdPunct : forall c t s ts,
    In (c, t) [(123, BOpenBracket); (125, BCloseBracket); (44, BComma); (59, BSemiColon); (43, BPlus); (45, BMinus); (42, BMultiply); (47, BDivide); (38, BAmpersand)] ->
    reads s ts -> reads (c :: s) (btok t :: ts)
| RdEquals : forall c t s ts, In (c, t) [(33, BNeq); (61, BEq); (62, BGeq); (60, BLeq)] -> reads s ts -> reads (c :: 61 :: s) (btok t :: ts)
| RdAssign : forall c d s ts, In c [33; 61] -> d <> 61 -> reads (d :: s) ts -> reads (c :: d :: s) (btok BAssign :: ts)
| RdAngle : forall c t d s ts, In (c, t) [(62, BGt); (60, BLt)] -> d <> 61 -> reads s ts -> reads (c :: d :: s) (btok t :: ts).
End Reads.

(** ** Structured scripts *)
Inductive src :=
| SEnd
| SStep (word : list N) (arguments : list (list N)) (rest : src)
| SLoop (body rest : src)
| SIf (condition : list (list N)) (body : src) (more : branches) (rest : src)
with branches :=
| SNoElse
| SElse (body : src)
| SElif (condition : list (list N)) (body : src) (more : branches).

(** Their tokens. *)
Fixpoint tokens (p : src) : list btoken :=
  match p with
  | SEnd => []
  | SStep w vs r => mkBtok BIdentifier w :: args vs ++ btok BSemiColon :: tokens r
  | SLoop b r => btok BLoop :: btok BOpenBracket :: tokens b ++ btok BCloseBracket :: tokens r
  | SIf vs b m r => btok BIf :: args vs ++ btok BOpenBracket :: tokens b ++ btok BCloseBracket :: branch_tokens m ++ tokens r
  end
with branch_tokens (m : branches) : list btoken :=
  match m with
  | SNoElse => []
  | SElse b => btok BElse :: btok BOpenBracket :: tokens b ++ [btok BCloseBracket]
  | SElif vs b m => btok BElif :: args vs ++ btok BOpenBracket :: tokens b ++ btok BCloseBracket :: branch_tokens m
  end.

(** The words for steps. *)
Definition step_words : list (string * instruction) :=
  [("perform_script", IPerformScript); ("go_to_layout", IGoToLayout); ("go_to_record", IGoToRecordRequestPage);
   ("go_to_request", IGoToRecordRequestPage); ("enter_find_mode", IEnterFindMode); ("perform_find", IPerformFind);
   ("show_all_records", IShowAllRecords); ("set_field", ISetField); ("set_variable", ISetVariable); ("loop", ILoop); ("if", IIf);
   ("elif", IElseIf); ("else", IElse); ("exit_loop_if", IExitLoopIf); ("new_record_request", INewRecordRequest);
   ("exit_script", IExitScript); ("show_custom_dialog", IShowCustomDialog); ("assert", IAssert)]%string.

(** Their steps: a step with an unknown word is left out. *)
Inductive flat : src -> list step -> Prop :=
| FlEnd : flat SEnd []
| FlStep : forall k op w vs r l, In (k, op) step_words -> w = lit k -> flat r l -> flat (SStep w vs r) (mkStep op 0 vs :: l)
| FlUnknown : forall w vs r l, (forall k op, In (k, op) step_words -> w <> lit k) -> flat r l -> flat (SStep w vs r) l
| FlLoop : forall b r lb lr, flat b lb -> flat r lr -> flat (SLoop b r) (mkStep ILoop 0 [] :: lb ++ mkStep IEndLoop 0 [] :: lr)
| FlIf : forall vs b m r lb lm lr, flat b lb -> flat_branches m lm -> flat r lr -> flat (SIf vs b m r) (mkStep IIf 0 vs :: lb ++ lm ++ mkStep IEndIf 0 [] :: lr)
with flat_branches : branches -> list step -> Prop :=
| FlNoElse : flat_branches SNoElse []
| FlElse : forall b lb, flat b lb -> flat_branches (SElse b) (mkStep IElse 0 [] :: lb)
| FlElif : forall vs b m lb lm, flat b lb -> flat_branches m lm -> flat_branches (SElif vs b m) (mkStep IElseIf 0 vs :: lb ++ lm).

(** A definition: name, parameters, body. *)
Definition definition : Type := list N * list (list N) * src.
Definition definition_tokens (d : definition) : list btoken :=
  match d with (name, ps, p) => btok BDefine :: mkBtok BIdentifier name :: args ps ++ btok BOpenBracket :: tokens p ++ [btok BCloseBracket] end.
Definition defines (d : definition) (sc : script) : Prop :=
  match d with (name, ps, p) => exists l, flat p l /\ sc = mkScript name [] [] ps l end.

(** ** What a structured script means to the runner *)
Inductive means : src -> prog -> Prop :=
| MeEnd : means SEnd Done
| MeStep : forall k op w vs r p, In (k, op) step_words -> w = lit k -> simple (mkStep op 0 vs) -> means r p -> means (SStep w vs r) (Do (mkStep op 0 vs) p)
| MeLeave : forall k op w vs r p, In (k, op) step_words -> w = lit k -> leaving (mkStep op 0 vs) -> means r p -> means (SStep w vs r) (Leave (mkStep op 0 vs) p)
| MeCall : forall k w vs r p, In (k, IPerformScript) step_words -> w = lit k -> means r p -> means (SStep w vs r) (Call (mkStep IPerformScript 0 vs) p)
| MeUnknown : forall w vs r p, (forall k op, In (k, op) step_words -> w <> lit k) -> means r p -> means (SStep w vs r) p
| MeLoop : forall b r p q, means b p -> means r q -> means (SLoop b r) (Loop p q)
| MeIf : forall c cs b m r p q s, means b p -> means_branches m q -> means r s -> means (SIf (c :: cs) b m r) (If c p q s)
with means_branches : branches -> clauses -> Prop :=
| MeNoElse : means_branches SNoElse NoElse
| MeElse : forall b p, means b p -> means_branches (SElse b) (Else p)
| MeElif : forall c cs b m p q, means b p -> means_branches m q -> means_branches (SElif (c :: cs) b m) (ElseIf c p q).

(** ** A way to write structured scripts *)
Fixpoint commas (vs : list (list N)) : list N :=
  match vs with
  | [] => []
  | [v] => v
  | v :: vs => v ++ lit "," ++ commas vs
  end.
Definition in_parens (vs : list (list N)) : list N := match vs with [] => [] | _ => lit "(" ++ commas vs ++ lit ")" end.
Fixpoint text (p : src) : list N :=
  match p with
  | SEnd => []
  | SStep w vs r => w ++ in_parens vs ++ lit ";" ++ text r
  | SLoop b r => lit "loop" ++ lit "{" ++ text b ++ lit "}" ++ text r
  | SIf vs b m r => lit "if" ++ in_parens vs ++ lit "{" ++ text b ++ lit "}" ++ branch_text m ++ text r
  end
with branch_text (m : branches) : list N :=
  match m with
  | SNoElse => []
  | SElse b => lit "else" ++ lit "{" ++ text b ++ lit "}"
  | SElif vs b m => lit "elif" ++ in_parens vs ++ lit "{" ++ text b ++ lit "}" ++ branch_text m
  end.
Definition definition_text (d : definition) : list N :=
  match d with (name, ps, p) => lit "define" ++ lit " " ++ name ++ in_parens ps ++ lit "{" ++ text p ++ lit "}" end.

(** Names that are not reserved and no numbers; arguments with closed parentheses and string literals, commas only inside parentheses, and
    no space in front. *)
Section Writable.
Context (E : fenv).
Definition name_ok (w : list N) : Prop := is_word w /\ ~ reserved w /\ parse64 E w = None.
Definition argument_ok (v : list N) : Prop := argument v /\ (forall u, v <> 32 :: u) /\ open_after false v = false.
Fixpoint writable (p : src) : Prop :=
  match p with
  | SEnd => True
  | SStep w vs r => name_ok w /\ Forall argument_ok vs /\ writable r
  | SLoop b r => writable b /\ writable r
  | SIf vs b m r => Forall argument_ok vs /\ writable b /\ writable_branches m /\ writable r
  end
with writable_branches (m : branches) : Prop :=
  match m with
  | SNoElse => True
  | SElse b => writable b
  | SElif vs b m => Forall argument_ok vs /\ writable b /\ writable_branches m
  end.
Definition writable_definition (d : definition) : Prop :=
  match d with (name, ps, p) => name_ok name /\ Forall argument_ok ps /\ writable p end.
End Writable.
