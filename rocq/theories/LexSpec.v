(** How calculations are written, independent of the tokeniser. *)
From Coq Require Import NArith List Bool.
From Verif Require Import Prelude CalcModel.
Import ListNotations.
Local Open Scope N_scope.

(** space ( ) + , - * / & ! = < > double quote and colon *)
Definition specials : list N := [32; 40; 41; 43; 44; 45; 42; 47; 38; 33; 61; 60; 62; 34; 58].
Definition word (s : list N) : Prop := Forall (fun c => ~ In c specials) s.
(** What may follow a word directly: nothing, or a special character other than the colon. *)
Definition ends_word (next : option N) : Prop := match next with None => True | Some c => In c specials /\ c <> 58 end.
Definition not_equals (next : option N) : Prop := exists c, next = Some c /\ c <> 61.
Definition starts_solid (s : list N) : Prop := match s with [] => True | c :: _ => whitespace c = false end.
Definition anything (next : option N) : Prop := True.

Section W.
Context (E : fenv).
Definition not_alnum (next : option N) : Prop := match next with None => True | Some c => alnum E c = false end.

(** [prints t s ok]: the token [t] can be written as [s] if what follows directly satisfies [ok]. *)
Inductive prints : token -> list N -> (option N -> Prop) -> Prop :=
| PPunct : forall t c,
    In (t, c) [(TOpenParen, 40); (TCloseParen, 41); (TPlus, 43); (TComma, 44); (TMinus, 45); (TMultiply, 42); (TDivide, 47); (TAmpersand, 38)] ->
    prints (tok t) [c] anything
| PNeq : prints (tok TNeq) [33; 61] anything
| PEq : prints (tok TEq) [61; 61] not_equals
| PLtq : prints (tok TLtq) [60; 61] not_equals
| PGtq : prints (tok TGtq) [62; 61] not_equals
| PLt : prints (tok TLt) [60] not_equals
| PGt : prints (tok TGt) [62] not_equals
| PNumber : forall s x, parse64 E s = Some x -> s <> [] -> word s -> starts_solid s ->
    prints (mkTok TNumericLiteral (show64 E x)) s ends_word
| PName : forall c s, parse64 E (c :: s) = None -> word (c :: s) -> whitespace c = false -> ~ (48 <= c <= 57) ->
    prints (mkTok TIdentifier (c :: s)) (c :: s) ends_word
| PField : forall a b0 b, word a -> starts_solid a -> Forall (fun c => alnum E c = true) b ->
    prints (mkTok TIdentifier (a ++ 58 :: 58 :: b0 :: b)) (a ++ 58 :: 58 :: b0 :: b) not_alnum
| PString : forall body, ~ In 34 body -> Exists (fun c => alnum E c = true) body ->
    prints (mkTok TString (34 :: body ++ [34])) (34 :: body ++ [34]) anything.

(** A text as a sequence of tokens, of white space between them, and of string literals without a letter or digit. *)
Inductive written : list token -> list N -> Prop :=
| WNil : written [] []
| WSpace : forall c ts r, whitespace c = true -> written ts r -> written ts (c :: r)
| WToken : forall t s ok ts r, prints t s ok -> ok (hd_error r) -> written ts r -> written (t :: ts) (s ++ r)
| WBlank : forall body ts r, ~ In 34 body -> Forall (fun c => alnum E c = false) (34 :: body) -> written ts r ->
    written ts (34 :: body ++ 34 :: r).
End W.
