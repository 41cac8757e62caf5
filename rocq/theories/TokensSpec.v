(** How any calculation text is divided into tokens, independent of the tokeniser. *)
From Coq Require Import NArith List Bool.
From Verif Require Import Prelude CalcModel LexSpec.
Import ListNotations.
Local Open Scope N_scope.

Section S.
Context (E : fenv).

(** A word is a number, or a name if it does not begin with a digit. *)
Inductive word_token : list N -> token -> Prop :=
| WtNumber : forall w x, parse64 E w = Some x -> word_token w (mkTok TNumericLiteral (show64 E x))
| WtName : forall c w, parse64 E (c :: w) = None -> ~ (48 <= c <= 57) -> word_token (c :: w) (mkTok TIdentifier (c :: w)).

(** The part of a field name after the colons, up to what follows: one character of any kind, then letters and digits. *)
Inductive name_part : list N -> list N -> Prop :=
| NpNone : name_part [] []
| NpSome : forall b0 b r, Forall (fun c => alnum E c = true) b -> not_alnum E (hd_error r) -> name_part (b0 :: b) r.

(** A string literal counts only if there is a letter or digit in it. *)
Inductive literal : list N -> list token -> Prop :=
| LiText : forall s, Exists (fun c => alnum E c = true) s -> literal s [mkTok TString s]
| LiBlank : forall s, Forall (fun c => alnum E c = false) s -> literal s [].

(** The tokens of a text.  Words may contain white space other than blanks, but not begin with it.  An equals sign is looked at again after the
    character before it has been dealt with. *)
Inductive splits : list N -> list token -> Prop :=
| SlEnd : splits [] []
| SlSpace : forall c s ts, whitespace c = true -> splits s ts -> splits (c :: s) ts
| SlWord : forall w t r ts, w <> [] -> word w -> starts_solid w -> ends_word (hd_error r) -> word_token w t -> splits r ts -> splits (w ++ r) (t :: ts)
| SlPunct : forall t c s ts,
    In (t, c) [(TOpenParen, 40); (TCloseParen, 41); (TPlus, 43); (TComma, 44); (TMinus, 45); (TMultiply, 42); (TDivide, 47); (TAmpersand, 38)] ->
    splits s ts -> splits (c :: s) (tok t :: ts)
| SlNeq : forall s ts, splits s ts -> splits (33 :: 61 :: s) (tok TNeq :: ts)
| SlNot : forall d s ts, d <> 61 -> splits (d :: s) ts -> splits (33 :: d :: s) ts
| SlEq : forall s ts, splits (61 :: s) ts -> splits (61 :: 61 :: s) (tok TEq :: ts)
| SlLtq : forall s ts, splits (61 :: s) ts -> splits (60 :: 61 :: s) (tok TLtq :: ts)
| SlGtq : forall s ts, splits (61 :: s) ts -> splits (62 :: 61 :: s) (tok TGtq :: ts)
| SlAssign : forall d s ts, d <> 61 -> splits (d :: s) ts -> splits (61 :: d :: s) ts
| SlLt : forall d s ts, d <> 61 -> splits (d :: s) ts -> splits (60 :: d :: s) (tok TLt :: ts)
| SlGt : forall d s ts, d <> 61 -> splits (d :: s) ts -> splits (62 :: d :: s) (tok TGt :: ts)
| SlString : forall body s k ts, ~ In 34 body -> literal (34 :: body ++ [34]) k -> splits s ts -> splits (34 :: body ++ 34 :: s) (k ++ ts)
| SlOpenString : forall body k, ~ In 34 body -> literal (34 :: body) k -> splits (34 :: body) k
| SlField : forall w name r ts, word w -> starts_solid w -> name_part name r -> splits r ts ->
    splits (w ++ 58 :: 58 :: name ++ r) (mkTok TIdentifier (w ++ 58 :: 58 :: name) :: ts)
| SlColon : forall w d name r ts, word w -> starts_solid w -> d <> 58 -> name_part name r -> splits r ts ->
    splits (w ++ 58 :: d :: name ++ r) (mkTok TIdentifier (w ++ 58 :: 58 :: 58 :: name) :: ts)
| SlColonEnd : forall w, word w -> starts_solid w -> splits (w ++ [58]) [mkTok TIdentifier (w ++ [58; 58; 58])].
End S.
