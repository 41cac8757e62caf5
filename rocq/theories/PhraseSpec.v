(** The tree of any list of tokens, independent of the parser: what is read as what, also where calls and stray tokens are involved. *)
From Coq Require Import NArith List Bool.
From Verif Require Import Prelude CalcModel CalcSpec.
Import ListNotations.
Local Open Scope N_scope.

(** What is left when the first token has been read; the last token of a text is never given up. *)
Definition after (ts : list token) : list token :=
  match ts with _ :: ((_ :: _) as r) => r | _ => ts end.

(** The operators of each level; a comparison sign counts only if something follows it. *)
Definition operators (l : level) : list ttype :=
  match l with
  | LFactor => []
  | LTerm => [TMultiply; TDivide]
  | LExpr => [TPlus; TMinus]
  | LConcat => [TAmpersand]
  | LCompare => [TEq; TNeq; TGt; TGtq; TLt; TLtq]
  end.
Definition goes_on (l : level) (ts : list token) : Prop :=
  exists t r, ts = t :: r /\ In (tk_type t) (operators l) /\ (l = LCompare -> r <> []).

(** The next tighter level. *)
Definition tighter (l : level) : level :=
  match l with LCompare => LConcat | LConcat => LExpr | LExpr => LTerm | _ => LFactor end.

Section S.
Context (E : fenv).

Definition joined (l : level) (x : node (f64 E)) (op : ttype) (y : node (f64 E)) : node (f64 E) :=
  match l with LConcat => NConcat x y | LCompare => NCompare x op y | _ => NBinary x op y end.

(** [phrase l ts n rest]: at the front of [ts] there is a phrase of level [l] with the tree [n], and [rest] is left.  The arguments of
    a call begin at its opening parenthesis, and the token after the last of them is dropped whatever it is; so is the token after
    the comparison in parentheses. *)
Inductive phrase : level -> list token -> node (f64 E) -> list token -> Prop :=
| PhNumber : forall v x r, parse64 E v = Some x ->
    phrase LFactor (mkTok TNumericLiteral v :: r) (NNumber x) (after (mkTok TNumericLiteral v :: r))
| PhString : forall v r, phrase LFactor (mkTok TString v :: r) (NString v) (after (mkTok TString v :: r))
| PhField : forall v r, field_name v -> phrase LFactor (mkTok TIdentifier v :: r) (NField v) (after (mkTok TIdentifier v :: r))
| PhVariable : forall v r, ~ field_name v -> (forall t r', r = t :: r' -> tk_type t <> TOpenParen) ->
    phrase LFactor (mkTok TIdentifier v :: r) (NVariable v) (after (mkTok TIdentifier v :: r))
| PhCall : forall v t r args rest, ~ field_name v -> tk_type t = TOpenParen -> arguments (t :: r) args rest ->
    phrase LFactor (mkTok TIdentifier v :: t :: r) (NCall v args) (after rest)
| PhParen : forall t r n rest, tk_type t = TOpenParen -> phrase LCompare (after (t :: r)) n rest -> ~ goes_on LCompare rest ->
    phrase LFactor (t :: r) n (after rest)
| PhFirst : forall l ts n rest, l <> LFactor -> phrase (tighter l) ts n rest -> ~ goes_on (tighter l) rest -> phrase l ts n rest
| PhJoin : forall l ts x t r y rest, phrase l ts x (t :: r) -> goes_on l (t :: r) ->
    phrase (tighter l) (after (t :: r)) y rest -> ~ goes_on (tighter l) rest -> phrase l ts (joined l x (tk_type t) y) rest
with arguments : list token -> list (node (f64 E)) -> list token -> Prop :=
| ArLast : forall ts n rest, phrase LExpr ts n rest -> ~ goes_on LExpr rest -> (forall t r, rest = t :: r -> tk_type t <> TComma) ->
    arguments ts [n] rest
| ArMore : forall ts n t r args rest, phrase LExpr ts n (t :: r) -> tk_type t = TComma -> arguments (after (t :: r)) args rest ->
    arguments ts (n :: args) rest.

(** The tree of a text: a comparison that goes no further; the rest is ignored. *)
Definition tree_of (ts : list token) (n : node (f64 E)) : Prop :=
  exists rest, phrase LCompare ts n rest /\ ~ goes_on LCompare rest.
End S.

(** Reading gets to a parenthesis that is the last token: it is opened again and again. *)
Section Endless.
Context (E : fenv).

Inductive dangles : level -> list token -> Prop :=
| DgLast : forall t, tk_type t = TOpenParen -> dangles LFactor [t]
| DgParen : forall t u r, tk_type t = TOpenParen -> dangles LCompare (u :: r) -> dangles LFactor (t :: u :: r)
| DgCall : forall v t r, ~ field_name v -> tk_type t = TOpenParen -> dangles_in (t :: r) -> dangles LFactor (mkTok TIdentifier v :: t :: r)
| DgFirst : forall l ts, l <> LFactor -> dangles (tighter l) ts -> dangles l ts
| DgJoin : forall l ts x t u r, phrase E l ts x (t :: u :: r) -> goes_on l (t :: u :: r) -> dangles (tighter l) (u :: r) -> dangles l ts
with dangles_in : list token -> Prop :=
| DgArg : forall ts, dangles LExpr ts -> dangles_in ts
| DgNext : forall ts n t u r, phrase E LExpr ts n (t :: u :: r) -> tk_type t = TComma -> dangles_in (u :: r) -> dangles_in ts.
End Endless.
