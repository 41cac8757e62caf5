(** Calculations that differ only in the occurrences their fields name. *)
From Coq Require Import Ascii String NArith List Bool.
From Verif Require Import Prelude CalcModel CalcSpec EvalSpec.
Import ListNotations.
Local Open Scope N_scope.

Section Relabel.
Context (E : fenv).

(** The field [b] of occurrence [a]; the text is not a number or in quotes. *)
Definition names (a b : list N) : Prop :=
  ~ has_colons (a ++ [58]) /\ ~ has_colons b /\ parse64 E (a ++ 58 :: 58 :: b) = None /\ ~ is_quoted (a ++ 58 :: 58 :: b).

(** Any fields may be taken from other occurrences; the arguments of [Get], which it shows in messages, stay. *)
Inductive relabelled : node (f64 E) -> node (f64 E) -> Prop :=
| RlField : forall a a' b, names a b -> names a' b -> relabelled (NField (a ++ 58 :: 58 :: b)) (NField (a' ++ 58 :: 58 :: b))
| RlSame : forall n, relabelled n n
| RlBinary : forall l l' op r r', relabelled l l' -> relabelled r r' -> relabelled (NBinary l op r) (NBinary l' op r')
| RlConcat : forall l l' r r', relabelled l l' -> relabelled r r' -> relabelled (NConcat l r) (NConcat l' r')
| RlCompare : forall l l' op r r', relabelled l l' -> relabelled r r' -> relabelled (NCompare l op r) (NCompare l' op r')
| RlGrouping : forall l l' op r r', relabelled l l' -> relabelled r r' -> relabelled (NGrouping l op r) (NGrouping l' op r')
| RlCall : forall name args args', name <> lit "Get" -> Forall2 relabelled args args' -> relabelled (NCall name args) (NCall name args').

(** The same for the words of a calculation. *)
Definition same_word (t t' : token) : Prop :=
  t = t' \/ exists a a' b, names a b /\ names a' b /\ t = mkTok TIdentifier (a ++ 58 :: 58 :: b) /\ t' = mkTok TIdentifier (a' ++ 58 :: 58 :: b).
End Relabel.
