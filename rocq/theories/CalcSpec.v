(** The calculation language as its users know it, independent of the parser. *)
From Coq Require Import NArith List Bool.
From Verif Require Import Prelude CalcModel.
Import ListNotations.
Local Open Scope N_scope.

(** A name with exactly one [::] in it, read from the left. *)
Definition has_colons (s : list N) : Prop := exists p q, s = p ++ 58 :: 58 :: q.
Definition field_name (v : list N) : Prop :=
  exists a b, v = a ++ 58 :: 58 :: b /\ ~ has_colons (a ++ [58]) /\ ~ has_colons b.

(** Binding strength, tightest first. *)
Inductive level := LFactor | LTerm | LExpr | LConcat | LCompare.

Section Grammar.
Context (E : fenv).

(** The usual grammar of calculations without function calls; all operators associate to the left. *)
Inductive spells : level -> list token -> node (f64 E) -> Prop :=
| SpNumber : forall v x, parse64 E v = Some x -> spells LFactor [mkTok TNumericLiteral v] (NNumber x)
| SpString : forall v, spells LFactor [mkTok TString v] (NString v)
| SpField : forall v, field_name v -> spells LFactor [mkTok TIdentifier v] (NField v)
| SpVariable : forall v, ~ field_name v -> spells LFactor [mkTok TIdentifier v] (NVariable v)
| SpParen : forall ts n, spells LCompare ts n -> spells LFactor (tok TOpenParen :: ts ++ [tok TCloseParen]) n
| SpTerm1 : forall ts n, spells LFactor ts n -> spells LTerm ts n
| SpTerm : forall a x op b y, spells LTerm a x -> op = TMultiply \/ op = TDivide -> spells LFactor b y ->
    spells LTerm (a ++ tok op :: b) (NBinary x op y)
| SpExpr1 : forall ts n, spells LTerm ts n -> spells LExpr ts n
| SpExpr : forall a x op b y, spells LExpr a x -> op = TPlus \/ op = TMinus -> spells LTerm b y ->
    spells LExpr (a ++ tok op :: b) (NBinary x op y)
| SpConcat1 : forall ts n, spells LExpr ts n -> spells LConcat ts n
| SpConcat : forall a x b y, spells LConcat a x -> spells LExpr b y -> spells LConcat (a ++ tok TAmpersand :: b) (NConcat x y)
| SpCompare1 : forall ts n, spells LConcat ts n -> spells LCompare ts n
| SpCompare : forall a x op b y, spells LCompare a x -> In op [TEq; TNeq; TGt; TGtq; TLt; TLtq] -> spells LConcat b y ->
    spells LCompare (a ++ tok op :: b) (NCompare x op y).

(** The tokens of a tree from left to right, without parentheses and commas. *)
Inductive yields : node (f64 E) -> list token -> Prop :=
| YNumber : forall v x, parse64 E v = Some x -> yields (NNumber x) [mkTok TNumericLiteral v]
| YString : forall v, yields (NString v) [mkTok TString v]
| YField : forall v, yields (NField v) [mkTok TIdentifier v]
| YVariable : forall v, yields (NVariable v) [mkTok TIdentifier v]
| YBinary : forall l o r a b, yields l a -> In (tk_type o) [TPlus; TMinus; TMultiply; TDivide] -> yields r b ->
    yields (NBinary l (tk_type o) r) (a ++ o :: b)
| YConcat : forall l o r a b, yields l a -> tk_type o = TAmpersand -> yields r b -> yields (NConcat l r) (a ++ o :: b)
| YCompare : forall l o r a b, yields l a -> In (tk_type o) [TEq; TNeq; TGt; TGtq; TLt; TLtq] -> yields r b ->
    yields (NCompare l (tk_type o) r) (a ++ o :: b)
| YCall : forall f args ts, yields_all args ts -> args <> [] -> yields (NCall f args) (mkTok TIdentifier f :: ts)
with yields_all : list (node (f64 E)) -> list token -> Prop :=
| YNil : yields_all [] []
| YCons : forall n a ns b, yields n a -> yields_all ns b -> yields_all (n :: ns) (a ++ b).

(** [Unary] or [Grouping] anywhere in a tree. *)
Inductive odd_node : node (f64 E) -> Prop :=
| OddUnary : forall v c, odd_node (NUnary v c)
| OddGrouping : forall l o r, odd_node (NGrouping l o r)
| OddBinL : forall l o r, odd_node l -> odd_node (NBinary l o r)
| OddBinR : forall l o r, odd_node r -> odd_node (NBinary l o r)
| OddConL : forall l r, odd_node l -> odd_node (NConcat l r)
| OddConR : forall l r, odd_node r -> odd_node (NConcat l r)
| OddCmpL : forall l o r, odd_node l -> odd_node (NCompare l o r)
| OddCmpR : forall l o r, odd_node r -> odd_node (NCompare l o r)
| OddArg : forall f args n, In n args -> odd_node n -> odd_node (NCall f args).
End Grammar.

(** One list can be got from the other by leaving elements out. *)
Inductive subseq {A} : list A -> list A -> Prop :=
| SubNil : forall l, subseq [] l
| SubKeep : forall x a b, subseq a b -> subseq (x :: a) (x :: b)
| SubSkip : forall x a b, subseq a b -> subseq a (x :: b).
