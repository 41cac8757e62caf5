(** The value of a whole calculation, independent of the evaluator. *)
From Coq Require Import Ascii String NArith List Bool.
From Verif Require Import Prelude Utf8 CalcModel CalcSpec DbModel EvalModel EvalSpec.
Import ListNotations.
Local Open Scope N_scope.

(** The answer to a question. *)
Definition answer (P : Prop) (r : list N) : Prop := (P /\ r = lit "true"%string) \/ (~ P /\ r = lit "false"%string).

(** Comparisons of texts. *)
Inductive compares : ttype -> list N -> list N -> list N -> Prop :=
| CmpEq : forall a b r, answer (a = b) r -> compares TEq a b r
| CmpNeq : forall a b r, answer (a <> b) r -> compares TNeq a b r
| CmpLt : forall a b r, answer (before_in_order a b) r -> compares TLt a b r
| CmpLtq : forall a b r, answer (before_in_order a b \/ a = b) r -> compares TLtq a b r
| CmpGt : forall a b r, answer (before_in_order b a) r -> compares TGt a b r
| CmpGtq : forall a b r, answer (before_in_order b a \/ a = b) r -> compares TGtq a b r.

(** The names of functions that are known. *)
Definition known_functions : list (list N) := map lit ["Abs"; "Acos"; "Asin"; "Char"; "Min"; "Get"]%string.

Section S.
Context (E : fenv) (v : view).

(** The smaller of two texts as Min sees it: the second one only if it is smaller, as a number if both stand for numbers, and otherwise by
    what they stand for, in dictionary order. *)
Inductive smaller : list N -> list N -> list N -> Prop :=
| SmFirstNumber : forall a b a' b' x y, stands_for E v a ONumber a' -> stands_for E v b ONumber b' -> parse64 E a' = Some x -> parse64 E b' = Some y ->
    In (cmp64 E x y) [Some Lt; Some Eq] -> smaller a b a
| SmSecondNumber : forall a b a' b' x y, stands_for E v a ONumber a' -> stands_for E v b ONumber b' -> parse64 E a' = Some x -> parse64 E b' = Some y ->
    cmp64 E x y = Some Gt -> smaller a b b
| SmFirstText : forall a b ta a' tb b', stands_for E v a ta a' -> stands_for E v b tb b' -> ta = OText \/ tb = OText ->
    ~ before_in_order b' a' -> smaller a b a
| SmSecondText : forall a b ta a' tb b', stands_for E v a ta a' -> stands_for E v b tb b' -> ta = OText \/ tb = OText ->
    before_in_order b' a' -> smaller a b b.

(** The text a tree evaluates to.  There are no unary and grouping nodes, and no value where the program aborts or runs forever. *)
Inductive value_is : node (f64 E) -> list N -> Prop :=
| ViNumber : forall x, value_is (NNumber x) (show64 E x)
| ViString : forall s, value_is (NString s) s
| ViVariable : forall s t r, stands_for E v s t r -> value_is (NVariable s) r
| ViField : forall s t r, stands_for E v s t r -> value_is (NField s) r
| ViConcat : forall l r a b a' b', value_is l a -> value_is r b -> without_quotes a a' -> without_quotes b b' ->
    value_is (NConcat l r) (34 :: a' ++ b' ++ [34])
| ViCompare : forall l op r a b w, value_is l a -> value_is r b -> compares op a b w -> value_is (NCompare l op r) w
| ViArith : forall l op f r a b a' b' x y, value_is l a -> value_is r b ->
    In (op, f) [(TPlus, add64 E); (TMinus, sub64 E); (TMultiply, mul64 E); (TDivide, div64 E)] ->
    stands_for E v a ONumber a' -> stands_for E v b ONumber b' -> parse64 E a' = Some x -> parse64 E b' = Some y ->
    value_is (NBinary l op r) (show64 E (f x y))
| ViUndefined : forall l op r a b ta a' tb b', value_is l a -> value_is r b -> In op [TPlus; TMinus; TMultiply; TDivide] ->
    stands_for E v a ta a' -> stands_for E v b tb b' -> ta = OText \/ tb = OText -> value_is (NBinary l op r) (lit "undefined"%string)
| ViAbs : forall a rest s x, value_is a s -> parse32 E s = Some x -> value_is (NCall (lit "Abs"%string) (a :: rest)) (show32 E (abs32 E x))
| ViAcos : forall a rest s x, value_is a s -> parse64 E s = Some x -> value_is (NCall (lit "Acos"%string) (a :: rest)) (show64 E (acos64 E x))
| ViAsinFirst : forall a b rest s t, value_is a s -> value_is b t -> ~ before_in_order t s -> value_is (NCall (lit "Asin"%string) (a :: b :: rest)) s
| ViAsinSecond : forall a b rest s t, value_is a s -> value_is b t -> before_in_order t s -> value_is (NCall (lit "Asin"%string) (a :: b :: rest)) t
| ViChar : forall a rest s c, value_is a s -> numeral s c \/ (exists s', s = 43 :: s' /\ numeral s' c) -> scalar c = true ->
    value_is (NCall (lit "Char"%string) (a :: rest)) [34; c; 34]
| ViMinOne : forall a s, value_is a s -> value_is (NCall (lit "Min"%string) [a]) s
| ViMinMore : forall args b s t r, args <> [] -> value_is (NCall (lit "Min"%string) args) s -> value_is b t -> smaller s t r ->
    value_is (NCall (lit "Min"%string) (args ++ [b])) r
| ViGet : forall a rest, (forall x c, a <> NUnary x c) -> value_is (NCall (lit "Get"%string) (a :: rest)) (lit "Unknown argument for Get(): "%string ++ debug E a)
| ViOther : forall f args, ~ In f known_functions -> value_is (NCall f args) (lit "Unimplemented function: "%string ++ f).
End S.
