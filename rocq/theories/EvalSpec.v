(** What calculations mean, independent of the evaluator. *)
From Coq Require Import NArith ZArith List Bool.
From Verif Require Import Prelude CalcModel CalcSpec DbModel EvalModel.
Import ListNotations.
Local Open Scope N_scope.

(** Dictionary order, for any kind of character. *)
Definition before_in_order (a b : list N) : Prop :=
  exists p, (a = p /\ exists y t, b = p ++ y :: t) \/ exists x s y t, a = p ++ x :: s /\ b = p ++ y :: t /\ x < y.

(** The text without its double quotes. *)
Inductive without_quotes : list N -> list N -> Prop :=
| WqNil : without_quotes [] []
| WqQuote : forall s r, without_quotes s r -> without_quotes (34 :: s) r
| WqKeep : forall c s r, c <> 34 -> without_quotes s r -> without_quotes (c :: s) (c :: r).

(** The value of a decimal numeral. *)
Inductive numeral : list N -> N -> Prop :=
| NumOne : forall d, d < 10 -> numeral [48 + d] d
| NumMore : forall s n d, numeral s n -> d < 10 -> numeral (s ++ [48 + d]) (10 * n + d).

Section S.
Context (E : fenv) (v : view).

(** A text between double quotes; a single one counts. *)
Definition is_quoted (s : list N) : Prop := s = [34] \/ exists b, s = 34 :: b ++ [34].

(** A name looked up in the innermost scope. *)
Definition variable_is (name value : list N) : Prop :=
  exists sc, 1 <= vw_depth v /\ nthN (vw_vars v) (vw_depth v - 1) = Some sc /\ sget sc name = Some value.
Definition variable_unset (name : list N) : Prop :=
  exists sc, 1 <= vw_depth v /\ nthN (vw_vars v) (vw_depth v - 1) = Some sc /\ sget sc name = None.

(** What a text stands for as an operand: numbers and quoted texts stand for themselves, a field name stands for whatever the
    contents of the field in the current record stand for, another name for whatever the value of the variable stands for,
    and an unknown name for the empty text. *)
Inductive stands_for : list N -> otype -> list N -> Prop :=
| SfNumber : forall s x, parse64 E s = Some x -> stands_for s ONumber s
| SfText : forall s, parse64 E s = None -> is_quoted s -> stands_for s OText s
| SfField : forall s a b w t r, parse64 E s = None -> ~ is_quoted s -> s = a ++ 58 :: 58 :: b -> ~ has_colons (a ++ [58]) ->
    ~ has_colons b -> get_found_set_record_field (vw_db v) b = Ok w -> stands_for w t r -> stands_for s t r
| SfVariable : forall s w t r, parse64 E s = None -> ~ is_quoted s -> ~ field_name s -> variable_is s w -> stands_for w t r ->
    stands_for s t r
| SfUnknown : forall s, parse64 E s = None -> ~ is_quoted s -> ~ field_name s -> variable_unset s -> stands_for s OText [].

(** One step of the lookup: from a field name to its contents, from another name to the value of the variable. *)
Inductive leads_to : list N -> list N -> Prop :=
| LtField : forall s a b w, parse64 E s = None -> ~ is_quoted s -> s = a ++ 58 :: 58 :: b -> ~ has_colons (a ++ [58]) -> ~ has_colons b ->
    get_found_set_record_field (vw_db v) b = Ok w -> leads_to s w
| LtVariable : forall s w, parse64 E s = None -> ~ is_quoted s -> ~ field_name s -> variable_is s w -> leads_to s w.
Inductive leads_far : list N -> list N -> Prop :=
| LfOne : forall s w, leads_to s w -> leads_far s w
| LfMore : forall s w u, leads_to s w -> leads_far w u -> leads_far s u.

(** A number that reads back as it is written: all but the kinds of NaN. *)
Definition reads_back (x : f64 E) : Prop := parse64 E (show64 E x) = Some x.
(** The number a tree of numbers and the four operations stands for, if all operands read back. *)
Inductive arith : node (f64 E) -> f64 E -> Prop :=
| ArNumber : forall x, arith (NNumber x) x
| ArAdd : forall l r x y, arith l x -> arith r y -> reads_back x -> reads_back y -> arith (NBinary l TPlus r) (add64 E x y)
| ArSub : forall l r x y, arith l x -> arith r y -> reads_back x -> reads_back y -> arith (NBinary l TMinus r) (sub64 E x y)
| ArMul : forall l r x y, arith l x -> arith r y -> reads_back x -> reads_back y -> arith (NBinary l TMultiply r) (mul64 E x y)
| ArDiv : forall l r x y, arith l x -> arith r y -> reads_back x -> reads_back y -> arith (NBinary l TDivide r) (div64 E x y).
End S.
