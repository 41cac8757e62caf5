(** Independent specification vocabulary for the double byte text form. *)
From Coq Require Import NArith List Bool.
From Verif Require Import Prelude.
Import ListNotations.
Local Open Scope N_scope.

(** ASCII case folding. *)
Definition fold_case (c : N) : N := if (65 <=? c) && (c <=? 90) then c + 32 else c.

(** Characters that have a double byte form: NUL, space, underscore and the letters a-z in either case. *)
Definition supported (c : N) : bool :=
  (c =? 0) || (c =? 32) || (c =? 95) || ((97 <=? c) && (c <=? 122)) || ((65 <=? c) && (c <=? 90)).

(** Supported and not the terminator. *)
Definition visible (c : N) : bool := supported c && negb (c =? 0).

(** Lexicographic order on lists of numbers. *)
Fixpoint lex_lt (a b : list N) : Prop :=
  match a, b with
  | [], _ :: _ => True
  | x :: a', y :: b' => x < y \/ (x = y /\ lex_lt a' b')
  | _, [] => False
  end.

(** Two characters that cannot be told apart in the double byte form. *)
Definition same_class (c d : N) : Prop :=
  (visible c = true /\ visible d = true /\ fold_case c = fold_case d) \/
  (visible c = false /\ visible d = false).

(** The codes of the letters a to z in the double byte form, as numbers of 16 bits. *)
Definition letter_codes : list N :=
  [0x120f; 0x1225; 0x123d; 0x1250; 0x126b; 0x12a3; 0x12b0; 0x12d3; 0x12ec; 0x1305; 0x131e; 0x1330; 0x135f;
   0x136d; 0x138e; 0x13b3; 0x13c8; 0x13da; 0x1410; 0x1433; 0x1453; 0x147b; 0x148d; 0x1497; 0x149c; 0x14ad].
Definition sort_code (c : N) : option N :=
  if c =? 0 then Some 0
  else if c =? 32 then Some 0x020a
  else if c =? 95 then Some 0x021d
  else if (97 <=? c) && (c <=? 122) then nthN letter_codes (c - 97)
  else None.

(** Bytes and the characters they stand for: a pair that is no code stands for a question mark (63), a last single byte for nothing. *)
Inductive stand_for : list N -> list N -> Prop :=
| StandNone : stand_for [] []
| StandOdd : forall b, stand_for [b] []
| StandCode : forall h l c bs s, sort_code c = Some (256 * h + l) -> stand_for bs s -> stand_for (h :: l :: bs) (c :: s)
| StandOther : forall h l bs s, (forall c, sort_code c <> Some (256 * h + l)) -> stand_for bs s -> stand_for (h :: l :: bs) (63 :: s).
