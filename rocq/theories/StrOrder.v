(** Order of strings.

    Rust compares [str] and [String] byte by byte on their UTF-8 form.  The models compare code points; that this is the
    same is proved in StrOrderFacts.v ([utf8_order]). *)
From Coq Require Import NArith List Bool.
From Verif Require Import Prelude.
Import ListNotations.
Local Open Scope N_scope.

(** [a <= b] on strings. *)
Fixpoint str_leb (a b : list N) : bool :=
  match a, b with
  | [], _ => true
  | _ :: _, [] => false
  | x :: a', y :: b' => (x <? y) || ((x =? y) && str_leb a' b')
  end.

(** [a < b] on strings. *)
Definition str_ltb (a b : list N) : bool := str_leb a b && negb (str_eqb a b).
