(** A small instance of the outside world of calculations (whole numbers for floats, ASCII letters and digits), used only in
    the examples. *)
From Coq Require Import Ascii String NArith ZArith List Bool.
From Verif Require Import Prelude CalcModel.
Import ListNotations.
Local Open Scope N_scope.

Fixpoint digits (fuel : nat) (n : N) (acc : list N) : list N :=
  match fuel with
  | O => acc
  | S fuel => let acc := (48 + n mod 10) :: acc in if n / 10 =? 0 then acc else digits fuel (n / 10) acc
  end.
Definition show_N (n : N) : list N := digits (S (N.to_nat (N.log2 n))) n [].
Definition show_Z (z : Z) : list N := if (z <? 0)%Z then 45 :: show_N (Z.abs_N z) else show_N (Z.abs_N z).

Fixpoint read_digits (s : list N) (acc : N) : option N :=
  match s with
  | [] => Some acc
  | c :: s => if is_digit c then read_digits s (10 * acc + (c - 48)) else None
  end.
Definition read_N (s : list N) : option N := match s with [] => None | _ => read_digits s 0 end.
Definition read_Z (s : list N) : option Z :=
  match s with
  | c :: s' => if c =? 45 then option_map (fun n => Z.opp (Z.of_N n)) (read_N s') else option_map Z.of_N (read_N s)
  | [] => None
  end.
Definition ascii_alnum (c : N) : bool :=
  is_digit c || ((65 <=? c) && (c <=? 90)) || ((97 <=? c) && (c <=? 122)).

Definition whole : fenv :=
  mkEnv Z read_Z show_Z Z.add Z.sub Z.mul Z.div (fun a b => Some (Z.compare a b)) (fun z => z)
    Z read_Z show_Z Z.add Z.mul Z.abs ascii_alnum (lit "1700000000") (fun _ => lit "node").

Definition ident (s : string) : token := mkTok TIdentifier (lit s).
Definition num (s : string) : token := mkTok TNumericLiteral (lit s).
Definition text (s : string) : token := mkTok TString (34 :: lit s ++ [34]).
