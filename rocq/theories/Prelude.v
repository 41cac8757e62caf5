(** Shared vocabulary of the models: outcomes, strings, byte buffers, maps.

    Nothing in this file models a particular line of /repo; it fixes how Rust values are represented. *)
From Coq Require Import Ascii String NArith ZArith List Bool.
Import ListNotations.
Local Open Scope N_scope.

(** Result of running Rust code: a value, a panic, or the fuel of a non-structural loop ran out. *)
Inductive outcome (A : Type) : Type :=
| Ok (a : A)
| Panic
| NoFuel.
Arguments Ok {A} _.
Arguments Panic {A}.
Arguments NoFuel {A}.

Definition bind {A B} (x : outcome A) (f : A -> outcome B) : outcome B :=
  match x with Ok a => f a | Panic => Panic | NoFuel => NoFuel end.

Declare Scope outcome_scope.
Delimit Scope outcome_scope with outcome.
Notation "x <- e ;; k" := (bind e (fun x => k)) (at level 61, e at next level, right associativity) : outcome_scope.
Notation "' p <- e ;; k" := (bind e (fun p => k)) (at level 61, p pattern, e at next level, right associativity) : outcome_scope.
Global Open Scope outcome_scope.

(** Rust [Option::unwrap] and panicking indexing. *)
Definition unwrap {A} (o : option A) : outcome A :=
  match o with Some a => Ok a | None => Panic end.

(** A Rust [Result<A, E>] as data. *)
Inductive result (A E : Type) : Type :=
| ROk (a : A)
| RErr (e : E).
Arguments ROk {A E} _.
Arguments RErr {A E} _.

(** Strings are lists of code points, byte strings are lists of numbers below 256. *)
Notation str := (list N) (only parsing).
Notation byte := N (only parsing).

Definition is_byte (b : N) : Prop := b < 256.
Definition bytes (l : list N) : Prop := Forall is_byte l.

(** ASCII literals. *)
Fixpoint lit (s : string) : list N :=
  match s with
  | EmptyString => []
  | String c s' => N_of_ascii c :: lit s'
  end.

Fixpoint str_eqb (a b : list N) : bool :=
  match a, b with
  | [], [] => true
  | x :: a', y :: b' => (x =? y) && str_eqb a' b'
  | _, _ => false
  end.

(** Vectors: length and indexing by [usize]. *)
Definition lenN {A} (l : list A) : N := N.of_nat (length l).
Definition nthN {A} (l : list A) (i : N) : option A :=
  if i <? lenN l then nth_error l (N.to_nat i) else None.

(** [&l[a..b]]: panics unless [a <= b <= len]. *)
Definition slice {A} (l : list A) (a b : N) : outcome (list A) :=
  if (a <=? b) && (b <=? lenN l)
  then Ok (firstn (N.to_nat (b - a)) (skipn (N.to_nat a) l))
  else Panic.

Definition at_ {A} (l : list A) (i : N) : outcome A := unwrap (nthN l i).

(** Checked [usize] subtraction (debug profile). *)
Definition subU (a b : N) : outcome N := if b <=? a then Ok (a - b) else Panic.

(** Replace the element at an index (no effect when out of range). *)
Fixpoint update_nat {A} (l : list A) (i : nat) (f : A -> A) : list A :=
  match l, i with
  | [], _ => []
  | x :: l', O => f x :: l'
  | x :: l', S i' => x :: update_nat l' i' f
  end.
Definition updateN {A} (l : list A) (i : N) (f : A -> A) : list A :=
  if i <? lenN l then update_nat l (N.to_nat i) f else l.

(** Maps as association lists, generic in the key comparison. *)
Section Maps.
  Context {K V : Type} (eqb : K -> K -> bool).

  Fixpoint mget (m : list (K * V)) (k : K) : option V :=
    match m with
    | [] => None
    | (k', v) :: m' => if eqb k' k then Some v else mget m' k
    end.

  Fixpoint mset (m : list (K * V)) (k : K) (v : V) : list (K * V) :=
    match m with
    | [] => [(k, v)]
    | (k', v') :: m' => if eqb k' k then (k', v) :: m' else (k', v') :: mset m' k v
    end.

  Definition mhas (m : list (K * V)) (k : K) : bool :=
    match mget m k with Some _ => true | None => false end.

  (** [get_mut(k)] followed by a modification. *)
  Definition mmod (m : list (K * V)) (k : K) (f : V -> V) : option (list (K * V)) :=
    match mget m k with
    | Some v => Some (mset m k (f v))
    | None => None
    end.
End Maps.

Definition keys {K V} (m : list (K * V)) : list K := map fst m.
Definition vals {K V} (m : list (K * V)) : list V := map snd m.

Definition nget {V} := @mget N V N.eqb.
Definition nset {V} := @mset N V N.eqb.
Definition nhas {V} := @mhas N V N.eqb.
Definition nmod {V} := @mmod N V N.eqb.
Definition sget {V} := @mget (list N) V str_eqb.
Definition sset {V} := @mset (list N) V str_eqb.
Definition shas {V} := @mhas (list N) V str_eqb.

(** Does a predicate hold of every byte value?  Used to check finite tables completely. *)
Fixpoint all_below (n : nat) (p : N -> bool) : bool :=
  match n with
  | O => true
  | S k => p (N.of_nat k) && all_below k p
  end.
