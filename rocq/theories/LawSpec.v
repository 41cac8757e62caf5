(** Sequences of operations on the test database that come to the same. *)
From Coq Require Import NArith List.
From Verif Require Import Prelude DbModel DbSpec.
Import ListNotations.
Local Open Scope N_scope.

Inductive law : list op -> list op -> Prop :=
| LwLayout : forall h h', law [OLayout h; OLayout h'] [OLayout h']
| LwClear : law [OClear; OClear] [OClear]
(** Moves to a fixed place forget the moves before. *)
| LwFirstFirst : law [OFirst; OFirst] [OFirst]
| LwPreviousFirst : law [OPrevious; OFirst] [OFirst]
| LwFirstPrevious : law [OFirst; OPrevious] [OFirst]
| LwFirstLast : law [OFirst; OLast] [OLast]
| LwPreviousLast : law [OPrevious; OLast] [OLast]
| LwNextLast : law [ONext; OLast] [OLast]
| LwLastLast : law [OLast; OLast] [OLast]
| LwLastNext : law [OLast; ONext] [OLast]
| LwGotoLast : forall n, law [OGoto n; OLast] [OLast]
| LwGotoGoto : forall n m, law [OGoto n; OGoto m] [OGoto m]
| LwFirstGoto : forall n, law [OFirst; OGoto n] [OGoto n]
(** A new record is the last one found. *)
| LwCreateLast : law [OCreate; OLast] [OCreate]
| LwCreateNext : law [OCreate; ONext] [OCreate]
(** Finds start from all records, and finding nothing shows all. *)
| LwFindNone : law [OFind []] [OShowAll]
| LwShowAll : law [OShowAll; OShowAll] [OShowAll]
| LwFindFind : forall rs r rs', law [OFind rs; OFind (r :: rs')] [OFind (r :: rs')]
| LwShowFind : forall r rs, law [OShowAll; OFind (r :: rs)] [OFind (r :: rs)]
| LwFindFirst : forall r rs, law [OFind (r :: rs); OFirst] [OFind (r :: rs)]
(** The last write counts, and different fields can be written in any order. *)
| LwWriteHere : forall field v v', law [OWriteHere field v; OWriteHere field v'] [OWriteHere field v']
| LwWrite : forall name field v v', law [OWrite name field v; OWrite name field v'] [OWrite name field v']
| LwOrderHere : forall f v g u, f <> g -> law [OWriteHere f v; OWriteHere g u] [OWriteHere g u; OWriteHere f v]
| LwOrder : forall name f v g u, f <> g -> law [OWrite name f v; OWrite name g u] [OWrite name g u; OWrite name f v]
(** Showing a layout does not matter to writes by name. *)
| LwWriteLayout : forall name f v h, law [OWrite name f v; OLayout h] [OLayout h; OWrite name f v].

(** Used anywhere in a sequence, in both directions, any number of times. *)
Inductive equal : list op -> list op -> Prop :=
| EqSame : forall os, equal os os
| EqLaw : forall pre a b post os, law a b \/ law b a -> equal (pre ++ b ++ post) os -> equal (pre ++ a ++ post) os.
