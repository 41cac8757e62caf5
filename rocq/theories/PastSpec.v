(** What a past of the test database leaves in it: records are born, values are written, everything is wiped. *)
From Coq Require Import NArith List Bool.
From Verif Require Import Prelude ComponentModel RelModel DbModel DbGenSpec DbSpec.
Import ListNotations.
Local Open Scope N_scope.

Inductive effect := Born (table : N) | Written (table field record : N) (value : list N) | Wiped | Untouched.

(** What an operation does to the stored values, as far as it goes well: told from what is shown, and which record is current. *)
Inductive leaves (d : db) : op -> effect -> Prop :=
| LvCreate : forall o, nthN (d_occs d) (d_handle d) = Some o -> leaves d OCreate (Born (to_table o))
| LvWrite : forall occ field v i o r tb k, sget (d_index d) occ = Some i -> nthN (d_occs d) i = Some o -> nthN (to_found o) (to_ptr o) = Some r ->
    nthN (d_tables d) (to_table o) = Some tb -> field_at tb field k -> leaves d (OWrite occ field v) (Written (to_table o) k r v)
| LvWriteHere : forall field v o r tb k, nthN (d_occs d) (d_handle d) = Some o -> nthN (to_found o) (to_ptr o) = Some r ->
    nthN (d_tables d) (to_table o) = Some tb -> field_at tb field k -> leaves d (OWriteHere field v) (Written (to_table o) k r v)
| LvClear : leaves d OClear Wiped
| LvFind : forall rs, leaves d (OFind rs) Untouched
| LvShowAll : leaves d OShowAll Untouched
| LvGoto : forall n, leaves d (OGoto n) Untouched
| LvPrevious : leaves d OPrevious Untouched
| LvNext : leaves d ONext Untouched
| LvFirst : leaves d OFirst Untouched
| LvLast : leaves d OLast Untouched
| LvLayout : forall h, leaves d (OLayout h) Untouched.

(** A past that begins with an empty database: the operations and their effects, the newest first. *)
Inductive past (d0 : db) : list op -> list effect -> db -> Prop :=
| PastNone : past d0 [] [] d0
| PastStep : forall os es d o e d', past d0 os es d -> leaves d o e -> apply_op d o = Ok d' -> past d0 (o :: os) (e :: es) d'.

(** How many records a table has after a past, and what stands in a field of one of them. *)
Fixpoint births (t : N) (es : list effect) : N :=
  match es with
  | [] | Wiped :: _ => 0
  | Born u :: es => (if u =? t then 1 else 0) + births t es
  | _ :: es => births t es
  end.
Fixpoint latest (t f r : N) (es : list effect) : list N :=
  match es with
  | [] | Wiped :: _ => []
  | Written u g s v :: es => if (u =? t) && (g =? f) && (s =? r) then v else latest t f r es
  | _ :: es => latest t f r es
  end.

(** The number of columns of a table of a file. *)
Definition width (f : fmpfile) (t : N) : N :=
  match nget (f_tables f) t with Some tb => max_key (keys (tb_fields tb)) + 1 | None => 0 end.
