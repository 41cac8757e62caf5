(** What reading from the database of the test runner is meant to give. *)
From Coq Require Import NArith List Bool.
From Verif Require Import Prelude ComponentModel RelModel DbModel DbSpec.
Import ListNotations.
Local Open Scope N_scope.

(** The current occurrence and its table. *)
Definition shown (d : db) (o : tocc) (tb : dtable) : Prop :=
  nthN (d_occs d) (d_handle d) = Some o /\ nthN (d_tables d) (to_table o) = Some tb.

(** No field of the table has that name. *)
Definition no_field (tb : dtable) (field : list N) : Prop := ~ In field (field_names tb).

(** [rel] is the first of the relations from occurrence [a] to occurrence [b]. *)
Definition link (d : db) (a b : N) (rel : rset) : Prop :=
  exists o before after, nthN (d_occs d) a = Some o /\ to_related o = before ++ rel :: after /\
    rs_occ rel = b /\ Forall (fun x => rs_occ x <> b) before.

(** Records met on the way along a list of occurrences: the value found so far is compared with the field that the relation names on the far
    side, and the value of that field goes on. *)
Inductive trail (d : db) : list N -> list N -> list N -> Prop :=
| TrailEnd : forall a v, trail d [a] v []
| TrailHop : forall a b path v rel o k w ks,
    link d a b rel -> nthN (d_occs d) b = Some o -> cell d (to_table o, rs_field2 rel, k) = Some w -> relates (rs_cmp rel) v w ->
    trail d (b :: path) w ks -> trail d (a :: b :: path) v (k :: ks).

(** Earlier records first. *)
Inductive before : list N -> list N -> Prop :=
| BeforeHere : forall i j a b, i < j -> before (i :: a) (j :: b)
| BeforeNext : forall i a b, before a b -> before (i :: a) (i :: b).
Definition first_trail (d : db) (path : list N) (v : list N) (ks : list N) : Prop :=
  trail d path v ks /\ forall ks', trail d path v ks' -> ks' = ks \/ before ks ks'.

(** All relations on the way compare with a field that exists. *)
Fixpoint comparable (d : db) (path : list N) : Prop :=
  match path with
  | a :: ((b :: _) as path') =>
    (forall rel, link d a b rel -> exists o tb fd, nthN (d_occs d) b = Some o /\ nthN (d_tables d) (to_table o) = Some tb /\
       nthN (dt_fields tb) (rs_field2 rel) = Some fd) /\ comparable d path'
  | _ => True
  end.

(** Every occurrence on the way, but for the last, has a current record. *)
Definition positioned (d : db) (path : list N) : Prop :=
  forall a o, In a (removelast path) -> nthN (d_occs d) a = Some o -> get_current_record o <> None.

(** What the relations say: each relation compares a field of the record on its near side with a field of one on its far side. *)
Inductive joined (d : db) : list N -> N -> list N -> Prop :=
| JoinedEnd : forall a r, joined d [a] r []
| JoinedHop : forall a b path r rel oa ob v k w ks,
    link d a b rel -> nthN (d_occs d) a = Some oa -> nthN (d_occs d) b = Some ob ->
    cell d (to_table oa, rs_field1 rel, r) = Some v -> cell d (to_table ob, rs_field2 rel, k) = Some w -> relates (rs_cmp rel) v w ->
    joined d (b :: path) k ks -> joined d (a :: b :: path) r (k :: ks).
