(** What generating the database from a file is meant to give. *)
From Coq Require Import NArith List Bool.
From Verif Require Import Prelude ComponentModel RelModel DbModel.
Import ListNotations.
Local Open Scope N_scope.

(** A file as the maps of the program can be: no key twice. *)
Definition maps_ok (f : fmpfile) : Prop :=
  NoDup (keys (f_tables f)) /\ NoDup (keys (f_occurrences f)) /\ NoDup (keys (f_relationships f)) /\
  (forall i t, In (i, t) (f_tables f) -> NoDup (keys (tb_fields t))).

(** The empty columns of a table: field [j] of the file in column [j], unnamed columns in the gaps. *)
Definition column (t : table) (j : N) : option dfield :=
  match nget (tb_fields t) j with
  | Some fl => Some (mkDField (fl_name fl) [])
  | None => if j <=? max_key (keys (tb_fields t)) then Some (mkDField [] []) else None
  end.

(** The two directions of a relationship, as seen from occurrence [i]. *)
Definition seen_from (i : N) (rl : relationship) : list rset :=
  (if rl_table1 rl =? i then [mkRset (rl_cmp rl) (rl_field1 rl) (rl_field2 rl) (rl_table2 rl) []] else []) ++
  (if rl_table2 rl =? i then [mkRset (rl_cmp rl) (rl_field2 rl) (rl_field1 rl) (rl_table1 rl) []] else []).

(** Occurrence [i]: nothing found, at its table, with its relations in the order of the map. *)
Definition occurrence_at (f : fmpfile) (i : N) : option tocc :=
  match nget (f_occurrences f) i with
  | Some o => Some (mkTocc [] (oc_table o) 0 (flat_map (seen_from i) (vals (f_relationships f))))
  | None => if i <=? max_key (keys (f_occurrences f))
            then Some (mkTocc [] 0 0 (flat_map (seen_from i) (vals (f_relationships f)))) else None
  end.

(** Relationships only name occurrences up to the largest one. *)
Definition relations_fit (f : fmpfile) : Prop :=
  Forall (fun rl => rl_table1 rl <= max_key (keys (f_occurrences f)) /\ rl_table2 rl <= max_key (keys (f_occurrences f)))
    (vals (f_relationships f)).

Definition relation_pairs (f : fmpfile) : list (N * N) :=
  map (fun rl => (rl_table1 rl, rl_table2 rl)) (vals (f_relationships f)).
