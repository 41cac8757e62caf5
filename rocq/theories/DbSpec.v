(** What the database of the test runner is meant to do. *)
From Coq Require Import NArith List Bool Sorted.
From Verif Require Import Prelude StrOrder ComponentModel RelModel DbModel DbGenSpec.
Import ListNotations.
Local Open Scope N_scope.

(** The stored value of a field of a record of a table. *)
Definition cell (d : db) (p : N * N * N) : option (list N) :=
  let '(t, f, r) := p in
  match nthN (d_tables d) t with
  | Some tb => match nthN (dt_fields tb) f with Some fd => nthN (df_records fd) r | None => None end
  | None => None
  end.

(** Names of the fields of a table. *)
Definition field_names (tb : dtable) : list (list N) := map df_name (dt_fields tb).

(** Every field of the table holds [n] records. *)
Definition holds (tb : dtable) (n : N) : Prop := Forall (fun f => lenN (df_records f) = n) (dt_fields tb).

(** [r] is a record of the table with number [t]. *)
Definition record_of (d : db) (t r : N) : Prop :=
  exists tb n, nthN (d_tables d) t = Some tb /\ dt_fields tb <> [] /\ holds tb n /\ r < n.

(** What a user of the database can do to it. *)
Inductive op :=
| OCreate                                  (* create_record *)
| OWrite (occ field value : list N)        (* *get_current_record_by_table_field_mut(occ, field).unwrap() = value *)
| OWriteHere (field value : list N)        (* the same with get_current_record_by_field_mut *)
| OFind (records : list N)                 (* update_found_set *)
| OShowAll                                 (* reset_found_set *)
| OGoto (n : N) | OPrevious | ONext | OFirst | OLast
| OLayout (h : N)                          (* set_current_occurrence *)
| OClear.                                  (* clear_records *)

Definition write_at (d : db) (r : result (N * N * N) unit) (v : list N) : outcome db :=
  match r with ROk p => write_place d p v | RErr _ => Panic end.

Definition apply_op (d : db) (o : op) : outcome db :=
  match o with
  | OCreate => create_record d
  | OWrite occ field v => bind (get_current_record_by_table_field_mut d occ field) (fun r => write_at d r v)
  | OWriteHere field v => bind (get_current_record_by_field_mut d field) (fun r => write_at d r v)
  | OFind rs => update_found_set d rs
  | OShowAll => reset_found_set d
  | OGoto n => goto_record d n
  | OPrevious => goto_previous_record d
  | ONext => goto_next_record d
  | OFirst => goto_first_record d
  | OLast => goto_last_record d
  | OLayout h => Ok (set_current_occurrence d h)
  | OClear => Ok (clear_records d)
  end.

(** Found sets handed to [update_found_set] are ascending numbers of records of the current table, as PerformFind
    makes them (src/testing/test.rs:276-302). *)
Definition proper (d : db) (o : op) : Prop :=
  match o with
  | OFind rs => StronglySorted N.lt rs /\
      forall t, get_current_occurrence d = Ok t -> Forall (record_of d (to_table t)) rs
  | _ => True
  end.

(** Databases reached from a generated one; [clear] tells whether clear_records may have been used. *)
Inductive reached (clear : bool) : db -> Prop :=
| ReachGenerated : forall f d, maps_ok f -> generate_from_fmp12 db_new f = Ok d -> reached clear d
| ReachStep : forall d o d', reached clear d -> proper d o -> (o = OClear -> clear = true) ->
    apply_op d o = Ok d' -> reached clear d'.

(** A found set and its pointer are in order. *)
Definition pointer_ok (o : tocc) : Prop :=
  match to_found o with [] => to_ptr o = 0 | _ => to_ptr o < lenN (to_found o) end.

(** The first field of a table with a given name. *)
Definition field_at (tb : dtable) (field : list N) (i : N) : Prop :=
  (exists fd, nthN (dt_fields tb) i = Some fd /\ df_name fd = field) /\
  forall j fd, j < i -> nthN (dt_fields tb) j = Some fd -> df_name fd <> field.

(** When two field values are related; strings are ordered by code points. *)
Definition relates (c : comparison_kind) (v w : list N) : Prop :=
  match c with
  | CEqual => v = w
  | CNotEqual => v <> w
  | CLess | CLessEqual => str_leb v w = true
  | CGreater | CGreaterEqual => str_leb w v = true
  | CCartesian => True
  end.

(** [k] is the first record of the column whose value is related to [v]. *)
Definition first_match (d : db) (t f : N) (c : comparison_kind) (v : list N) (k : N) : Prop :=
  (exists w, cell d (t, f, k) = Some w /\ relates c v w) /\
  forall k' w, k' < k -> cell d (t, f, k') = Some w -> ~ relates c v w.
