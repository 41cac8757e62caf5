(** Model of /repo/src/testing/database.rs.

    Methods that change [self] return the new database.  Methods that return a mutable reference are modelled by the
    place they refer to.  [usize] overflow on addition is not modelled (it would need an index of 2^64 - 1). *)
From Coq Require Import NArith List Bool.
From Verif Require Import Prelude StrOrder ComponentModel RelModel.
Import ListNotations.
Local Open Scope N_scope.

(** database.rs:7-20 [Field] and [new]. *)
Record dfield := mkDField { df_name : list N; df_records : list (list N) }.
Definition dfield_new : dfield := mkDField [] [].

(** database.rs:22-34 [Table] and [new]. *)
Record dtable := mkDTable { dt_name : list N; dt_fields : list dfield }.
Definition dtable_new (name : list N) : dtable := mkDTable name [].

(** database.rs:36-40 [Table::add_blank_record]. *)
Definition add_blank_record (t : dtable) : dtable :=
  mkDTable (dt_name t) (map (fun f => mkDField (df_name f) (df_records f ++ [[]])) (dt_fields t)).

(** database.rs:42-44 [Table::get_records_n]. *)
Definition get_records_n (t : dtable) : outcome N :=
  f <- at_ (dt_fields t) 0 ;; Ok (lenN (df_records f)).

(** database.rs:46-48 [Table::delete_record]: [Vec::remove] panics past the end. *)
Definition delete_record (t : dtable) (record_id : N) : outcome dtable :=
  _ <- at_ (dt_fields t) record_id ;;
  Ok (mkDTable (dt_name t) (firstn (N.to_nat record_id) (dt_fields t) ++ skipn (S (N.to_nat record_id)) (dt_fields t))).

(** database.rs:51-63 [Relationship] and [RelatedRecordSet], as one record. *)
Record rset := mkRset {
  rs_cmp : comparison_kind;
  rs_field1 : N;
  rs_field2 : N;
  rs_occ : N;
  rs_records : list N;
}.

(** database.rs:65-81 [TableOccurrence] and [new]. *)
Record tocc := mkTocc {
  to_found : list N;
  to_table : N;
  to_ptr : N;
  to_related : list rset;
}.
Definition tocc_new : tocc := mkTocc [] 0 0 [].

(** database.rs:82-88 [TableOccurrence::get_current_record]; the error carries no information. *)
Definition get_current_record (o : tocc) : option N := nthN (to_found o) (to_ptr o).

(** database.rs:94-111 [Database] and [new]. *)
Record db := mkDb {
  d_occs : list tocc;
  d_index : list (list N * N);   (* HashMap *)
  d_handle : N;
  d_tables : list dtable;
  d_graph : graph;
}.
Definition db_new : db := mkDb [] [] 0 [] graph_new.

Definition with_occs (d : db) (os : list tocc) : db := mkDb os (d_index d) (d_handle d) (d_tables d) (d_graph d).
Definition with_tables (d : db) (ts : list dtable) : db := mkDb (d_occs d) (d_index d) (d_handle d) ts (d_graph d).

(** database.rs:113-119 [clear_records]. *)
Definition clear_records (d : db) : db :=
  with_tables d (map (fun t => mkDTable (dt_name t) (map (fun f => mkDField (df_name f) []) (dt_fields t))) (d_tables d)).

(** [Vec::resize], as in database.rs:125, 134 and 146. *)
Definition resize {A} (l : list A) (n : N) (x : A) : list A :=
  if n <=? lenN l then firstn (N.to_nat n) l else l ++ repeat x (N.to_nat (n - lenN l)).

(** [keys().max().unwrap_or(&0)] and [keys().min().unwrap_or(&0)]: database.rs:124, 133, 144 and 145. *)
Fixpoint max_key (ks : list N) : N := match ks with [] => 0 | k :: ks' => N.max k (max_key ks') end.
Fixpoint min_key (ks : list N) : N :=
  match ks with [] => 0 | [k] => k | k :: ks' => N.min k (min_key ks') end.

(** [v[i] = x], as in database.rs:131, 136 and 158: panics past the end. *)
Definition put {A} (l : list A) (i : N) (x : A) : outcome (list A) :=
  _ <- at_ l i ;; Ok (updateN l i (fun _ => x)).

(** database.rs:126-141, one base table: its slot is overwritten, then the fields are filled in. *)
Definition gen_fields (t : table) : outcome (list dfield) :=
  fold_left (fun acc e => fs <- acc ;; put fs (fst e) (mkDField (fl_name (snd e)) []))
    (tb_fields t) (Ok (resize [] (max_key (keys (tb_fields t)) + 1) dfield_new)).
Definition gen_table (ts : list dtable) (i : N) (t : table) : outcome (list dtable) :=
  ts <- put ts i (mkDTable (tb_name t) []) ;;
  fs <- gen_fields t ;;
  put ts i (mkDTable (tb_name t) fs).

(** database.rs:123-141, the base tables; the order of the list stands for the order of the HashMap. *)
Definition gen_tables (ts : list dtable) (m : list (N * table)) : outcome (list dtable) :=
  fold_left (fun acc e => ts <- acc ;; gen_table ts (fst e) (snd e))
    m (Ok (resize ts (max_key (keys m) + 1) (dtable_new []))).

(** [x as u16]: database.rs:145 and 150. *)
Definition as_u16 (x : N) : N := x mod 65536.

(** database.rs:147-159, one table occurrence. *)
Definition gen_occ (a : list tocc * list (list N * N)) (i : N) (o : occurrence)
  : outcome (list tocc * list (list N * N)) :=
  let '(os, ix) := a in
  os <- put os i (mkTocc [] (oc_table o) 0 []) ;; Ok (os, sset ix (oc_name o) (as_u16 i)).
Definition gen_occs (os : list tocc) (ix : list (list N * N)) (m : list (N * occurrence))
  : outcome (list tocc * list (list N * N)) :=
  fold_left (fun acc e => a <- acc ;; gen_occ a (fst e) (snd e))
    m (Ok (resize os (max_key (keys m) + 1) tocc_new, ix)).

(** database.rs:163 and 174: [self.table_occurrences[i].related_records.push(r)]. *)
Definition push_related (os : list tocc) (i : N) (r : rset) : outcome (list tocc) :=
  o <- at_ os i ;; put os i (mkTocc (to_found o) (to_table o) (to_ptr o) (to_related o ++ [r])).

(** database.rs:161-186, one relationship. *)
Definition gen_rel (a : list tocc * graph) (rl : relationship) : outcome (list tocc * graph) :=
  let '(os, g) := a in
  os <- push_related os (rl_table1 rl) (mkRset (rl_cmp rl) (rl_field1 rl) (rl_field2 rl) (rl_table2 rl) []) ;;
  os <- push_related os (rl_table2 rl) (mkRset (rl_cmp rl) (rl_field2 rl) (rl_field1 rl) (rl_table1 rl) []) ;;
  Ok (os, add_relation g (rl_table1 rl) (rl_table2 rl)).
Definition gen_rels (os : list tocc) (g : graph) (m : list (N * relationship)) : outcome (list tocc * graph) :=
  fold_left (fun acc e => a <- acc ;; gen_rel a (snd e)) m (Ok (os, g)).

(** database.rs:121-187 [generate_from_fmp12]. *)
Definition generate_from_fmp12 (d : db) (f : fmpfile) : outcome db :=
  ts <- gen_tables (d_tables d) (f_tables f) ;;
  ' (os, ix) <- gen_occs (d_occs d) (d_index d) (f_occurrences f) ;;
  ' (os, g) <- gen_rels os (d_graph d) (f_relationships f) ;;
  Ok (mkDb os ix (as_u16 (min_key (keys (f_occurrences f)))) ts g).

(** database.rs:224-226 [get_occurrence] (and 228-230, the mutable variant). *)
Definition get_occurrence (d : db) (h : N) : outcome tocc := at_ (d_occs d) h.

(** database.rs:232-234 [get_occurrence_by_name] (and 236-238): indexing a HashMap panics on a missing key. *)
Definition occurrence_index (d : db) (name : list N) : outcome N := unwrap (sget (d_index d) name).
Definition get_occurrence_by_name (d : db) (name : list N) : outcome tocc :=
  i <- occurrence_index d name ;; at_ (d_occs d) i.

(** database.rs:240-242 [set_current_occurrence]. *)
Definition set_current_occurrence (d : db) (h : N) : db := mkDb (d_occs d) (d_index d) h (d_tables d) (d_graph d).

(** database.rs:244-250 [get_current_occurrence]. *)
Definition get_current_occurrence (d : db) : outcome tocc := at_ (d_occs d) (d_handle d).

(** Change the current occurrence in place, by way of database.rs:248-250 [get_current_occurrence_mut]. *)
Definition modify_current (d : db) (f : tocc -> outcome tocc) : outcome db :=
  o <- get_current_occurrence d ;;
  o' <- f o ;;
  os <- put (d_occs d) (d_handle d) o' ;;
  Ok (with_occs d os).

(** database.rs:252-259 [get_current_table]. *)
Definition get_current_table (d : db) : outcome dtable :=
  o <- get_current_occurrence d ;; at_ (d_tables d) (to_table o).

(** database.rs:261-281 [get_table]. *)
Definition get_table (d : db) (name : list N) : option dtable :=
  find (fun t => str_eqb (dt_name t) name) (d_tables d).

(** database.rs:189-208 [create_record]. *)
Definition create_record (d : db) : outcome db :=
  t <- at_ (d_occs d) (d_handle d) ;;
  _ <- at_ (d_tables d) (to_table t) ;;
  o <- get_current_occurrence d ;;
  let table_idx := to_table o in
  tb <- get_current_table d ;;
  let tb := add_blank_record tb in
  ts <- put (d_tables d) table_idx tb ;;
  k <- get_records_n tb ;;
  n <- subU k 1 ;;
  let os := map (fun oc =>
    if to_table oc =? table_idx
    then let fs := to_found oc ++ [n] in mkTocc fs (to_table oc) (lenN fs - 1) (to_related oc)
    else oc) (d_occs d) in
  Ok (mkDb os (d_index d) (d_handle d) ts (d_graph d)).

(** database.rs:210-222 [get_found_set_record_field]. *)
Definition get_found_set_record_field (d : db) (field : list N) : outcome (list N) :=
  occ <- get_current_occurrence d ;;
  tb <- get_current_table d ;;
  cur_idx <- at_ (to_found occ) (to_ptr occ) ;;
  match find (fun f => str_eqb (df_name f) field) (dt_fields tb) with
  | Some f => at_ (df_records f) cur_idx
  | None => Ok []
  end.

(** [fields.iter().filter(|x| x.name == field).collect()[0]], as in database.rs:288-293, 306-311 and 323-328. *)
Definition first_named (fs : list dfield) (field : list N) : outcome dfield :=
  at_ (filter (fun f => str_eqb (df_name f) field) fs) 0.

(** [fields.iter().enumerate().filter(|x| x.1.name == field).collect()[0].0], as in database.rs:340-344, 359-363 and 378-382. *)
Fixpoint enumerate_from {A} (i : N) (l : list A) : list (N * A) :=
  match l with [] => [] | x :: l' => (i, x) :: enumerate_from (i + 1) l' end.
Definition enumerate {A} (l : list A) : list (N * A) := enumerate_from 0 l.
Definition first_index (fs : list dfield) (field : list N) : outcome N :=
  e <- at_ (filter (fun e => str_eqb (df_name (snd e)) field) (enumerate fs)) 0 ;; Ok (fst e).

(** database.rs:283-285 [get_records_for_current_table]. *)
Definition get_records_for_current_table (d : db) : outcome (list dfield) :=
  tb <- get_current_table d ;; Ok (dt_fields tb).

(** database.rs:287-294 [get_field_vals_for_current_table]. *)
Definition get_field_vals_for_current_table (d : db) (field : list N) : outcome (list (list N)) :=
  tb <- get_current_table d ;;
  f <- first_named (dt_fields tb) field ;;
  Ok (df_records f).

(** database.rs:296-312 [get_current_record_field]. *)
Definition get_current_record_field (d : db) (field : list N) : outcome (list N) :=
  o <- get_current_occurrence d ;;
  match get_current_record o with
  | None => Ok []
  | Some id =>
    tb <- at_ (d_tables d) (to_table o) ;;
    f <- first_named (dt_fields tb) field ;;
    at_ (df_records f) id
  end.

(** database.rs:314-329 [get_record_by_field]. *)
Definition get_record_by_field (d : db) (field : list N) (record_id : N) : outcome (result (list N) unit) :=
  o <- get_current_occurrence d ;;
  match get_current_record o with
  | None => Ok (RErr tt)
  | Some _ =>
    tb <- at_ (d_tables d) (to_table o) ;;
    f <- first_named (dt_fields tb) field ;;
    v <- at_ (df_records f) record_id ;; Ok (ROk v)
  end.

(** A place in the tables: table, field, record; what the references of database.rs:346, 365 and 384 point to. *)
Definition place := (N * N * N)%type.
Definition read_place (d : db) (p : place) : outcome (list N) :=
  let '(t, f, r) := p in
  tb <- at_ (d_tables d) t ;; fd <- at_ (dt_fields tb) f ;; at_ (df_records fd) r.
Definition write_place (d : db) (p : place) (v : list N) : outcome db :=
  let '(t, f, r) := p in
  tb <- at_ (d_tables d) t ;;
  fd <- at_ (dt_fields tb) f ;;
  rs <- put (df_records fd) r v ;;
  fs <- put (dt_fields tb) f (mkDField (df_name fd) rs) ;;
  ts <- put (d_tables d) t (mkDTable (dt_name tb) fs) ;;
  Ok (with_tables d ts).

(** The place an occurrence and a field name refer to: shared by the three methods below (database.rs:331-385).  The final indexing of
    [records] happens in the caller. *)
Definition current_place (d : db) (o : tocc) (field : list N) : outcome (result place unit) :=
  match get_current_record o with
  | None => Ok (RErr tt)
  | Some id =>
    tb <- at_ (d_tables d) (to_table o) ;;
    i <- first_index (dt_fields tb) field ;;
    _ <- read_place d (to_table o, i, id) ;;
    Ok (ROk (to_table o, i, id))
  end.

(** database.rs:331-347 [get_current_record_by_field_mut]. *)
Definition get_current_record_by_field_mut (d : db) (field : list N) : outcome (result place unit) :=
  o <- get_current_occurrence d ;; current_place d o field.

(** database.rs:349-366 [get_current_record_by_table_field]. *)
Definition get_current_record_by_table_field (d : db) (occ field : list N) : outcome (result (list N) unit) :=
  o <- get_occurrence_by_name d occ ;;
  r <- current_place d o field ;;
  match r with
  | RErr e => Ok (RErr e)
  | ROk p => v <- read_place d p ;; Ok (ROk v)
  end.

(** database.rs:368-385 [get_current_record_by_table_field_mut]. *)
Definition get_current_record_by_table_field_mut (d : db) (occ field : list N) : outcome (result place unit) :=
  o <- get_occurrence_by_name d occ ;; current_place d o field.

(** database.rs:433-442, the comparison of a relation; note lines 436 and 438. *)
Definition joins (c : comparison_kind) (lhs rhs : list N) : bool :=
  match c with
  | CEqual => str_eqb lhs rhs
  | CNotEqual => negb (str_eqb lhs rhs)
  | CLess => str_leb lhs rhs
  | CLessEqual => str_leb lhs rhs
  | CGreater => str_leb rhs lhs
  | CGreaterEqual => str_leb rhs lhs
  | CCartesian => true
  end.

(** database.rs:398-456, the loop over the windows of the path; an [RErr] is the early return. *)
Fixpoint hops (d : db) (path : list N) (current_set : list (N * list N)) : outcome (result (list (N * list N)) unit) :=
  match path with
  | current :: ((next :: _) as path') =>
    current_occurrence <- get_occurrence d current ;;
    match get_current_record current_occurrence with
    | None => Ok (RErr tt)
    | Some current_record =>
      match filter (fun x => rs_occ x =? next) (to_related current_occurrence) with
      | [] => Ok (RErr tt)
      | relation :: _ =>
        current_set <- (match current_set with
                        | [] =>
                          tb <- get_current_table d ;;
                          f <- at_ (dt_fields tb) (rs_field1 relation) ;;
                          v <- at_ (df_records f) current_record ;;
                          Ok [(current_record, v)]
                        | _ => Ok current_set
                        end) ;;
        next_occurrence <- get_occurrence d next ;;
        next_table <- at_ (d_tables d) (to_table next_occurrence) ;;
        rhs_field <- at_ (dt_fields next_table) (rs_field2 relation) ;;
        let related_set :=
          flat_map (fun lhs => filter (fun rhs => joins (rs_cmp relation) (snd lhs) (snd rhs))
                                 (enumerate (df_records rhs_field))) current_set in
        match related_set with
        | [] => Ok (RErr tt)
        | _ => hops d path' related_set
        end
      end
    end
  | _ => Ok (ROk current_set)
  end.

(** database.rs:387-466 [get_related_record_field]. *)
Definition get_related_record_field (d : db) (occ field_target : list N) : outcome (result (list N) unit) :=
  target_idx <- occurrence_index d occ ;;
  path <- get_path (d_graph d) (d_handle d) target_idx ;;
  match path with
  | None => Ok (RErr tt)
  | Some p =>
    r <- hops d p [] ;;
    match r with
    | RErr e => Ok (RErr e)
    | ROk current_set =>
      n <- unwrap (nthN p (lenN p - 1)) ;;
      o <- get_occurrence d n ;;
      tb <- at_ (d_tables d) (to_table o) ;;
      f <- first_named (dt_fields tb) field_target ;;
      c <- at_ current_set 0 ;;
      v <- at_ (df_records f) (fst c) ;;
      Ok (ROk v)
    end
  end.

(** database.rs:473-477, 495-499 and 522-526: the record list of the first relation to the target, first entry. *)
Definition related_record_idx (d : db) (target_idx : N) : outcome N :=
  o <- get_current_occurrence d ;;
  r <- at_ (filter (fun x => rs_occ x =? target_idx) (to_related o)) 0 ;;
  at_ (rs_records r) 0.

(** database.rs:468-488 [get_related_record_field_mut]. *)
Definition get_related_record_field_mut (d : db) (occ field : list N) : outcome place :=
  target_idx <- occurrence_index d occ ;;
  target <- at_ (d_occs d) target_idx ;;
  _ <- related_record_idx d target_idx ;;
  tb <- at_ (d_tables d) (to_table target) ;;
  i <- first_index (dt_fields tb) field ;;
  _ <- read_place d (to_table target, i, 0) ;;
  Ok (to_table target, i, 0).

(** database.rs:490-515 [get_nth_related_record_field] and 517-543, the mutable variant. *)
Definition get_nth_related_record_field (d : db) (occ field : list N) (n : N) : outcome place :=
  target_idx <- occurrence_index d occ ;;
  target <- at_ (d_occs d) target_idx ;;
  _ <- related_record_idx d target_idx ;;
  tb <- at_ (d_tables d) (to_table target) ;;
  i <- first_index (dt_fields tb) field ;;
  fd <- at_ (dt_fields tb) i ;;
  let len := lenN (df_records fd) in
  let r := if len <=? n then len else n in
  _ <- read_place d (to_table target, i, r) ;;
  Ok (to_table target, i, r).

(** [iter().enumerate().map(|x| x.0)], in database.rs:558-565: the numbers below a bound. *)
Definition below (n : N) : list N := map N.of_nat (seq 0 (N.to_nat n)).

(** database.rs:558-565 [reset_found_set]. *)
Definition reset_found_set (d : db) : outcome db :=
  tb <- get_current_table d ;;
  f <- at_ (dt_fields tb) 0 ;;
  modify_current d (fun o => Ok (mkTocc (below (lenN (df_records f))) (to_table o) (to_ptr o) (to_related o))).

(** database.rs:546-556 [update_found_set]. *)
Definition update_found_set (d : db) (records : list N) : outcome db :=
  match records with
  | [] => reset_found_set d
  | _ =>
    d <- reset_found_set d ;;
    modify_current d (fun o => Ok (mkTocc records (to_table o) 0 (to_related o)))
  end.

Definition with_ptr (o : tocc) (p : N) : tocc := mkTocc (to_found o) (to_table o) p (to_related o).

(** database.rs:567-574 [goto_record]. *)
Definition goto_record (d : db) (record_id : N) : outcome db :=
  modify_current d (fun o =>
    if lenN (to_found o) <=? record_id
    then p <- subU (lenN (to_found o)) 1 ;; Ok (with_ptr o p)
    else Ok (with_ptr o record_id)).

(** database.rs:576-581 [goto_previous_record]. *)
Definition goto_previous_record (d : db) : outcome db :=
  modify_current d (fun o => Ok (if 0 <? to_ptr o then with_ptr o (to_ptr o - 1) else o)).

(** database.rs:583-588 [goto_next_record]. *)
Definition goto_next_record (d : db) : outcome db :=
  modify_current d (fun o =>
    k <- subU (lenN (to_found o)) 1 ;;
    Ok (if to_ptr o <? k then with_ptr o (to_ptr o + 1) else o)).

(** database.rs:590-593 [goto_first_record]. *)
Definition goto_first_record (d : db) : outcome db := modify_current d (fun o => Ok (with_ptr o 0)).

(** database.rs:595-598 [goto_last_record]. *)
Definition goto_last_record (d : db) : outcome db :=
  modify_current d (fun o => p <- subU (lenN (to_found o)) 1 ;; Ok (with_ptr o p)).
