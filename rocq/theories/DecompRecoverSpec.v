(** A description of stored schemas, how they are laid out as storage events, and what must come back. *)
From Coq Require Import Ascii String NArith List Bool.
From Verif Require Import Prelude Utf8 EncodingModel CharConvModel ComponentModel AsmSpec DecompCalcSpec.
Import ListNotations.
Local Open Scope N_scope.

(** Directories around some events. *)
Fixpoint within (path : list N) (es : list event) : list event :=
  match path with [] => es | d :: p => Enter d :: within p es ++ [Leave] end.

Record qfield := mkQField {
  qf_type : list N; qf_description : list N; qf_name : list N; qf_account : list N; qf_user : list N;
}.

Record qschema := mkQ {
  q_tables : list (N * list N);                         (* id, name *)
  q_fields : list (N * list (N * qfield));              (* table id, its fields by id *)
  q_layouts : list (N * (N * list N));                  (* id, occurrence, name *)
  q_occurrences : list (N * list N * list N);           (* table, name, related occurrences *)
  q_joins : list (N * (N * N * N));                     (* relation id, comparison, field, field *)
  q_scripts : list (N * list N);                        (* id, name *)
  q_sources : list (N * list N * list N);               (* id, stored name, stored location *)
}.

Definition text_ev (k : N) (s : list N) : event := Put k (fm_string_encrypt s).

Definition ev_table (t : N * list N) : list event := [Enter (128 + fst t); text_ev 16 (snd t); Leave].
Definition ev_field (e : N * qfield) : list event :=
  let q := snd e in
  [Enter (fst e); text_ev 2 (qf_type q); text_ev 3 (qf_description q); text_ev 16 (qf_name q);
   text_ev 129 (qf_account q); text_ev 130 (qf_user q); Leave].
Definition ev_fields (e : N * list (N * qfield)) : list event := within [128 + fst e; 3; 5] (flat_map ev_field (snd e)).
Definition ev_layout (e : N * (N * list N)) : list event :=
  [Enter (fst e); Put 2 [1; 128 + fst (snd e)]; text_ev 16 (snd (snd e)); Leave].
Definition ev_occurrence (e : N * list N * list N) : list event :=
  let '(table, name, related) := e in
  [Put 2 [0; 0; 0; 0; 0; 0; table]; text_ev 16 name; Enter 251] ++ map (fun r => Item [0; 0; r]) related ++ [Leave].
Definition ev_join (e : N * (N * N * N)) : list event :=
  let '(id, (cmp, a, b)) := e in within [id; 3] [Put 1 [cmp; 0; 252; a; 0; 252; b]].
Definition ev_script (e : N * list N) : list event := [Enter (fst e); text_ev 16 (snd e); Leave].
Definition ev_source (e : N * list N * list N) : list event := [Enter (fst (fst e)); Put 130 (snd e); Leave].

Definition stored (q : qschema) : list event :=
  within [3; 16; 5] (flat_map ev_table (q_tables q)) ++
  flat_map ev_fields (q_fields q) ++
  within [4; 1; 7] (flat_map ev_layout (q_layouts q)) ++
  within [3; 17; 5; 0] (flat_map ev_occurrence (q_occurrences q)) ++
  within [3; 251; 5] (flat_map ev_join (q_joins q)) ++
  within [17; 1; 1] (flat_map ev_script (q_scripts q)) ++
  within [32; 1; 1] (map (fun e => Item (snd (fst e))) (q_sources q)) ++
  within [32; 5] (flat_map ev_source (q_sources q)).

(** What is expected back. *)
Definition back_field (q : qfield) : field :=
  mkField (fl_data_type field_new) (qf_description q) (qf_name q) (qf_type q) (qf_account q) (qf_user q).

(** Insertion into a list ordered by id; a later entry replaces an earlier one. *)
Fixpoint insert_by_id {A} (k : N) (v : A) (l : list (N * A)) : list (N * A) :=
  match l with
  | [] => [(k, v)]
  | (k', v') :: l' =>
    match k ?= k' with Lt => (k, v) :: l | Eq => (k, v) :: l' | Gt => (k', v') :: insert_by_id k v l' end
  end.
Definition sort_by_id {A} (l : list (N * A)) : list (N * A) :=
  fold_left (fun acc e => insert_by_id (fst e) (snd e) acc) l [].

Definition fields_back (q : qschema) (id : N) : list (N * field) :=
  match nget (q_fields q) id with
  | Some l => sort_by_id (map (fun e => (fst e, back_field (snd e))) l)
  | None => []
  end.
Definition tables_back (q : qschema) : list (N * table) :=
  map (fun t => (fst t, mkTable (snd t) [] [] (fields_back q (fst t)) false)) (q_tables q).
Definition layouts_back (q : qschema) : list (N * layout) :=
  map (fun e => (fst e, mkLayout (snd (snd e)) (fst (snd e)) [] [])) (q_layouts q).
Definition occurrences_back (q : qschema) : list (N * occurrence) :=
  map (fun '(i, (table, name, _)) => (N.of_nat i, mkOcc name table [] [] [])) 
      (combine (seq 1 (length (q_occurrences q))) (q_occurrences q)).

(** Relations are numbered in order; a pair is stored once, whichever side comes first. *)
Definition pairs (q : qschema) : list (N * N) :=
  flat_map (fun '(i, (_, _, related)) => map (fun r => (N.of_nat i, r)) related)
           (combine (seq 1 (length (q_occurrences q))) (q_occurrences q)).
Fixpoint distinct (seen : list (N * N)) (l : list (N * N)) : list (N * N) :=
  match l with
  | [] => seen
  | (a, b) :: l' =>
    distinct (if existsb (fun p => (fst p =? b) && (snd p =? a)) seen then seen else seen ++ [(a, b)]) l'
  end.
Definition comparisons : list comparison_kind :=
  [CEqual; CNotEqual; CLess; CLessEqual; CGreater; CGreaterEqual; CCartesian].
Definition relation_back (q : qschema) (i : N) (p : N * N) : relationship :=
  match nget (q_joins q) i with
  | Some (cmp, a, b) =>
    mkRel (fst p) [] a (snd p) [] b (nth (N.to_nat cmp) comparisons CEqual)
  | None => mkRel (fst p) [] 0 (snd p) [] 0 CEqual
  end.
Definition relations_back (q : qschema) : list (N * relationship) :=
  map (fun '(i, p) => (N.of_nat i, relation_back q (N.of_nat i) p))
      (combine (seq 1 (length (distinct [] (pairs q)))) (distinct [] (pairs q))).

Definition scripts_back (q : qschema) : list (N * script) :=
  map (fun e => (fst e, mkScript (snd e) [] [] [] [])) (q_scripts q).

(** Sources: name and location as decoded. *)
Definition source_back (e : N * list N * list N) (r : N * data_source) : Prop :=
  let '(id, name, loc) := e in
  exists n l, decode_bytes name = Ok n /\ located loc l /\ r = (id, mkSource n l [] []).

(** Texts that are strings of at most 255 bytes. *)
Definition short_text (s : list N) : Prop := is_str s /\ lenN (utf8 s) <= 255.

Record well_formed (q : qschema) : Prop := {
  wf_tables : NoDup (map fst (q_tables q)) /\ Forall (fun t => fst t < 128 /\ short_text (snd t)) (q_tables q);
  wf_fields : NoDup (map fst (q_fields q)) /\
    Forall (fun e => In (fst e) (map fst (q_tables q)) /\
      Forall (fun f => fst f < 384 /\
        Forall short_text [qf_type (snd f); qf_description (snd f); qf_name (snd f); qf_account (snd f); qf_user (snd f)]) (snd e))
      (q_fields q);
  wf_layouts : NoDup (map fst (q_layouts q)) /\
    Forall (fun e => fst e < 384 /\ fst (snd e) < 128 /\ short_text (snd (snd e))) (q_layouts q);
  wf_occurrences : Forall (fun '(t, n, rs) => t < 256 /\ short_text n /\ Forall (fun r => r < 256) rs) (q_occurrences q) /\
    lenN (q_occurrences q) < 65536;
  wf_joins : NoDup (map fst (q_joins q)) /\
    Forall (fun '(i, (c, a, b)) => i < 384 /\ c < 7 /\ a < 256 /\ b < 256) (q_joins q);
  wf_scripts : NoDup (map fst (q_scripts q)) /\ Forall (fun e => fst e < 384 /\ short_text (snd e)) (q_scripts q);
  wf_sources : NoDup (map (fun e => fst (fst e)) (q_sources q)) /\
    Forall (fun '(id, n, l) => id < 128 /\ bytes n /\ 1 <= lenN n /\ lenN n <= 255 /\ bytes l /\ 10 <= lenN l /\ lenN l <= 255) (q_sources q);
}.

(** A file: an unused block, a first sector naming the last one, and one sector per list of events, each naming
    the next. *)
Fixpoint sector_chain (i : N) (streams : list (list event)) : list N :=
  match streams with
  | [] => []
  | [es] => sector 0 (stream_bytes es)
  | es :: rest => sector (i + 1) (stream_bytes es) ++ sector_chain (i + 1) rest
  end.
Definition file_of (streams : list (list event)) : list N :=
  zeros 4096 ++ sector (lenN streams + 1) [] ++ sector_chain 2 streams.

(** Every directory entered is left. *)
Definition balanced (es : list event) : Prop :=
  (fix go (depth : nat) (l : list event) : Prop :=
     match l with
     | [] => depth = O
     | Enter _ :: l' => go (S depth) l'
     | Leave :: l' => match depth with O => False | S d => go d l' end
     | _ :: l' => go depth l'
     end) O es.
