(** What an arbitrary file says: the records read from it, in order, and the components they amount to. *)
From Coq Require Import NArith List Bool.
From Verif Require Import Prelude Utf8 EncodingModel CharConvModel ChunkModel ComponentModel DecompSpec.
Import ListNotations.
Local Open Scope N_scope.

(** A record read, with the directory it was read in (after the record: entering a directory counts as read in it). *)
Definition entry : Type := list N * chunk.
Definition history : Type := list entry.

(** The records of one sector, from [off] to [bound]. *)
Inductive reads (buf : list N) (bound start : N) : N -> list N -> history -> Prop :=
| RdEnd : forall off path, bound <= off -> reads buf bound start off path []
| RdNext : forall off path ch off' path' h, off < bound -> get_chunk buf off path start = Ok (ROk (ch, off', path')) ->
    reads buf bound start off' path' h -> reads buf bound start off path ((path', ch) :: h).

(** The records of a chain of sectors; each sector starts in the root directory. *)
Inductive file_history (buf : list N) : N -> history -> Prop :=
| FhEnd : file_history buf 0 []
| FhSector : forall i n h h', i <> 0 -> sector_next buf i n -> reads buf (i * 4096 + 4096) (i * 4096) (i * 4096 + 20) [] h ->
    file_history buf n h' -> file_history buf i (h ++ h').

(** The directories with a meaning. *)
Inductive place :=
| PJoin                       (* 3/17/5/0/251 *)
| POccurrence                 (* 3/17/5/0 and anything else below it *)
| PJoinFields (k : N)         (* 3/251/5/k/3 *)
| PLayout (k : N)             (* 4/1/7/k and anything below it *)
| PField (t k : N)            (* t/3/5/k *)
| PTable (t : N)              (* 3/16/5/t *)
| PScript (k : N)             (* 17/1/any/k and anything below it *)
| PSourceName                 (* 32/1/1 *)
| PSource (k : N)             (* 32/5/k and anything below it *)
| PElsewhere.
Definition place_of (path : list N) : place :=
  match path with
  | [3; 17; 5; 0; 251] => PJoin
  | 3 :: 17 :: 5 :: 0 :: _ => POccurrence
  | [3; 251; 5; k; 3] => PJoinFields k
  | 4 :: 1 :: 7 :: k :: _ => PLayout k
  | [t; 3; 5; k] => PField t k
  | [3; 16; 5; t] => PTable t
  | 17 :: 1 :: _ :: k :: _ => PScript k
  | [32; 1; 1] => PSourceName
  | 32 :: 5 :: k :: _ => PSource k
  | _ => PElsewhere
  end.
Definition at_place (e : entry) : place := place_of (fst e).

Definition enters (e : entry) : bool := match ctype (snd e) with PathPush => true | _ => false end.
Definition simple (e : entry) : bool := match ctype (snd e) with DataSimple => true | _ => false end.
Definition keyed (e : entry) : bool := match ctype (snd e) with RefSimple => true | _ => false end.
Definition has_key (k : N) (e : entry) : bool := match cref (snd e) with Some k' => k' =? k | None => false end.
(** The text of a record; a record without contents counts as one zero byte. *)
Definition text_of (e : entry) : list N := fm_string_decrypt (match cdata (snd e) with Some d => d | None => [0] end).
Definition byte_of (e : entry) (i : N) : option N := match cdata (snd e) with Some d => nthN d i | None => None end.

(** What follows the last entry with [p]; the last value [g] gives. *)
Fixpoint after_last (p : entry -> bool) (h : history) : option history :=
  match h with
  | [] => None
  | e :: r => match after_last p r with Some x => Some x | None => if p e then Some r else None end
  end.
Fixpoint last_of {A} (g : entry -> option A) (d : A) (h : history) : A :=
  match h with [] => d | e :: r => last_of g (match g e with Some v => v | None => d end) r end.
Definition when {A} (b : bool) (v : A) : option A := if b then Some v else None.

(** Layouts: made anew whenever a directory is entered anywhere below the layout. *)
Definition layout_here (k : N) (e : entry) : bool := match at_place e with PLayout k' => k' =? k | _ => false end.
Definition layout_of (k : N) (h : history) : option layout :=
  match after_last (fun e => layout_here k e && enters e) h with
  | None => None
  | Some r => Some (mkLayout
      (last_of (fun e => when (layout_here k e && has_key 16 e) (text_of e)) [] r)
      (last_of (fun e => if layout_here k e && has_key 2 e then option_map (fun b => b - 128) (byte_of e 1) else None) 0 r) [] [])
  end.

(** Tables: announced by entering their directory, which starts the table anew, or by the first of their fields. *)
Definition table_here (t : N) (e : entry) : bool := match at_place e with PTable x => x =? 128 + t | _ => false end.
Definition fields_here (t : N) (e : entry) : bool := match at_place e with PField x _ => x =? 128 + t | _ => false end.
Definition announces (t : N) (e : entry) : bool := enters e && (table_here t e || fields_here t e).
Definition announced (t : N) (h : history) : bool := existsb (announces t) h.
Definition since_announced (t : N) (h : history) : history :=
  match after_last (fun e => enters e && table_here t e) h with Some r => r | None => h end.
Definition table_name_of (t : N) (h : history) : list N :=
  last_of (fun e => when (negb (enters e) && table_here t e && has_key 16 e) (text_of e)) [] (since_announced t h).

(** The directories of a table and of its fields. *)
Definition own (t : N) (e : entry) : bool := table_here t e || fields_here t e.

(** Fields; their numbers are 16 bits wide. *)
Definition field_here (t y : N) (e : entry) : bool :=
  match at_place e with PField x y' => (x =? 128 + t) && (y' mod 65536 =? y) | _ => false end.
Definition field_text (t y key : N) (r : history) : list N :=
  last_of (fun e => when (field_here t y e && has_key key e) (text_of e)) [] r.
Definition field_of (t y : N) (h : history) : option field :=
  match after_last (fun e => enters e && field_here t y e) (since_announced t h) with
  | None => None
  | Some r => Some (mkField [] (field_text t y 3 r) (field_text t y 16 r) (field_text t y 2 r) (field_text t y 129 r) (field_text t y 130 r))
  end.

(** Occurrences are numbered in the order of their records with key 2. *)
Definition occurrence_here (e : entry) : bool := match at_place e with POccurrence => true | _ => false end.
Definition starts_occurrence (e : entry) : bool := occurrence_here e && has_key 2 e.
Fixpoint until (p : entry -> bool) (h : history) : history :=
  match h with [] => [] | e :: r => if p e then [] else e :: until p r end.
Fixpoint sections (p : entry -> bool) (h : history) : list (entry * history) :=
  match h with
  | [] => []
  | e :: r => if p e then (e, until p r) :: sections p r else sections p r
  end.
Definition occurrence_read (s : entry * history) : occurrence :=
  mkOcc (last_of (fun e => when (occurrence_here e && has_key 16 e) (text_of e)) [] (snd s))
        (match byte_of (fst s) 6 with Some b => b | None => 0 end) [] [] [].
Definition occurrence_of (k : N) (h : history) : option occurrence :=
  if k =? 0 then None else option_map occurrence_read (nth_error (sections starts_occurrence h) (N.to_nat (k - 1))).

(** Relations: one per record below the current occurrence, unless the reverse pair is there.  [n] occurrences have been read. *)
Definition join_to (e : entry) : option N :=
  match at_place e with PJoin => if simple e then byte_of e 2 else None | _ => None end.
Definition pair_in (a b : N) (l : list (N * N)) : bool := existsb (fun p => (fst p =? a) && (snd p =? b)) l.
Fixpoint joins (n : N) (seen : list (N * N)) (h : history) : list (N * N * history) :=
  match h with
  | [] => []
  | e :: r =>
    match join_to e with
    | Some b =>
      if pair_in b (n mod 65536) seen then joins n seen r
      else (n mod 65536, b, r) :: joins n (seen ++ [(n mod 65536, b)]) r
    | None => joins (if starts_occurrence e then n + 1 else n) seen r
    end
  end.
Definition kinds : list comparison_kind := [CEqual; CNotEqual; CLess; CLessEqual; CGreater; CGreaterEqual; CCartesian].
(** A record with key 1: the comparison, and two field numbers that are stored as directory numbers with 128 added. *)
Definition condition (k : N) (e : entry) : option (N * N * comparison_kind) :=
  match at_place e, cdata (snd e) with
  | PJoinFields k', Some (c :: _ :: a1 :: a2 :: _ :: b1 :: b2 :: _) =>
    if (k' =? k) && has_key 1 e then
      Some ((get_path_int [a1; a2] - 128) mod 65536, (get_path_int [b1; b2] - 128) mod 65536, nth (N.to_nat c) kinds CEqual)
    else None
  | _, _ => None
  end.
Definition relation_read (k : N) (x : N * N * history) : relationship :=
  let c := last_of (condition k) (0, 0, CEqual) (snd x) in
  mkRel (fst (fst x)) [] (fst (fst c)) (snd (fst x)) [] (snd (fst c)) (snd c).
Definition relation_of (k : N) (h : history) : option relationship :=
  if k =? 0 then None else option_map (relation_read k) (nth_error (joins 0 [] h) (N.to_nat (k - 1))).

(** Scripts are named under the last number of their directory. *)
Definition names_script (k : N) (e : entry) : bool :=
  match at_place e with PScript k' => (k' =? k) && keyed e && has_key 16 e | _ => false end.
Definition script_name_of (k : N) (h : history) : option (list N) :=
  if existsb (names_script k) h then Some (last_of (fun e => when (names_script k e) (text_of e)) [] h) else None.

(** Data sources: every directory entered, at any depth, takes the next of the names read so far that have not been taken. *)
Definition decoded (d : option (list N)) : list N :=
  match d with Some d => match decode_bytes d with Ok t => t | _ => [] end | None => [] end.
Definition named_source (e : entry) : option (list N) :=
  match at_place e with PSourceName => if simple e then Some (decoded (cdata (snd e))) else None | _ => None end.
Definition enters_source (e : entry) : option N :=
  match at_place e with PSource _ => if enters e then option_map get_int (cdata (snd e)) else None | _ => None end.
Fixpoint sources (waiting : list (list N)) (h : history) : list (N * (list N * history)) :=
  match h with
  | [] => []
  | e :: r =>
    match named_source e, enters_source e, waiting with
    | Some t, _, _ => sources (waiting ++ [t]) r
    | None, Some k, t :: rest => (k, (t, r)) :: sources rest r
    | None, _, _ => sources waiting r
    end
  end.
Definition source_here (k : N) (e : entry) : bool := match at_place e with PSource k' => k' =? k | _ => false end.
Definition source_place (k : N) (e : entry) : option location :=
  if source_here k e && keyed e && has_key 130 e && (ccode (snd e) =? 6) then
    match cdata (snd e) with Some d => match location_from_bytes d with Ok l => Some l | _ => None end | None => None end
  else None.
Definition source_user (k : N) (e : entry) : option (list N) :=
  when (source_here k e && keyed e && has_key 130 e && negb (ccode (snd e) =? 6)) (text_of e).
Definition source_read (k : N) (x : list N * history) : data_source :=
  mkSource (fst x) (last_of (source_place k) (mkLocation [] [] []) (snd x)) [] (last_of (source_user k) [] (snd x)).
(** The last source with a number counts. *)
Definition source_of (k : N) (h : history) : option data_source :=
  option_map (fun x => source_read k (snd x)) (find (fun x => fst x =? k) (rev (sources [] h))).

(** All there is in a file with these records.  Tables whose number plus 128 is that of another table are left out. *)
Record recovered (h : history) (f : fmpfile) : Prop := {
  rec_layouts : forall k, nget (f_layouts f) k = layout_of k h;
  rec_table_there : forall t, nget (f_tables f) t <> None -> announced t h = true;
  rec_tables : forall t, announced (t + 128) h = false ->
    match nget (f_tables f) t with
    | None => announced t h = false
    | Some tb => announced t h = true /\ tb_name tb = table_name_of t h /\ (forall y, nget (tb_fields tb) y = field_of t y h) /\
                 tb_account tb = [] /\ tb_user tb = [] /\ tb_init tb = false
    end;
  rec_occurrences : forall k, nget (f_occurrences f) k = occurrence_of k h;
  rec_relations : forall k, nget (f_relationships f) k = relation_of k h;
  rec_scripts : forall k, option_map sc_name (nget (f_scripts f) k) = script_name_of k h;
  rec_sources : forall k, nget (f_sources f) k = source_of k h;
}.
