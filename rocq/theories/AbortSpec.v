(** Which files can be decompiled at all, and the tables of any file. *)
From Coq Require Import NArith List Bool.
From Verif Require Import Prelude EncodingModel CharConvSpec ChunkModel ComponentModel DecompSpec DecompCalcSpec DecompScriptSpec HistorySpec StepsSpec.
From Verif Require ChunkSpec ChunkFacts.
Import ListNotations.
Local Open Scope N_scope.

(** ** Tables, the latest record first
    Entering the directory of a table starts the table anew, unless there is a table whose number is larger by 128. *)
Fixpoint there_back (r : history) (t : N) : bool :=
  match r with
  | [] => false
  | e :: r => there_back r t || enters e && (fields_here t e || table_here t e && negb (there_back r (t + 128)))
  end.
Definition restarts (t : N) (r : history) (e : entry) : bool := enters e && table_here t e && negb (there_back r (t + 128)).
Fixpoint name_back (t : N) (r : history) : list N :=
  match r with
  | [] => []
  | e :: r =>
    if restarts t r e then []
    else if negb (enters e) && table_here t e && has_key 16 e then text_of e
    else name_back t r
  end.
(** What a record says about a field. *)
Definition field_told (t y : N) (e : entry) (f : field) : field :=
  let g k old := if field_here t y e && has_key k e then text_of e else old in
  mkField [] (g 3 (fl_description f)) (g 16 (fl_name f)) (g 2 (fl_type f)) (g 129 (fl_account f)) (g 130 (fl_user f)).
Fixpoint field_back (t y : N) (r : history) : option field :=
  match r with
  | [] => None
  | e :: r =>
    if restarts t r e then None
    else if enters e && field_here t y e then Some (mkField [] [] [] [] [] [])
    else option_map (field_told t y e) (field_back t y r)
  end.
Definition table_there (t : N) (h : history) : bool := there_back (rev h) t.
Definition table_name_in (t : N) (h : history) : list N := name_back t (rev h).
Definition field_in (t y : N) (h : history) : option field := field_back t y (rev h).

(** ** Records that do not stop the decompiler
    [h] are the records before. *)
Definition has_data (e : entry) : Prop := cdata (snd e) <> None.
(** A record with key 1 of a relation: two directory numbers from 128 on. *)
Definition condition_ok (e : entry) : Prop :=
  exists c x a1 a2 y b1 b2 rest, cdata (snd e) = Some (c :: x :: a1 :: a2 :: y :: b1 :: b2 :: rest) /\
    128 <= get_path_int [a1; a2] /\ 128 <= get_path_int [b1; b2].
Definition field_key (e : entry) : bool := existsb (fun k => has_key k e) [2; 3; 16; 129; 130].

Definition schema_ok (h : history) (e : entry) : Prop :=
  match at_place e with
  | PJoin => simple e = true -> byte_of e 2 <> None
  | POccurrence => (has_key 2 e = true -> byte_of e 6 <> None) /\ (has_key 16 e = true -> existsb starts_occurrence h = true)
  | PJoinFields _ => has_key 1 e = true -> condition_ok e
  | PLayout k => enters e = false -> layout_of k h <> None ->
      (has_key 2 e = true -> exists b, byte_of e 1 = Some b /\ 128 <= b) /\ (has_key 16 e = true -> has_data e)
  | PField x y => enters e = false -> 128 <= x -> field_key e = true -> field_in (x - 128) (y mod 65536) h <> None
  | PTable x =>
      if enters e then table_there x h = true \/ 128 <= x
      else has_key 16 e = true -> 128 <= x /\ table_there (x - 128) h = true
  | PScript k => names_script k e = true -> script_name_of k h = None -> has_data e
  | PSourceName => simple e = true -> exists d t, cdata (snd e) = Some d /\ stand_for d (t ++ [0])
  | PSource _ =>
      (enters e = true -> has_data e) /\
      (keyed e = true -> cref (snd e) <> None) /\
      (keyed e = true -> has_key 130 e = true ->
         exists d, cdata (snd e) = Some d /\ (ccode (snd e) = 6 -> exists loc, located d loc))
  | PElsewhere => True
  end.

(** The directory of the segments of script [k] is entered. *)
Definition opens_segments (k : N) (e : entry) : bool := match step_here e with SSegment k' => (k' =? k) && enters e | _ => false end.
Definition in_segment (e : entry) : bool := match ctype (snd e) with DataSegment => true | _ => false end.
(** The record says something about steps that are there; steps go to scripts that have a name. *)
Definition step_fits (k : N) (h : history) (e : entry) : Prop :=
  exists l l', in_place k h l /\ contributes (fun j => script_name_of j h) k e l l' /\ (l' <> l -> script_name_of k h <> None).
Definition steps_ok (h : history) (e : entry) : Prop :=
  match step_here e with
  | SSegment k => in_segment e = true -> csegment (snd e) <> None /\ has_data e /\ existsb (opens_segments k) h = true
  | SValue k _ | SName k _ | SCode k => step_fits k h e
  | SCalc k _ => step_fits k h e /\ script_name_of k h <> None
  | SOther => True
  end.
Definition record_ok (h : history) (e : entry) : Prop := schema_ok h e /\ steps_ok h e.

(** The code in segments can be read, and belongs to scripts that have a name unless it is without steps. *)
Definition segments_ok (h : history) : Prop :=
  forall k d, joined k h d -> exists l, steps_in (fun j => script_name_of j h) 28 d l /\ (l <> [] -> script_name_of k h <> None).

(** Every sector of the chain has its header in the file and a number up to [last]. *)
Inductive stays (buf : list N) (last : N) : N -> Prop :=
| StEnd : stays buf last 0
| StNext : forall i n, i <> 0 -> i <= last -> 4096 * i + 20 <= lenN buf -> sector_next buf i n -> stays buf last n -> stays buf last i.

(** A file that can be decompiled: sector 1 names the last sector, and the chain from sector 2 on holds records that fit together. *)
Definition decompilable (buf : list N) : Prop :=
  4096 + 20 <= lenN buf /\
  (exists last, sector_next buf 1 last /\ stays buf last 2) /\
  exists h, file_history buf 2 h /\ (forall h1 e h2, h = h1 ++ e :: h2 -> record_ok h1 e) /\ segments_ok h.

(** All tables of a file. *)
Definition tables_recovered (h : history) (f : fmpfile) : Prop :=
  forall t, match nget (f_tables f) t with
  | None => table_there t h = false
  | Some tb => table_there t h = true /\ tb_name tb = table_name_in t h /\ (forall y, nget (tb_fields tb) y = field_in t y h) /\
               tb_account tb = [] /\ tb_user tb = [] /\ tb_init tb = false
  end.

(** ** Records from the bytes alone
    One record at a time by the opcode table, as far as [bound]. *)
Definition read_at (buf : list N) (off : N) (path : list N) (e : entry) (off' : N) : Prop :=
  off <= lenN buf /\ exists c r late, ChunkSpec.spec_read (skipn (N.to_nat off) buf) = ChunkSpec.SRead c r late /\ off' = off + ChunkSpec.rused r /\
    fst e = ChunkSpec.apply_dir (ChunkSpec.rdir r) late path /\
    snd e = mkChunk (ChunkFacts.kind_type (ChunkSpec.rkind r)) c (ChunkSpec.rdata r) (ChunkSpec.rref r) (fst e) (ChunkSpec.rseg r) (ChunkSpec.rkey r).
Inductive sector_records (buf : list N) (bound : N) : N -> list N -> history -> Prop :=
| SrEnd : forall off path, bound <= off -> sector_records buf bound off path []
| SrNext : forall off path e off' h, off < bound -> read_at buf off path e off' -> sector_records buf bound off' (fst e) h ->
    sector_records buf bound off path (e :: h).
Inductive file_records (buf : list N) : N -> history -> Prop :=
| FrEnd : file_records buf 0 []
| FrSector : forall i n h h', i <> 0 -> sector_next buf i n -> sector_records buf (i * 4096 + 4096) (i * 4096 + 20) [] h ->
    file_records buf n h' -> file_records buf i (h ++ h').
