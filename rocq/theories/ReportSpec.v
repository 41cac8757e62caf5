(** What is printed for the records of a file (HistorySpec.v). *)
From Coq Require Import NArith List Bool.
From Verif Require Import Prelude InstrModel ChunkModel ComponentModel HistorySpec StepsSpec ReportModel.
Import ListNotations.
Local Open Scope N_scope.

(** A compiled calculation, cut into its codes with what belongs to them. *)
Inductive codes : list N -> list (list N) -> Prop :=
| CdEnd : codes [] []
| CdOne : forall b d cs, ~ In b [0x9c; 0xfb; 0x10; 0x13; 0x1a] -> codes d cs -> codes (b :: d) ([b] :: cs)
| CdTwo : forall b x d cs, In b [0x9c; 0xfb] -> codes d cs -> codes (b :: x :: d) ([b; x] :: cs)
| CdNumber : forall n d cs, lenN n = 19 \/ (9 <= lenN n /\ lenN n < 19 /\ d = []) -> codes d cs -> codes (0x10 :: n ++ d) ((0x10 :: n) :: cs)
| CdText : forall b t d cs, In b [0x13; 0x1a] -> codes d cs -> codes (b :: lenN t :: t ++ d) ((b :: lenN t :: t) :: cs).

(** A line for each function other than the one that is known. *)
Definition strange (c : list N) : bool := match c with b :: x :: _ => (b =? 0xfb) && negb (x =? 3) | _ => false end.
Definition calc_tells (d : list N) (l : list report) : Prop := exists cs, codes d cs /\ l = map (fun _ => RFunction) (filter strange cs).
Definition calc_of (e : entry) (l : list report) : Prop := exists d, cdata (snd e) = Some d /\ calc_tells d l.

(** The instruction of the first step with an index. *)
Definition first_is (i : N) (op : instruction) (l : list step) : Prop :=
  exists pre st post, l = pre ++ st :: post /\ step_index st = i /\ Forall (fun x => step_index x <> i) pre /\ opcode st = op.

(** The lines for one record, after the records [h]. *)
Inductive entry_tells (h : history) (e : entry) : list report -> Prop :=
| EtOccurrence : forall b, starts_occurrence e = true -> byte_of e 2 = Some b -> entry_tells h e [RByte b]
| EtCalc : forall k i l, step_here e = SCalc k i -> has_key 5 e = true -> calc_of e l -> entry_tells h e l
| EtExit : forall k i steps l, step_here e = SValue k i -> has_key 5 e = true -> in_place k h steps -> first_is i IExitScript steps -> calc_of e l -> entry_tells h e l
| EtValue : forall k i steps op, step_here e = SValue k i -> has_key 5 e = true -> in_place k h steps -> first_is i op steps -> op <> IExitScript -> entry_tells h e []
| EtValueKey : forall k i, step_here e = SValue k i -> has_key 5 e = false -> entry_tells h e []
| EtCalcKey : forall k i, step_here e = SCalc k i -> has_key 5 e = false -> entry_tells h e []
| EtOther : starts_occurrence e = false -> (forall k i, step_here e <> SCalc k i) -> (forall k i, step_here e <> SValue k i) -> entry_tells h e [].

(** The lines for the records of a file. *)
Inductive told : history -> list report -> Prop :=
| ToNone : told [] []
| ToNext : forall h e l m, told h l -> entry_tells h e m -> told (h ++ [e]) (l ++ m).

(** The first records of a sector, and where the next one would begin. *)
Inductive reads_to (buf : list N) (bound start : N) : N -> list N -> history -> N -> list N -> Prop :=
| RtHere : forall off path, reads_to buf bound start off path [] off path
| RtNext : forall off path ch off' path' h off'' path'', off < bound -> get_chunk buf off path start = Ok (ROk (ch, off', path')) ->
    reads_to buf bound start off' path' h off'' path'' -> reads_to buf bound start off path ((path', ch) :: h) off'' path''.
(** The first records of a chain of sectors: up to the start of a sector, or up to an offset in one. *)
Inductive first_records (buf : list N) : N -> history -> option (N * N * list N) -> Prop :=
| FrBetween : forall i, first_records buf i [] None
| FrInside : forall i h off path, i <> 0 -> reads_to buf (i * 4096 + 4096) (i * 4096) (i * 4096 + 20) [] h off path ->
    first_records buf i h (Some (i * 4096, off, path))
| FrSector : forall i n h h' w, i <> 0 -> DecompSpec.sector_next buf i n -> reads buf (i * 4096 + 4096) (i * 4096) (i * 4096 + 20) [] h ->
    first_records buf n h' w -> first_records buf i (h ++ h') w.

(** The lines for the record in which decompiling breaks off. *)
Inductive last_words (buf : list N) : option (N * N * list N) -> list report -> Prop :=
| LwNone : forall w, last_words buf w []
| LwCalc : forall start off path path' ch off' k i l, get_chunk buf off path start = Ok (ROk (ch, off', path')) ->
    step_here (path', ch) = SCalc k i \/ step_here (path', ch) = SValue k i -> has_key 5 (path', ch) = true -> Forall (eq RFunction) l ->
    last_words buf (Some (start, off, path)) l
| LwCode : forall start off path c, nthN buf off = Some c -> get_chunk buf off path start = Ok (RErr tt) ->
    last_words buf (Some (start, off, path)) [RCode (4096 / (off - start)) start (if c <? 192 then c else c - 192)].
