(** What the records of an arbitrary file say about the steps of its scripts. *)
From Coq Require Import Ascii String NArith List Bool.
From Verif Require Import Prelude Utf8 EncodingModel InstrModel ChunkModel ComponentModel DecompCalcSpec DecompScriptSpec HistorySpec.
Import ListNotations.
Local Open Scope N_scope.

(** The text of any compiled calculation.  Bytes of a text are taken for characters before they are deciphered; bytes without a meaning are
    skipped; the bytes after the value of a number may end early. *)
Definition deciphered (raw : list N) : list N := fm_string_decrypt (utf8 raw).
Inductive calc_says : list N -> list N -> Prop :=
| CsEnd : calc_says [] []
| CsPlain : forall b t d c, In (b, t) plain_tokens -> calc_says d c -> calc_says (b :: d) (t ++ c)
| CsNone : forall b d c, ~ In b leaders -> calc_says d c -> calc_says (b :: d) c
| CsGet : forall b t d c, In (b, t) get_args -> calc_says d c -> calc_says (0x9c :: b :: d) (t ++ c)
| CsGetNone : forall b d c, ~ In b (map fst get_args) -> calc_says d c -> calc_says (0x9c :: b :: d) c
| CsChar : forall d c, calc_says d c -> calc_says (0xfb :: 3 :: d) (lit "Char" ++ c)
| CsFunctionNone : forall b d c, b <> 3 -> calc_says d c -> calc_says (0xfb :: b :: d) c
| CsNumber : forall before n after d c, lenN before = 8 -> lenN after = 10 \/ (lenN after < 10 /\ d = []) ->
    calc_says d c -> calc_says (0x10 :: before ++ n :: after ++ d) (decimal n ++ c)
| CsText : forall raw d c, calc_says d c -> calc_says (0x13 :: lenN raw :: raw ++ d) ([34] ++ deciphered raw ++ [34] ++ c)
| CsVar : forall raw d c, calc_says d c -> calc_says (0x1a :: lenN raw :: raw ++ d) (deciphered raw ++ c).

(** The directories with a meaning for steps. *)
Inductive step_place :=
| SSegment (k : N)        (* 17/5/k/4 *)
| SValue (k i : N)        (* 17/5/k/5/i/128/5 *)
| SName (k i : N)         (* 17/5/k/5/i/128 *)
| SCalc (k i : N)         (* 17/5/k/5/i/129/5 *)
| SCode (k : N)           (* 17/5/k and anything else below it *)
| SOther.
Definition step_place_of (path : list N) : step_place :=
  match path with
  | [17; 5; k; 4] => SSegment k
  | [17; 5; k; 5; i; 128; 5] => SValue k i
  | [17; 5; k; 5; i; 128] => SName k i
  | [17; 5; k; 5; i; 129; 5] => SCalc k i
  | 17 :: 5 :: k :: _ => SCode k
  | _ => SOther
  end.
Definition step_here (e : entry) : step_place := step_place_of (fst e).

(** Code is cut into pieces of 28 bytes, the last may be shorter. *)
Inductive cut : list N -> list (list N) -> Prop :=
| CutEnd : cut [] []
| CutShort : forall d, d <> [] -> lenN d < 28 -> cut d [d]
| CutMore : forall b d bs, lenN b = 28 -> cut d bs -> cut (b ++ d) (b :: bs).

(** What a piece says: the opcode at 21, the index from 2 on, its length plus one at 0, the id of a called script at 8. *)
Definition reads_as (names : N -> option (list N)) (block : list N) (o : option step) : Prop :=
  exists op, nthN block 21 = Some op /\
    match o with
    | None => op < 254 /\ forall i, ~ step_number op i
    | Some st =>
      step_number op (opcode st) /\
      (exists x ib rest, block = (lenN ib + 1) :: x :: ib ++ rest /\ step_index st = get_path_int ib) /\
      if instr_eqb (opcode st) IPerformScript
      then exists k n, nthN block 8 = Some k /\ names k = Some n /\ switches st = [n]
      else switches st = []
    end.

(** The steps in code; pieces of fewer than [m] bytes are dropped. *)
Definition steps_in (names : N -> option (list N)) (m : N) (d : list N) (sts : list step) : Prop :=
  exists bs os, cut d bs /\ Forall2 (reads_as names) (filter (fun b => m <=? lenN b) bs) os /\ sts = present os.

(** Each step is inserted where its index says. *)
Inductive inserted : list step -> list step -> list step -> Prop :=
| InsNone : forall l, inserted [] l l
| InsOne : forall st sts a b l, lenN a = step_index st -> inserted sts (a ++ st :: b) l -> inserted (st :: sts) (a ++ b) l.

(** A parameter goes to the first step with its index. *)
Definition given (i : N) (adds : instruction -> list (list N) -> Prop) (l l' : list step) : Prop :=
  exists pre st post ts,
    l = pre ++ st :: post /\ step_index st = i /\ Forall (fun x => step_index x <> i) pre /\ adds (opcode st) ts /\
    l' = pre ++ mkStep (opcode st) i (switches st ++ ts) :: post.
Definition adds_name (e : entry) (op : instruction) (ts : list (list N)) : Prop :=
  ts = if instr_eqb op ISetVariable then [text_of e] else [].
Definition adds_calc (e : entry) (ts : list (list N)) : Prop := exists d c, cdata (snd e) = Some d /\ calc_says d c /\ ts = [c].
Definition adds_value (e : entry) (op : instruction) (ts : list (list N)) : Prop :=
  if instr_eqb op ISetVariable then ts = [text_of e]
  else if instr_eqb op IExitScript then adds_calc e ts
  else ts = [].

Definition moves_path (e : entry) : bool := match ctype (snd e) with PathPush | PathPop => true | _ => false end.
Definition segment_4 (e : entry) : bool := match csegment (snd e) with Some n => n =? 4 | None => false end.

(** What one record makes of the steps of script [k]; [names] are the script names at that time. *)
Definition contributes (names : N -> option (list N)) (k : N) (e : entry) (l l' : list step) : Prop :=
  match step_here e with
  | SValue k' i => if (k' =? k) && has_key 5 e then given i (adds_value e) l l' else l' = l
  | SName k' i => if (k' =? k) && has_key 1 e then given i (adds_name e) l l' else l' = l
  | SCalc k' i => if (k' =? k) && has_key 5 e then given i (fun _ => adds_calc e) l l' else l' = l
  | SCode k' =>
    if (k' =? k) && negb (moves_path e) && (segment_4 e || has_key 4 e) then
      exists d sts, cdata (snd e) = Some d /\ steps_in names 21 d sts /\
        if segment_4 e then inserted sts l l' else l' = l ++ sts
    else l' = l
  | _ => l' = l
  end.

(** The steps of script [k] in place, record by record. *)
Inductive in_place (k : N) : history -> list step -> Prop :=
| IpNone : in_place k [] []
| IpNext : forall h e l l', in_place k h l -> contributes (fun j => script_name_of j h) k e l l' -> in_place k (h ++ [e]) l'.

(** The code of script [k] in segments: of those with the same number the last to arrive, by rising number. *)
Definition arrival (k : N) (e : entry) : list (N * list N) :=
  match step_here e, ctype (snd e), csegment (snd e), cdata (snd e) with
  | SSegment k', DataSegment, Some n, Some d => if k' =? k then [(n, d)] else []
  | _, _, _, _ => []
  end.
Definition joined (k : N) (h : history) (d : list N) : Prop :=
  exists segs, increasing (map fst segs) /\ (forall i, nget segs i = last_arrival (flat_map (arrival k) h) i) /\ d = concat (map snd segs).

(** All the steps of script [k]: those in place, then those of the whole pieces of its segments, under the names at the end of the file. *)
Definition steps_of (k : N) (h : history) (l : list step) : Prop :=
  exists l1 d l2, in_place k h l1 /\ joined k h d /\ steps_in (fun j => script_name_of j h) 28 d l2 /\ l = l1 ++ l2.

(** The records that matter for the steps of script [k]: those in its directories, and those that name a script. *)
Definition step_own (k : N) (e : entry) : bool :=
  match step_here e with SSegment k' | SValue k' _ | SName k' _ | SCalc k' _ | SCode k' => k' =? k | SOther => false end.
Definition names_any (e : entry) : bool := match at_place e with PScript k => names_script k e | _ => false end.
Definition step_matters (k : N) (e : entry) : bool := step_own k e || names_any e.
