(** The lines printed for a schema, in terms of the records that are stored (AsmSpec.v). *)
From Coq Require Import NArith List Bool.
From Verif Require Import Prelude Utf8 CharConvModel ComponentModel AsmModel AsmSpec TraceModel.
Import ListNotations.
Local Open Scope N_scope.

(** A line for every directory that is entered, every value with its own length, and every key of 128 and more. *)
Definition event_line (e : event) : list note :=
  match e with
  | Enter d => [NDirectory (if d <? 128 then 0x20 else 0x28) (number d)]
  | Put k v => if forced k || (short_code (lenN v) =? 6) then [NValue 6 k v (lenN v mod 256)] else []
  | PutWide k _ => [NKey (number k)]
  | Leave | PutLong _ _ | Item _ => []
  end.

(** Table numbers, which are long values, have a line each as well. *)
Definition table_lines (f : fmpfile) : list note :=
  flat_map event_line [Enter 3; Enter 16; Enter 1; Enter 1; Enter 3] ++
  map (fun t => NTable (be4 (fst t))) (f_tables f) ++
  flat_map event_line [Put 4 (be4 (lenN (f_tables f))); Put 216 [50; 63; 54; 54; 53]; PutWide 129 []; PutWide 130 []; Enter 5] ++
  map (fun t => NDirectory 0x28 (number (128 + fst t))) (f_tables f).
Definition all_lines (f : fmpfile) : list note :=
  flat_map event_line blob_events ++ table_lines f ++ flat_map event_line (relation_events f) ++ flat_map event_line (tail_events f).

(** ** How far the assembler comes *)

(** What is done for a record, in order. *)
Inductive act :=
| Writes (n : N)        (* [n] bytes, for which there has to be room *)
| Spares (n : N)        (* [n] bytes passed over *)
| Prints (l : note)
| Refuses.              (* a number or a name that cannot be stored *)

(** A directory is printed first; a value or key is printed when the code before it is written. *)
Definition event_acts (e : event) : list act :=
  match e with
  | Enter d => map Prints (event_line e) ++ [Writes (2 + lenN (number d))]
  | Put k v => match event_line e with [] => [Writes (2 + lenN v)] | l => Writes 2 :: map Prints l ++ [Writes (1 + lenN v)] end
  | PutWide k v => Writes 1 :: map Prints (event_line e) ++ [Writes (lenN (number k) + 1 + lenN v)]
  | PutLong k v => [Writes (2 + lenN k + 1 + lenN v)]
  | Item v => [Writes (2 + lenN v); Spares 4]
  | Leave => [Writes 1]
  end.
Definition storable (n : N) (l : list act) : list act := if n <? 2 ^ 24 then l else [Refuses].

Definition table_acts (f : fmpfile) : list act :=
  flat_map event_acts [Enter 3; Enter 16; Enter 1; Enter 1] ++
  flat_map (fun t => event_acts (PutLong (encode_text (tb_name (snd t)) ++ [0; 0; 0]) [2; 128; fst t mod 256])) (f_tables f) ++
  flat_map event_acts [Leave; Enter 3] ++
  flat_map (fun t => storable (fst t) (Prints (NTable (be4 (fst t))) :: event_acts (PutLong (be4 (fst t)) (be4 (fst t))))) (f_tables f) ++
  event_acts Leave ++ storable (lenN (f_tables f)) (event_acts (Put 4 (be4 (lenN (f_tables f))))) ++
  flat_map event_acts [Put 216 [50; 63; 54; 54; 53]; PutWide 129 [59; 62; 55; 51; 52]; PutWide 130 [59; 62; 55; 51; 52]; Enter 5] ++
  flat_map (fun t => flat_map event_acts [Enter (128 + fst t); Leave]) (f_tables f) ++
  flat_map event_acts [Leave; Leave; Leave].
Definition relation_acts (f : fmpfile) : list act :=
  flat_map event_acts [Enter 17; Enter 1; Put 0 [3; 208; 0; 9]; Enter 1] ++
  flat_map (fun t => event_acts (Item (encode_text (oc_name (snd t)) ++ [0; 0; 0; 0]))) (f_occurrences f) ++
  flat_map event_acts [Leave; Enter 3] ++
  flat_map (fun t => storable (fst t) (event_acts (Item (be4 (fst t))))) (f_occurrences f) ++
  flat_map event_acts [Leave; Enter 8; Leave; Leave; Leave; Leave].
(** The name has to fit into the header; the records begin with a byte that means nothing. *)
Definition all_acts (f : fmpfile) : list act :=
  (if lenN (utf8 (f_name f)) <? 1013 then [] else [Refuses]) ++ [Writes 1] ++
  flat_map event_acts blob_events ++ table_acts f ++ relation_acts f ++ flat_map event_acts (tail_events f).

Definition taken (l : list act) : N := fold_right (fun a n => match a with Writes k | Spares k => k + n | _ => n end) 0 l.
Definition printed (l : list act) : list note := flat_map (fun a => match a with Prints n => [n] | _ => [] end) l.
(** There is room for [room] bytes; [l] are the lines before the first thing that cannot be done. *)
Definition breaks_off (room : N) (acts : list act) (l : list note) : Prop :=
  exists before a after, acts = before ++ a :: after /\ ~ In Refuses before /\ (forall b n c, before = b ++ Writes n :: c -> taken b + n <= room) /\
    (a = Refuses \/ exists n, a = Writes n /\ room < taken before + n) /\ l = printed before.
