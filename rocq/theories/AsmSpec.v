(** Independent description of the assembled file: a sequence of storage events, their byte form, and
    the placement of the bytes in sectors. *)
From Coq Require Import Ascii String NArith List Bool.
From Verif Require Import Prelude Utf8 CharConvModel ChunkModel ComponentModel HeaderModel AsmModel.
Import ListNotations.
Local Open Scope N_scope.

Definition zeros (n : N) : list N := repeat 0 (N.to_nat n).

(** Four bytes, most significant first. *)
Definition be4 (n : N) : list N := [n / 16777216; (n / 65536) mod 256; (n / 256) mod 256; n mod 256].

(** Storage events. *)
Inductive event :=
| Enter (d : N)                  (* into directory [d] *)
| Leave                          (* out of it *)
| Put (k : N) (v : list N)       (* value under a small key *)
| PutWide (k : N) (v : list N)   (* value under a key of 128 or more *)
| PutLong (k v : list N)         (* value under a byte string *)
| Item (v : list N).             (* value without key, followed by four unused bytes *)

(** Number of a directory or wide key: one byte below 128, else two bytes. *)
Definition number (d : N) : list N :=
  if d <? 128 then [d] else [0xFC + ((d - 128) / 256) mod 4; (d - 128) mod 256].

(** The opcode that fits a value of a given length exactly; 6 carries its own length. *)
Definition short_code (len : N) : N :=
  match len with 1 => 1 | 2 => 2 | 4 => 3 | 6 => 4 | 8 => 5 | _ => 6 end.

Definition forced (k : N) : bool := (k =? 16) || (k =? 216).

Definition event_bytes (e : event) : list N :=
  match e with
  | Enter d => (if d <? 128 then 0x20 else 0x28) :: number d ++ [0x80]
  | Leave => [0x40]
  | Put k v =>
    let c := if forced k then 6 else short_code (lenN v) in
    if c =? 6 then 6 :: k :: (lenN v mod 256) :: v else c :: k :: v
  | PutWide k v => 0x0e :: number k ++ (lenN v mod 256) :: v
  | PutLong k v => 0x1e :: (lenN k mod 256) :: k ++ (lenN v mod 256) :: v
  | Item v => 0x1b :: (lenN v mod 256) :: v ++ [0; 0; 0; 0]
  end.

Definition stream_bytes (es : list event) : list N := flat_map event_bytes es.

(** What the assembler stores for a schema. *)
Definition blob_events : list event :=
  [Enter 2; Put 3 blob_3; Put 5 blob_5; Put 6 blob_6; Put 8 blob_8; Put 9 blob_9; Put 11 blob_11;
   Put 24 blob_24; Leave].

Definition table_events (f : fmpfile) : list event :=
  [Enter 3; Enter 16; Enter 1; Enter 1] ++
  map (fun t => PutLong (encode_text (tb_name (snd t)) ++ [0; 0; 0]) [2; 128; fst t mod 256]) (f_tables f) ++
  [Leave; Enter 3] ++
  map (fun t => PutLong (be4 (fst t)) (be4 (fst t))) (f_tables f) ++
  [Leave; Put 4 (be4 (lenN (f_tables f))); Put 216 [50; 63; 54; 54; 53];
   PutWide 129 [59; 62; 55; 51; 52]; PutWide 130 [59; 62; 55; 51; 52]; Enter 5] ++
  flat_map (fun t => [Enter (128 + fst t); Leave]) (f_tables f) ++
  [Leave; Leave; Leave].

Definition relation_events (f : fmpfile) : list event :=
  [Enter 17; Enter 1; Put 0 [3; 208; 0; 9]; Enter 1] ++
  map (fun t => Item (encode_text (oc_name (snd t)) ++ [0; 0; 0; 0])) (f_occurrences f) ++
  [Leave; Enter 3] ++
  map (fun t => Item (be4 (fst t))) (f_occurrences f) ++
  [Leave; Enter 8; Leave; Leave; Leave; Leave].

Definition tail_events (f : fmpfile) : list event :=
  [Enter 4; Enter 1; Put 0 [1; lenN (f_layouts f) mod 256]; Enter 5; Leave; Leave; Leave;
   Enter 6; Leave;
   Enter 17; Enter 1; Put 0 [1; lenN (f_scripts f) mod 256]; Enter 1; Leave; Leave; Leave;
   Enter 23; Leave; Enter 6; Leave; Enter 25; Leave; Enter 65; Leave].

Definition schema_events (f : fmpfile) : list event :=
  blob_events ++ table_events f ++ relation_events f ++ tail_events f.

(** Payload of the only sector in use: a leading no-op, then the events. *)
Definition schema_bytes (f : fmpfile) : list N := 0x80 :: stream_bytes (schema_events f).

(** A sector of 4096 bytes: number of the next sector at 8, payload at 20. *)
Definition sector (next : N) (payload : list N) : list N :=
  zeros 8 ++ be4 next ++ zeros 8 ++ payload ++ zeros (4076 - lenN payload).

(** The file name, followed by a slash, replaces bytes of the header from 3082 on. *)
Definition header_with (name : list N) : list N :=
  let n := utf8 name ++ [47] in
  firstn 3082 HEADER_INIT ++ n ++ skipn (3082 + length n) HEADER_INIT.

(** Header block, four sectors, the last byte of the last sector is missing. *)
Definition image (f : fmpfile) : list N :=
  removelast (header_with (f_name f) ++ [0] ++
              sector 4 [] ++ sector 3 (schema_bytes f) ++ sector 4 [] ++ sector 0 []).

(** When everything fits. The last payload byte of the sector in use cannot be written. *)
Definition fits (f : fmpfile) : Prop :=
  lenN (utf8 (f_name f)) < 1013 /\
  Forall (fun t => fst t < 2 ^ 24) (f_tables f) /\
  Forall (fun t => fst t < 2 ^ 24) (f_occurrences f) /\
  lenN (schema_bytes f) <= 4075.

(** Reading one chunk at [pos] gives this kind, key, long key and value, and moves on to [pos'], [path']. *)
Definition reads_as (buf : list N) (pos : N) (path : list N) (local : N) (t : chunk_type) (key : option N)
  (long : option (list N)) (v : option (list N)) (pos' : N) (path' : list N) : Prop :=
  exists ch, get_chunk buf pos path local = Ok (ROk (ch, pos', path')) /\
    ctype ch = t /\ cref ch = key /\ cref_data ch = long /\ cdata ch = v.
