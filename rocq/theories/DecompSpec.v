(** Specifications for the decompiler. *)
From Coq Require Import Ascii String NArith List Bool.
From Verif Require Import Prelude Utf8 EncodingSpec ChunkModel ComponentModel AsmModel.
Import ListNotations.
Local Open Scope N_scope.

(** Reading chunks one after the other from [off], [path] leads to [off'], [path']. *)
Inductive walk (buf : list N) (local : N) : N -> list N -> N -> list N -> Prop :=
| WStop off path : walk buf local off path off path
| WRead off path ch off1 path1 off' path' :
    get_chunk buf off path local = Ok (ROk (ch, off1, path1)) ->
    walk buf local off1 path1 off' path' ->
    walk buf local off path off' path'.

(** Names short enough for one length byte: two bytes per character and three or four more. *)
Definition short_names (f : fmpfile) : Prop :=
  Forall (fun t => lenN (tb_name (snd t)) <= 126) (f_tables f) /\
  Forall (fun t => lenN (oc_name (snd t)) <= 125) (f_occurrences f).

(** Following next-pointers: sector [i] names [n] as its successor. *)
Definition sector_next (buf : list N) (i n : N) : Prop :=
  exists b, slice buf (4096 * i + 8) (4096 * i + 12) = Ok b /\ n = be_value b.

(** The chain from [i] reaches 0. *)
Inductive ends (buf : list N) : N -> Prop :=
| EndsHere : ends buf 0
| EndsLater i n : i <> 0 -> sector_next buf i n -> ends buf n -> ends buf i.

(** No opcode on which the reader stands still: 0x0F and 0xCF are always followed by 0x80. *)
Definition no_stuck (buf : list N) : Prop :=
  forall i, nthN buf i = Some 0x0F \/ nthN buf i = Some 0xCF -> nthN buf (i + 1) = Some 0x80.
