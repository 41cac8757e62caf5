(** Model of /repo/src/dbcharconv.rs. *)
From Coq Require Import Ascii String NArith List Bool.
From Verif Require Import Prelude.
Import ListNotations.
Local Open Scope N_scope.

(** src/dbcharconv.rs:4-15 [ENCODING_MAPPING]; characters as code points. *)
Definition ENCODING_MAPPING : list (N * N * N) :=
  [(0x0, 0x0, 0); (0x2, 0xa, 32); (0x2, 0x1d, 95);
   (0x12, 0xf, 97); (0x12, 0x25, 98); (0x12, 0x3d, 99);
   (0x12, 0x50, 100); (0x12, 0x6b, 101); (0x12, 0xa3, 102);
   (0x12, 0xb0, 103); (0x12, 0xd3, 104); (0x12, 0xec, 105);
   (0x13, 0x5, 106); (0x13, 0x1e, 107); (0x13, 0x30, 108);
   (0x13, 0x5f, 109); (0x13, 0x6d, 110); (0x13, 0x8e, 111);
   (0x13, 0xb3, 112); (0x13, 0xc8, 113); (0x13, 0xda, 114);
   (0x14, 0x10, 115); (0x14, 0x33, 116); (0x14, 0x53, 117);
   (0x14, 0x7b, 118); (0x14, 0x8d, 119); (0x14, 0x97, 120);
   (0x14, 0x9c, 121); (0x14, 0xad, 122)].

(** [char::to_ascii_lowercase], dbcharconv.rs:32. *)
Definition to_ascii_lowercase (c : N) : N := if (65 <=? c) && (c <=? 90) then c + 32 else c.

(** src/dbcharconv.rs:17-22 [decode_char]; 63 is '?'. *)
Definition decode_char (high low : N) : N :=
  match find (fun e => match e with (h, l, _) => (h =? high) && (l =? low) end) ENCODING_MAPPING with
  | Some (_, _, ch) => ch
  | None => 63
  end.

(** dbcharconv.rs:25-27: [chunks_exact(2)] mapped through [decode_char]: an odd last byte is ignored. *)
Fixpoint decode_pairs (bs : list N) : list N :=
  match bs with
  | b0 :: b1 :: rest => decode_char b0 b1 :: decode_pairs rest
  | _ => []
  end.

(** dbcharconv.rs:27: [strip_suffix("\0").unwrap()]. *)
Fixpoint strip_nul (s : list N) : outcome (list N) :=
  match s with
  | [] => Panic
  | [c] => if c =? 0 then Ok [] else Panic
  | c :: s' => r <- strip_nul s' ;; Ok (c :: r)
  end.

(** src/dbcharconv.rs:24-28 [decode_bytes]. *)
Definition decode_bytes (bs : list N) : outcome (list N) := strip_nul (decode_pairs bs).

(** src/dbcharconv.rs:30-35 [encode_char]. *)
Definition encode_char (ch : N) : N * N :=
  match find (fun e => match e with (_, _, c) => c =? to_ascii_lowercase ch end) ENCODING_MAPPING with
  | Some (h, l, _) => (h, l)
  | None => (0, 0)
  end.

(** src/dbcharconv.rs:37-47 [encode_text]. Simplification: the [unsafe] reinterpretation of the vector of
    pairs as a vector of bytes of twice the length is modelled as flattening the pairs (its intended and
    in practice observed effect; the layout of a tuple is not guaranteed by the language). *)
Definition encode_text (text : list N) : list N :=
  flat_map (fun c => match encode_char c with (h, l) => [h; l] end) text.
