(** UTF-8 as used by Rust strings.

    Models the standard library functions [str::bytes] / [str::as_bytes] ([utf8]) and
    [String::from_utf8] ([from_utf8]) that /repo calls, e.g. src/encoding_util.rs:44-60.
    The decoder is the table of well-formed byte sequences used by Rust's validation
    (Unicode Table 3-7). *)
From Coq Require Import NArith List Bool.
From Verif Require Import Prelude.
Import ListNotations.
Local Open Scope N_scope.

(** Unicode scalar values: what a Rust [char] may be. *)
Definition scalar (c : N) : bool := (c <? 0xD800) || ((0xE000 <=? c) && (c <? 0x110000)).
Definition is_str (s : list N) : Prop := Forall (fun c => scalar c = true) s.

(** [char::encode_utf8]. *)
Definition utf8_char (c : N) : list N :=
  if c <? 0x80 then [c]
  else if c <? 0x800 then [0xC0 + c / 64; 0x80 + c mod 64]
  else if c <? 0x10000 then [0xE0 + c / 4096; 0x80 + (c / 64) mod 64; 0x80 + c mod 64]
  else [0xF0 + c / 262144; 0x80 + (c / 4096) mod 64; 0x80 + (c / 64) mod 64; 0x80 + c mod 64].

(** [String::as_bytes]. *)
Definition utf8 (s : list N) : list N := flat_map utf8_char s.

Definition in_range (a b x : N) : bool := (a <=? x) && (x <=? b).
Definition cont (x : N) : bool := in_range 0x80 0xBF x.

(** Allowed second byte after a three or four byte leader. *)
Definition second3 (b0 b1 : N) : bool :=
  if b0 =? 0xE0 then in_range 0xA0 0xBF b1
  else if b0 =? 0xED then in_range 0x80 0x9F b1
  else cont b1.
Definition second4 (b0 b1 : N) : bool :=
  if b0 =? 0xF0 then in_range 0x90 0xBF b1
  else if b0 =? 0xF4 then in_range 0x80 0x8F b1
  else cont b1.

Definition ocons {A} (x : A) (o : option (list A)) : option (list A) :=
  match o with Some l => Some (x :: l) | None => None end.

(** [String::from_utf8]: [None] is the error case. *)
Fixpoint from_utf8 (l : list N) : option (list N) :=
  match l with
  | [] => Some []
  | b0 :: l1 =>
    if b0 <? 0x80 then ocons b0 (from_utf8 l1)
    else if in_range 0xC2 0xDF b0 then
      match l1 with
      | b1 :: l2 =>
        if cont b1 then ocons ((b0 - 0xC0) * 64 + (b1 - 0x80)) (from_utf8 l2) else None
      | _ => None
      end
    else if in_range 0xE0 0xEF b0 then
      match l1 with
      | b1 :: b2 :: l3 =>
        if second3 b0 b1 && cont b2
        then ocons ((b0 - 0xE0) * 4096 + (b1 - 0x80) * 64 + (b2 - 0x80)) (from_utf8 l3) else None
      | _ => None
      end
    else if in_range 0xF0 0xF4 b0 then
      match l1 with
      | b1 :: b2 :: b3 :: l4 =>
        if second4 b0 b1 && cont b2 && cont b3
        then ocons ((b0 - 0xF0) * 262144 + (b1 - 0x80) * 4096 + (b2 - 0x80) * 64 + (b3 - 0x80))
                   (from_utf8 l4)
        else None
      | _ => None
      end
    else None
  end.
