(** Model of /repo/src/encoding_util.rs. *)
From Coq Require Import Ascii String NArith List Bool.
From Verif Require Import Prelude Utf8.
Import ListNotations.
Local Open Scope N_scope.

(** src/encoding_util.rs:3-9 [get_path_int]. [0x7f << 8] binds tighter than [&]. No simplification. *)
Definition get_path_int (bs : list N) : N :=
  match bs with
  | [b0] => b0
  | [b0; b1] => 0x80 + N.land b0 (N.shiftl 0x7f 8) + b1
  | _ => 0
  end.

(** src/encoding_util.rs:11-21 [put_path_int]. [as u8] of values already masked to 8 bits is the identity. *)
Definition put_path_int (n : N) : list N :=
  if 128 <=? n then
    let x := n - 128 in
    let b1 := N.lor (N.land (N.shiftr x 8) 0x7f) 0x80 in
    let b2 := N.land x 0xFF in
    let b1 := N.lor b1 0x7c in
    [b1; b2]
  else [n].

(** src/encoding_util.rs:23-30 [get_int]. The recursion on two halves of a four byte slice is unfolded. *)
Definition get_int2 (b0 b1 : N) : N := N.shiftl b0 8 + b1.
Definition get_int (bs : list N) : N :=
  match bs with
  | [b0] => b0
  | [b0; b1] => get_int2 b0 b1
  | [b0; b1; b2; b3] => N.shiftl (get_int2 b0 b1) 16 + get_int2 b2 b3
  | _ => 0
  end.

(** Build profile, which decides how the arithmetic of encoding_util.rs:3-42 overflows: overflow checks on (debug) or off (release). *)
Inductive profile := Debug | Release.

(** src/encoding_util.rs:32-42 [put_int], the [while] loop.
    [idx] is a [usize]; [idx -= 1] at 0 panics in the debug profile and wraps to 2^64-1 in release,
    where the next [res[idx]] is out of bounds. [fuel] bounds the number of iterations; a [usize]
    has at most eight base 256 digits, so [put_int] passes 9. *)
Fixpoint put_int_loop (p : profile) (fuel : nat) (res : list N) (idx n : N) : outcome (list N) :=
  match fuel with
  | O => NoFuel
  | S fuel' =>
    if n =? 0 then Ok res
    else
      if idx <? lenN res then
        let res' := updateN res idx (fun _ => n mod 256) in
        match p with
        | Debug => idx' <- subU idx 1 ;; put_int_loop p fuel' res' idx' (n / 256)
        | Release => put_int_loop p fuel' res' (if idx =? 0 then 2 ^ 64 - 1 else idx - 1) (n / 256)
        end
      else Panic
  end.
Definition put_int (p : profile) (n : N) : outcome (list N) :=
  put_int_loop p 9 [0; 0; 0; 0] 3 n.

(** src/encoding_util.rs:44-50 [fm_string_encrypt]. *)
Definition fm_string_encrypt (text : list N) : list N :=
  map (fun c => N.lxor c 0x5A) (utf8 text).

(** src/encoding_util.rs:52-60 [fm_string_decrypt]. *)
Definition fm_string_decrypt (bs : list N) : list N :=
  match from_utf8 (map (fun c => N.lxor c 0x5A) bs) with
  | Some v => v
  | None => lit "value not utf-8."
  end.
