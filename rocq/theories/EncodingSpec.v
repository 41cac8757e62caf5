(** Independent specification vocabulary for the integer and text encodings. *)
From Coq Require Import NArith List.
From Verif Require Import Prelude Utf8.
Import ListNotations.
Local Open Scope N_scope.

(** Positional value of base 256 digits, most significant first. *)
Definition be_value (bs : list N) : N := fold_left (fun a b => a * 256 + b) bs 0.

(** Valid machine values. *)
Definition u32 (n : N) : Prop := n < 2 ^ 32.
Definition usize (n : N) : Prop := n < 2 ^ 64.
