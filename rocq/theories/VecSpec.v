(** Which rules for memory are broken.  Independent of the model, except for its data. *)
From Coq Require Import NArith List.
From Verif Require Import Prelude VecModel.
Import ListNotations.
Local Open Scope N_scope.

Definition too_long (ss : list slip) : Prop := exists len cap, In (SlipLen len cap) ss.
Definition outside (ss : list slip) : Prop := exists from upto block, In (SlipOutside from upto block) ss.
Definition wrong_size (ss : list slip) : Prop := exists claimed block, In (SlipSize claimed block) ss.

(** Names in ASCII, and names of characters that take four bytes each. *)
Definition ascii (name : list N) : Prop := Forall (fun c => c < 128) name.
Definition wide (name : list N) : Prop := Forall (fun c => 65536 <= c) name.
