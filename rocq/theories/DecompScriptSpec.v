(** How script steps are stored. *)
From Coq Require Import Ascii String NArith List Bool Sorting.Sorted.
From Verif Require Import Prelude EncodingModel InstrModel ComponentModel.
Import ListNotations.
Local Open Scope N_scope.

(** The step meant by an opcode byte: the one declared with this number; 254 is the step declared as 255. *)
Definition step_number (b : N) (i : instruction) : Prop :=
  (b < 254 /\ discriminant i = b) \/ (b = 254 /\ discriminant i = 255).

(** A stored step: 28 bytes, the number of index bytes plus one at 0, the index from 2 on, the id of a called script
    at 8, the opcode at 21. [names] gives the script names. *)
Definition block_step (names : N -> option (list N)) (block : list N) (o : option step) : Prop :=
  exists n0 x ib rest op,
    block = [n0; x] ++ ib ++ rest /\ lenN block = 28 /\ n0 = lenN ib + 1 /\ nthN block 21 = Some op /\
    match o with
    | None => op < 254 /\ forall i, ~ step_number op i
    | Some st =>
      step_number op (opcode st) /\ step_index st = get_path_int ib /\
      if instr_eqb (opcode st) IPerformScript
      then exists k n, nthN block 8 = Some k /\ names k = Some n /\ switches st = [n]
      else switches st = []
    end.

(** The steps among the decoded blocks. *)
Definition present (os : list (option step)) : list step :=
  flat_map (fun o => match o with Some st => [st] | None => [] end) os.

(** The data that arrived last under an index. *)
Definition last_arrival (l : list (N * list N)) (i : N) : option (list N) :=
  match rev (filter (fun e => fst e =? i) l) with e :: _ => Some (snd e) | [] => None end.

Definition increasing (l : list N) : Prop := StronglySorted N.lt l.
