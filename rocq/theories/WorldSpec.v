(** The test database as a small machine on functions: which layout is shown, and for each occurrence the records found and the position among
    them, for each table the number of records and their values.  Only the file and the operations count. *)
From Coq Require Import NArith List Bool.
From Verif Require Import Prelude ComponentModel RelModel DbModel DbGenSpec DbSpec PastSpec.
Import ListNotations.
Local Open Scope N_scope.

Record world := mkWorld { shown : N; found : N -> list N; spot : N -> N; many : N -> N; value : N -> N -> N -> list N }.
Definition but {A} (g : N -> A) (i : N) (x : A) : N -> A := fun j => if j =? i then x else g j.

Section World.
Context (f : fmpfile).

(** Occurrences have the numbers up to the largest one; in the gaps are ones of table 0. *)
Definition occurs (i : N) : bool := i <=? max_key (keys (f_occurrences f)).
Definition base (i : N) : N := match nget (f_occurrences f) i with Some o => oc_table o | None => 0 end.
(** Of occurrences with one name the last counts. *)
Definition named (name : list N) : option N :=
  fold_left (fun acc e => if str_eqb (oc_name (snd e)) name then Some (fst e mod 65536) else acc) (f_occurrences f) None.
(** The columns of a table, unnamed ones in the gaps, and the first of a name. *)
Definition heading (t j : N) : list N :=
  match nget (f_tables f) t with Some tb => match nget (tb_fields tb) j with Some fl => fl_name fl | None => [] end | None => [] end.
Definition headings (t : N) : list (list N) := map (heading t) (map N.of_nat (seq 0 (N.to_nat (width f t)))).
Fixpoint place_of (field : list N) (names : list (list N)) : option N :=
  match names with [] => None | n :: names => if str_eqb n field then Some 0 else option_map (N.add 1) (place_of field names) end.

Definition beginning : world := mkWorld (min_key (keys (f_occurrences f)) mod 65536) (fun _ => []) (fun _ => 0) (fun _ => 0) (fun _ _ _ => []).

Definition at_spot (w : world) (p : N) : world := mkWorld (shown w) (found w) (but (spot w) (shown w) p) (many w) (value w).
Definition show (w : world) (rs : list N) (p : N) : world := mkWorld (shown w) (but (found w) (shown w) rs) (but (spot w) (shown w) p) (many w) (value w).
Definition write (w : world) (i : N) (field v : list N) : option world :=
  if occurs i then
    match nthN (found w i) (spot w i), place_of field (headings (base i)) with
    | Some r, Some j =>
      if r <? many w (base i)
      then Some (mkWorld (shown w) (found w) (spot w) (many w) (fun t k s => if (t =? base i) && (k =? j) && (s =? r) then v else value w t k s))
      else None
    | _, _ => None
    end
  else None.
Definition show_all (w : world) : option world :=
  if occurs (shown w) && (0 <? width f (base (shown w)))
  then Some (show w (map N.of_nat (seq 0 (N.to_nat (many w (base (shown w)))))) (spot w (shown w))) else None.
Definition go (w : world) (empty_too : bool) (p : N) : option world :=
  if occurs (shown w) && (empty_too || negb (lenN (found w (shown w)) =? 0)) then Some (at_spot w p) else None.

(** One operation; [None] where the program aborts. *)
Definition step (w : world) (o : op) : option world :=
  let t := base (shown w) in
  let last := lenN (found w (shown w)) - 1 in
  match o with
  | OCreate =>
    if occurs (shown w) && (0 <? width f t)
    then Some (mkWorld (shown w) (fun i => if base i =? t then found w i ++ [many w t] else found w i)
                 (fun i => if base i =? t then lenN (found w i) else spot w i) (but (many w) t (many w t + 1))
                 (fun u j r => if (u =? t) && (r =? many w t) then [] else value w u j r))
    else None
  | OWrite name field v => match named name with Some i => write w i field v | None => None end
  | OWriteHere field v => write w (shown w) field v
  | OFind [] | OShowAll => show_all w
  | OFind rs => if occurs (shown w) && (0 <? width f t) then Some (show w rs 0) else None
  | OGoto n => go w false (N.min n last)
  | OPrevious => go w true (spot w (shown w) - 1)
  | ONext => go w false (if spot w (shown w) <? last then spot w (shown w) + 1 else spot w (shown w))
  | OFirst => go w true 0
  | OLast => go w false last
  | OLayout h => Some (mkWorld h (found w) (spot w) (many w) (value w))
  | OClear => Some (mkWorld (shown w) (found w) (spot w) (fun _ => 0) (fun _ _ _ => []))
  end.
Fixpoint steps (w : world) (os : list op) : option world :=
  match os with [] => Some w | o :: os => match step w o with Some w' => steps w' os | None => None end end.

(** The database shows this world. *)
Definition represents (d : db) (w : world) : Prop :=
  d_handle d = shown w /\
  (forall i, nthN (d_occs d) i = if occurs i then Some (mkTocc (found w i) (base i) (spot w i) (flat_map (seen_from i) (vals (f_relationships f)))) else None) /\
  (forall name, sget (d_index d) name = named name) /\
  (forall t, match nthN (d_tables d) t with Some tb => field_names tb | None => [] end = headings t) /\
  (forall t j r, cell d (t, j, r) = if (j <? width f t) && (r <? many w t) then Some (value w t j r) else None).
End World.
