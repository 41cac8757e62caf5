(** Model of the memory behind [encode_text] of /repo/src/dbcharconv.rs and its callers in /repo/src/compile/assembler.rs.

    A [Vec] is its length, its capacity, and the block of memory it owns.  What the standard library leaves open, the growth of vectors, is taken as it is in
    the library (alloc/src/raw_vec.rs and alloc/src/vec/spec_from_iter_nested.rs): see [grow] and [collect_pairs].  Where a rule of the language for unsafe code is
    broken, which makes the behaviour undefined, the model notes which rule it was and goes on as if the memory was there. *)
From Coq Require Import NArith List Bool.
From Verif Require Import Prelude Utf8 CharConvModel ComponentModel.
Import ListNotations.
Local Open Scope N_scope.

(** The vectors of dbcharconv.rs:38-45.  [v_size]: bytes of an element; [v_len], [v_cap]: in elements; [v_block]: bytes of the block, 0 if there is none; [v_data]: the bytes written. *)
Record vec : Type := mkVec { v_size : N; v_len : N; v_cap : N; v_block : N; v_data : list N }.

(** The rules that dbcharconv.rs:42-45 and what is done with the result are under: [set_len] may not go beyond the capacity; no byte outside of the block may be written; a block is given back, or traded for a larger one, with the
    size it was asked for with. *)
Inductive slip : Type :=
| SlipLen (len cap : N)
| SlipOutside (from upto block : N)
| SlipSize (claimed block : N).

Definition held : Type := list slip * vec.
Definition and_hold (x : held) (k : vec -> held) : held := let (s, v) := x in let (s', v') := k v in (s ++ s', v').

(** [RawVec::MIN_NON_ZERO_CAP], for dbcharconv.rs:40. *)
Definition min_cap (size : N) : N := if size =? 1 then 8 else if size <=? 1024 then 4 else 1.
(** [Vec::new] and [Vec::with_capacity], for dbcharconv.rs:40. *)
Definition vec_new (size : N) : vec := mkVec size 0 0 0 [].
Definition with_capacity (size cap : N) : vec := mkVec size 0 cap (cap * size) [].
(** The size that is passed to the allocator along with the block (assembler.rs:167-173). *)
Definition claims (v : vec) : list slip := if v_cap v * v_size v =? v_block v then [] else [SlipSize (v_cap v * v_size v) (v_block v)].
(** [RawVec::grow_amortized], for dbcharconv.rs:40 and assembler.rs:169-171. *)
Definition grow (v : vec) (additional : N) : held :=
  let cap := N.max (min_cap (v_size v)) (N.max (2 * v_cap v) (v_len v + additional)) in
  (claims v, mkVec (v_size v) (v_len v) cap (cap * v_size v) (v_data v)).
(** [ptr::write] behind the last element, and the length (the same lines). *)
Definition write (bytes : list N) (v : vec) : held :=
  let from := v_len v * v_size v in
  let upto := from + v_size v in
  (if upto <=? v_block v then [] else [SlipOutside from upto (v_block v)], mkVec (v_size v) (v_len v + 1) (v_cap v) (v_block v) (v_data v ++ bytes)).
(** [Vec::push], assembler.rs:169-171. *)
Definition push (bytes : list N) (v : vec) : held := and_hold (if v_len v =? v_cap v then grow v 1 else ([], v)) (write bytes).
(** [Drop for Vec], at the end of assembler.rs:167-173, 208-209 and 249. *)
Definition drop (v : vec) : held := (claims v, vec_new (v_size v)).

(** [Chars::size_hint] of dbcharconv.rs:38, the lower bound, and one element of line 39. *)
Definition hint (text : list N) : N := (lenN (utf8 text) + 3) / 4.
Definition pair_bytes (c : N) : list N := let (h, l) := encode_char c in [h; l].
(** [Vec::extend_desugared], for dbcharconv.rs:40; [reserve] grows, as the capacity is used up. *)
Fixpoint extend (text : list N) (v : vec) : held :=
  match text with
  | [] => ([], v)
  | c :: text => and_hold (and_hold (if v_len v =? v_cap v then grow v (hint text + 1) else ([], v)) (write (pair_bytes c))) (extend text)
  end.
(** dbcharconv.rs:38-40: [text.chars().map(encode_char).collect::<Vec<(u8, u8)>>()], by [SpecFromIterNested::from_iter]. *)
Definition collect_pairs (text : list N) : held :=
  match text with
  | [] => ([], vec_new 2)
  | c :: text => and_hold (write (pair_bytes c) (with_capacity 2 (N.max (min_cap 2) (hint text + 1)))) (extend text)
  end.
(** dbcharconv.rs:43: [res.set_len(res.len() * 2)]. *)
Definition set_len (n : N) (v : vec) : held := (if n <=? v_cap v then [] else [SlipLen n (v_cap v)], mkVec (v_size v) n (v_cap v) (v_block v) (v_data v)).
(** dbcharconv.rs:44: [transmute] to [Vec<u8>]: pointer, length and capacity stay; it is assumed that the fields of a vector are laid out alike for both types. *)
Definition as_bytes (v : vec) : held := ([], mkVec 1 (v_len v) (v_cap v) (v_block v) (v_data v)).
(** dbcharconv.rs:37-47 [encode_text]. *)
Definition encode_vec (text : list N) : held := and_hold (and_hold (collect_pairs text) (fun v => set_len (v_len v * 2) v)) as_bytes.

(** assembler.rs:167-171: the name of a table, with three more bytes. *)
Definition table_vec (name : list N) : held := and_hold (and_hold (and_hold (encode_vec name) (push [0])) (push [0])) (push [0]).
(** assembler.rs:167-173, 208-209 and 249: the vector is dropped after it was written to the file. *)
Definition table_slips (name : list N) : list slip := fst (and_hold (table_vec name) drop).
Definition occurrence_slips (name : list N) : list slip := fst (and_hold (encode_vec (name ++ [0; 0])) drop).
Definition script_slips (name : list N) : list slip := fst (and_hold (encode_vec name) drop).
(** assembler.rs:166-174, 207-210 and 248-250: all names of a file, in the order in which they are encoded; of a file for which there is room. *)
Definition file_slips (f : fmpfile) : list slip :=
  flat_map (fun t => table_slips (tb_name (snd t))) (f_tables f) ++
  flat_map (fun o => occurrence_slips (oc_name (snd o))) (f_occurrences f) ++
  flat_map (fun s => script_slips (sc_name (snd s))) (f_scripts f).
