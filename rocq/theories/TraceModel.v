(** Model of the lines the assembler prints: /repo/src/compile/assembler.rs, once more with its [println!] calls.

    A line is what it is about; the wording is left out.  Each function follows the one of the same name in AsmModel.v. *)
From Coq Require Import Ascii String NArith List Bool.
From Verif Require Import Prelude Utf8 EncodingModel CharConvModel InstrModel ComponentModel HeaderModel AsmModel.
Import ListNotations.
Local Open Scope N_scope.

(** Lines 80, 109, 133 and 181 of assembler.rs. *)
Inductive note :=
| NKey (bytes : list N)                               (* Pushing the bytes of a key *)
| NValue (ins key : N) (val : list N) (len : N)       (* Ins, key, value, length *)
| NDirectory (ins : N) (bytes : list N)               (* Ins, dir *)
| NTable (bytes : list N).                            (* pushing the number of a table *)

(** What the [println!] calls of assembler.rs:80, 109, 133 and 181 print, also before a panic, and the result. *)
Definition noted (A : Type) : Type := list note * outcome A.
Definition still {A} (x : outcome A) : noted A := ([], x).
Definition notes (l : list note) : noted unit := (l, Ok tt).
Definition and_note {A B} (x : noted A) (k : A -> noted B) : noted B :=
  match snd x with
  | Ok a => let r := k a in (fst x ++ fst r, snd r)
  | Panic => (fst x, Panic)
  | NoFuel => (fst x, NoFuel)
  end.
Local Notation "'let!' x := a 'in' b" := (and_note a (fun x => b)) (at level 200, x pattern, a at level 100, b at level 200).

(** src/compile/assembler.rs:74-87; line 80 prints after the opcode is written. *)
Definition kv_e_noted (key : N) (val : list N) (s : asm) : noted asm :=
  let! s := still (emit_byte 0x0e s) in
  let! _ := notes [NKey (put_path_int key)] in
  let! s := still (emit_bytes (put_path_int key) s) in
  let! s := still (emit_byte (as_u8 (lenN val)) s) in
  still (emit_bytes val s).

(** src/compile/assembler.rs:89-118; line 109 prints after the key is written. *)
Definition kv_noted (key : N) (val : list N) (s : asm) : noted asm :=
  let ins := if key =? 16 then 0x6 else if key =? 216 then 0x6 else calc_small_kv_ins val in
  let! s := still (emit_byte ins s) in
  if (0x01 <=? ins) && (ins <=? 0x05) then
    let! s := still (emit_byte key s) in
    still (emit_bytes val s)
  else if ins =? 0x6 then
    let! s := still (emit_byte key s) in
    let! _ := notes [NValue ins key val (as_u8 (lenN val))] in
    let! s := still (emit_byte (as_u8 (lenN val)) s) in
    still (emit_bytes val s)
  else still (Ok s).

(** src/compile/assembler.rs:125-140; line 133 prints before anything is written. *)
Definition push_noted (dir : N) (s : asm) : noted asm :=
  let d := put_path_int dir in
  let ins := if lenN d =? 1 then 0x20 else if lenN d =? 2 then 0x28 else 0x48 in
  let! _ := notes [NDirectory ins d] in
  let! s := still (emit_byte ins s) in
  let! s := still (emit_bytes d s) in
  still (emit_noop s).
Definition pop_noted (s : asm) : noted asm := still (pop_directory s).

(** src/compile/assembler.rs:148-158. *)
Definition init_blobs_noted (s : asm) : noted asm :=
  let! s := push_noted 2 s in
  let! s := kv_noted 3 blob_3 s in
  let! s := kv_noted 5 blob_5 s in
  let! s := kv_noted 6 blob_6 s in
  let! s := kv_noted 8 blob_8 s in
  let! s := kv_noted 9 blob_9 s in
  let! s := kv_noted 11 blob_11 s in
  let! s := kv_noted 24 blob_24 s in
  pop_noted s.

(** A [for] loop: assembler.rs:167, 179, 192, 207, 214 and 248. *)
Fixpoint each_noted {A} (l : list A) (body : A -> asm -> noted asm) (s : asm) : noted asm :=
  match l with
  | [] => still (Ok s)
  | x :: l' => let! s := body x s in each_noted l' body s
  end.

(** src/compile/assembler.rs:161-199; line 181 prints after [put_int]. *)
Definition table_metadata_noted (file : fmpfile) (s : asm) : noted asm :=
  let! s := push_noted 3 s in
  let! s := push_noted 16 s in
  let! s := push_noted 1 s in
  let! s := push_noted 1 s in
  let! s := each_noted (f_tables file) (fun t s =>
         still (emit_long_kv (encode_text (tb_name (snd t)) ++ [0] ++ [0] ++ [0]) [2; 128; as_u8 (fst t)] s)) s in
  let! s := pop_noted s in
  let! s := push_noted 3 s in
  let! s := each_noted (f_tables file) (fun t s =>
         let! key := still (put_int Debug (fst t)) in
         let! _ := notes [NTable (to_be_bytes (fst t mod 2 ^ 32))] in
         still (emit_long_kv key (to_be_bytes (fst t mod 2 ^ 32)) s)) s in
  let! s := pop_noted s in
  let! n := still (put_int Debug (lenN (f_tables file))) in
  let! s := kv_noted 4 n s in
  let! s := kv_noted 216 (fm_string_encrypt (lit "hello")) s in
  let! s := kv_e_noted 129 [59; 62; 55; 51; 52] s in
  let! s := kv_e_noted 130 [59; 62; 55; 51; 52] s in
  let! s := push_noted 5 s in
  let! s := each_noted (f_tables file) (fun t s =>
         let! d := still (add_128_u32 (fst t)) in
         let! s := push_noted d s in
         pop_noted s) s in
  let! s := pop_noted s in
  let! s := pop_noted s in
  pop_noted s.

(** src/compile/assembler.rs:201-224. *)
Definition relationship_data_noted (file : fmpfile) (s : asm) : noted asm :=
  let! s := push_noted 17 s in
  let! s := push_noted 1 s in
  let! s := kv_noted 0 [3; 208; 0; 9] s in
  let! s := push_noted 1 s in
  let! s := each_noted (f_occurrences file) (fun t s =>
         still (emit_simple_data_1b (encode_text (oc_name (snd t) ++ [0; 0])) s)) s in
  let! s := pop_noted s in
  let! s := push_noted 3 s in
  let! s := each_noted (f_occurrences file) (fun t s =>
         let! d := still (put_int Debug (fst t)) in
         still (emit_simple_data_1b d s)) s in
  let! s := pop_noted s in
  let! s := push_noted 8 s in
  let! s := pop_noted s in
  let! s := pop_noted s in
  let! s := pop_noted s in
  pop_noted s.

(** src/compile/assembler.rs:226-234. *)
Definition layout_data_noted (file : fmpfile) (s : asm) : noted asm :=
  let! s := push_noted 4 s in
  let! s := push_noted 1 s in
  let! s := kv_noted 0 [1; as_u8 (lenN (f_layouts file))] s in
  let! s := push_noted 5 s in
  let! s := pop_noted s in
  let! s := pop_noted s in
  pop_noted s.

(** src/compile/assembler.rs:236-239, 256-260, 267-270 and 272-275: one directory without contents. *)
Definition empty_noted (dir : N) (s : asm) : noted asm :=
  let! s := push_noted dir s in pop_noted s.

(** src/compile/assembler.rs:241-254. *)
Definition script_data_noted (file : fmpfile) (s : asm) : noted asm :=
  let! s := push_noted 17 s in
  let! s := push_noted 1 s in
  let! s := kv_noted 0 [1; as_u8 (lenN (f_scripts file))] s in
  let! s := push_noted 1 s in
  let! s := each_noted (f_scripts file) (fun t s => still (emit_simple_data (encode_text (sc_name (snd t))) s)) s in
  let! s := pop_noted s in
  let! s := pop_noted s in
  pop_noted s.

(** src/compile/assembler.rs:282-311 and 313-315. *)
Definition assemble_noted (file : fmpfile) : noted (list N) :=
  let buf := HEADER_INIT in
  let name_header := utf8 (f_name file ++ lit "/") in
  let! buf := still (splice buf 3082 (3082 + lenN name_header) name_header) in
  let! s := still (append_blank_chunk (mkAsm buf 0)) in
  let! s := still (set_next 4 s) in
  let! s := still (append_blank_chunk s) in
  let! s := still (set_next 3 s) in
  let! s := still (skip 20 s) in
  let! s := still (emit_noop s) in
  let! s := init_blobs_noted s in
  let! s := table_metadata_noted file s in
  let! s := relationship_data_noted file s in
  let! s := layout_data_noted file s in
  let! s := empty_noted 6 s in
  let! s := script_data_noted file s in
  let! s := empty_noted 23 s in
  let! s := empty_noted 6 s in
  let! s := empty_noted 25 s in
  let! s := empty_noted 65 s in
  let! s := still (append_blank_chunk s) in
  let! s := still (set_next 4 s) in
  let! s := still (skip 20 s) in
  let! s := still (append_blank_chunk s) in
  let! s := still (set_next 0 s) in
  still (Ok (abuf s)).
