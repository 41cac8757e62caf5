(** Model of /repo/src/compile/assembler.rs. *)
From Coq Require Import Ascii String NArith List Bool.
From Verif Require Import Prelude Utf8 EncodingModel CharConvModel InstrModel ComponentModel HeaderModel.
Import ListNotations.
Local Open Scope N_scope.

(** src/compile/assembler.rs:8-13 [Assembler]. [local_idx] is only ever set to 0 and is left out;
    [file] is a parameter of the functions that read it. [println!] calls are left out. *)
Record asm := mkAsm { abuf : list N; aidx : N }.

(** [self.buffer[i] = b], as in assembler.rs:26, 43, 58, 96 and 135. *)
Definition poke (buf : list N) (i b : N) : outcome (list N) :=
  if i <? lenN buf then Ok (updateN buf i (fun _ => b)) else Panic.

(** [self.buffer.splice(a..b, new)], the returned iterator dropped at once: assembler.rs:287-310, and within [emit_bytes]. *)
Definition splice (buf : list N) (a b : N) (new : list N) : outcome (list N) :=
  if (a <=? b) && (b <=? lenN buf)
  then Ok (firstn (N.to_nat a) buf ++ new ++ skipn (N.to_nat b) buf)
  else Panic.

(** [self.buffer[self.idx] = b; self.idx += 1], as in assembler.rs:26, 43, 45, 58, 60, 68, 76, 83, 96, 102, 108, 111, 121 and 135. *)
Definition emit_byte (b : N) (s : asm) : outcome asm :=
  buf <- poke (abuf s) (aidx s) b ;; Ok (mkAsm buf (aidx s + 1)).

(** [self.buffer.splice(self.idx..self.idx+d.len(), d); self.idx += d.len()], as in assembler.rs:47, 66, 70, 81, 85, 104, 113 and 137. *)
Definition emit_bytes (d : list N) (s : asm) : outcome asm :=
  buf <- splice (abuf s) (aidx s) (aidx s + lenN d) d ;; Ok (mkAsm buf (aidx s + lenN d)).

(** [x as u8], as in assembler.rs:33, 45, 60, 68, 83, 102, 108, 111, 173 and 229. *)
Definition as_u8 (n : N) : N := n mod 256.

(** [u32::to_be_bytes], as in assembler.rs:182 and 291-310. *)
Definition to_be_bytes (n : N) : list N :=
  [(n / 2 ^ 24) mod 256; (n / 2 ^ 16) mod 256; (n / 2 ^ 8) mod 256; n mod 256].

(** src/compile/assembler.rs:25-28 [emit_noop]. *)
Definition emit_noop (s : asm) : outcome asm := emit_byte 0x80 s.

(** src/compile/assembler.rs:32-40 [calc_small_kv_ins]; the code after [return] is dead. *)
Definition calc_small_kv_ins (val : list N) : N :=
  let code := as_u8 ((lenN val + 1 + 1) / 2) in
  if 0x5 <? code then 0x6 else code.

(** src/compile/assembler.rs:42-49 [emit_simple_data_1b]. *)
Definition emit_simple_data_1b (d : list N) (s : asm) : outcome asm :=
  s <- emit_byte 0x1b s ;;
  s <- emit_byte (as_u8 (lenN d)) s ;;
  s <- emit_bytes d s ;;
  Ok (mkAsm (abuf s) (aidx s + 2 * (0x1b - 0x19))).

(** src/compile/assembler.rs:51-53 [emit_simple_data], empty body. *)
Definition emit_simple_data (d : list N) (s : asm) : outcome asm := Ok s.

(** src/compile/assembler.rs:55-72 [emit_long_kv]. *)
Definition emit_long_kv (key val : list N) (s : asm) : outcome asm :=
  s <- emit_byte 0x1e s ;;
  s <- emit_byte (as_u8 (lenN key)) s ;;
  s <- emit_bytes key s ;;
  s <- emit_byte (as_u8 (lenN val)) s ;;
  emit_bytes val s.

(** src/compile/assembler.rs:74-87 [emit_simple_kv_e]. *)
Definition emit_simple_kv_e (key : N) (val : list N) (s : asm) : outcome asm :=
  s <- emit_byte 0x0e s ;;
  s <- emit_bytes (put_path_int key) s ;;
  s <- emit_byte (as_u8 (lenN val)) s ;;
  emit_bytes val s.

(** src/compile/assembler.rs:89-118 [emit_simple_kv]. *)
Definition emit_simple_kv (key : N) (val : list N) (s : asm) : outcome asm :=
  let ins := if key =? 16 then 0x6 else if key =? 216 then 0x6 else calc_small_kv_ins val in
  s <- emit_byte ins s ;;
  if (0x01 <=? ins) && (ins <=? 0x05) then
    s <- emit_byte key s ;;
    emit_bytes val s
  else if ins =? 0x6 then
    s <- emit_byte key s ;;
    s <- emit_byte (as_u8 (lenN val)) s ;;
    emit_bytes val s
  else Ok s.

(** src/compile/assembler.rs:120-123 [pop_directory]. *)
Definition pop_directory (s : asm) : outcome asm := emit_byte 0x40 s.

(** src/compile/assembler.rs:125-140 [push_directory]. *)
Definition push_directory (dir : N) (s : asm) : outcome asm :=
  let d := put_path_int dir in
  let ins := if lenN d =? 1 then 0x20 else if lenN d =? 2 then 0x28 else 0x48 in
  s <- emit_byte ins s ;;
  s <- emit_bytes d s ;;
  emit_noop s.

(** src/compile/assembler.rs:142-146 [append_blank_chunk]. *)
Definition append_blank_chunk (s : asm) : outcome asm :=
  let buf := abuf s ++ repeat 0 (N.to_nat 4096) in
  idx <- subU (lenN buf) 4095 ;;
  Ok (mkAsm buf idx).

(** src/compile/assembler.rs:150, the bytes written under key 3. *)
Definition blob_3 : list N :=
  [120; 104; 106; 116; 107; 120].

(** src/compile/assembler.rs:151, the bytes written under key 5. *)
Definition blob_5 : list N :=
  [4; 184].

(** src/compile/assembler.rs:152, the bytes written under key 6. *)
Definition blob_6 : list N :=
  [1; 10; 4; 179; 4; 115; 8; 179; 0; 19; 0; 0; 3; 124; 4; 0; 18; 5; 66; 128; 2; 0; 0; 0; 0; 66; 144; 0; 0; 0;
   8; 2; 0; 0; 0; 15; 0; 0; 0; 0; 0; 0; 0; 0; 0; 1].

(** src/compile/assembler.rs:153, the bytes written under key 8. *)
Definition blob_8 : list N :=
  [78; 152; 78; 152; 78; 152; 0; 0; 0; 0; 0; 0; 0; 0; 0; 0; 0; 0; 0; 0; 0; 0; 0; 0; 0; 0; 0; 0; 0; 0;
   0; 0; 0; 0; 0; 0; 0; 0; 0; 0; 0; 0; 23; 10; 10; 40; 53; 122; 104; 106; 116; 107; 116; 104; 0; 0; 0; 0; 0; 0;
   0; 0; 0; 0; 0; 0; 0; 0; 0; 0; 0; 0; 0; 0; 0; 0; 0; 0; 0; 0; 0; 0; 0; 0; 0; 0; 0; 0; 0; 0;
   0; 0; 0; 0; 0; 0; 0; 0; 0; 0; 0; 0; 0; 0; 0; 0; 0; 0; 0; 0; 0; 0; 0; 0; 0; 0; 0; 0; 0; 0;
   0; 0; 0; 0; 0; 0; 0; 0; 0; 1; 0; 0; 0; 2; 8; 107; 122; 107; 110; 116; 107; 116; 107; 0; 0; 0; 21; 6; 107; 122;
   107; 110; 116; 111; 0; 0; 0; 0; 0; 0; 0; 0; 0; 0; 0; 0; 0; 0; 0; 0; 0; 0; 0; 0; 0; 0; 0; 0; 0; 0;
   0; 0; 0; 0; 0; 0; 0; 0; 0; 0; 0; 0; 0; 0; 0; 0; 0; 0; 0; 0; 0; 0; 0; 0; 0; 0; 0; 0; 0; 0;
   0; 0; 0; 0; 0; 0; 0; 0; 0; 0; 0; 0; 0; 0].

(** src/compile/assembler.rs:154, the bytes written under key 9. *)
Definition blob_9 : list N :=
  [0; 0; 0; 0; 11; 251; 83; 44; 0; 0; 0; 0; 11; 251; 83; 44; 0; 0; 0; 0; 11; 251; 83; 44; 0; 0; 0; 0; 0; 0;
   0; 0; 0; 0; 0; 0; 23; 9; 104; 106; 107; 106; 104; 106; 104; 106; 110; 0; 0; 0; 0; 0; 0; 0; 0; 0; 0; 0; 0; 0;
   0; 0; 0; 0; 0; 0; 0; 0; 0; 0; 0; 0; 0; 0; 0; 0; 0; 0; 0; 0; 0; 0; 0; 0; 0; 0; 0; 0; 0; 0;
   0; 0; 0; 0; 0; 0; 0; 0; 0; 0; 0; 0; 0; 0; 0; 0; 0; 0; 0; 0; 0; 0; 0; 0; 0; 0; 0; 0; 0; 0;
   0; 0].

(** src/compile/assembler.rs:155, the bytes written under key 11. *)
Definition blob_11 : list N :=
  [0; 8; 7; 60; 51; 54; 63; 55; 59; 57; 98; 65; 50; 218; 23; 59; 57; 51; 52; 46; 53; 41; 50; 122; 18; 30; 218; 27; 42; 42;
   54; 51; 57; 59; 46; 51; 53; 52; 41; 218; 28; 51; 54; 63; 23; 59; 49; 63; 40; 122; 10; 40; 53; 116; 59; 42; 42; 218; 25; 53;
   52; 46; 63; 52; 46; 41; 218; 8; 63; 41; 53; 47; 40; 57; 63; 41; 218; 19; 52; 41; 46; 59; 54; 54; 63; 40; 218; 31; 34; 46;
   63; 52; 41; 51; 53; 52; 41; 218; 30; 51; 57; 46; 51; 53; 52; 59; 40; 51; 63; 41; 218; 12; 47; 49; 63; 52; 61; 54; 41; 50;
   116; 55; 42; 40; 7; 60; 51; 54; 63; 55; 59; 57; 90; 65; 50; 218; 23; 59; 57; 51; 52; 46; 53; 41; 50; 122; 18; 30; 218; 15;
   41; 63; 40; 41; 218; 55; 63; 40; 51; 55; 59; 49; 218; 22; 51; 56; 40; 59; 40; 35; 218; 27; 42; 42; 54; 51; 57; 59; 46; 51;
   53; 52; 122; 9; 47; 42; 42; 53; 40; 46; 218; 28; 51; 54; 63; 23; 59; 49; 63; 40; 218; 31; 34; 46; 63; 52; 41; 51; 53; 52;
   41; 218; 30; 51; 57; 46; 51; 53; 52; 59; 40; 51; 63; 41; 218; 8; 15; 41; 63; 40; 116; 47; 42; 40].

(** src/compile/assembler.rs:156, the bytes written under key 24. *)
Definition blob_24 : list N :=
  [0; 0; 4; 3; 1; 1; 0; 0; 2; 1; 2; 0; 1; 0; 0; 0; 1; 0; 0; 2; 0; 0; 0; 0; 0; 0; 0; 0; 0; 100;
   0; 1; 0; 0].

(** src/compile/assembler.rs:148-158 [emit_init_blobs]. *)
Definition emit_init_blobs (s : asm) : outcome asm :=
  s <- push_directory 2 s ;;
  s <- emit_simple_kv 3 blob_3 s ;;
  s <- emit_simple_kv 5 blob_5 s ;;
  s <- emit_simple_kv 6 blob_6 s ;;
  s <- emit_simple_kv 8 blob_8 s ;;
  s <- emit_simple_kv 9 blob_9 s ;;
  s <- emit_simple_kv 11 blob_11 s ;;
  s <- emit_simple_kv 24 blob_24 s ;;
  pop_directory s.

(** A [for] loop over a map, in the order of the list: assembler.rs:167, 179, 192, 207, 214 and 248. *)
Fixpoint for_each {A} (l : list A) (body : A -> asm -> outcome asm) (s : asm) : outcome asm :=
  match l with
  | [] => Ok s
  | x :: l' => s <- body x s ;; for_each l' body s
  end.

(** assembler.rs:193: [128 + x as u32] with the overflow check of the debug profile. *)
Definition add_128_u32 (x : N) : outcome N :=
  let y := 128 + x mod 2 ^ 32 in
  if y <? 2 ^ 32 then Ok y else Panic.

(** src/compile/assembler.rs:161-199 [emit_table_metadata]. [put_int] runs in the debug profile. *)
Definition emit_table_metadata (file : fmpfile) (s : asm) : outcome asm :=
  s <- push_directory 3 s ;;
  s <- push_directory 16 s ;;
  s <- push_directory 1 s ;;
  s <- push_directory 1 s ;;
  s <- for_each (f_tables file) (fun t s =>
         emit_long_kv (encode_text (tb_name (snd t)) ++ [0] ++ [0] ++ [0]) [2; 128; as_u8 (fst t)] s) s ;;
  s <- pop_directory s ;;
  s <- push_directory 3 s ;;
  s <- for_each (f_tables file) (fun t s =>
         key <- put_int Debug (fst t) ;;
         emit_long_kv key (to_be_bytes (fst t mod 2 ^ 32)) s) s ;;
  s <- pop_directory s ;;
  n <- put_int Debug (lenN (f_tables file)) ;;
  s <- emit_simple_kv 4 n s ;;
  s <- emit_simple_kv 216 (fm_string_encrypt (lit "hello")) s ;;
  s <- emit_simple_kv_e 129 [59; 62; 55; 51; 52] s ;;
  s <- emit_simple_kv_e 130 [59; 62; 55; 51; 52] s ;;
  s <- push_directory 5 s ;;
  s <- for_each (f_tables file) (fun t s =>
         d <- add_128_u32 (fst t) ;;
         s <- push_directory d s ;;
         pop_directory s) s ;;
  s <- pop_directory s ;;
  s <- pop_directory s ;;
  pop_directory s.

(** src/compile/assembler.rs:201-224 [emit_relationship_data]. *)
Definition emit_relationship_data (file : fmpfile) (s : asm) : outcome asm :=
  s <- push_directory 17 s ;;
  s <- push_directory 1 s ;;
  s <- emit_simple_kv 0 [3; 208; 0; 9] s ;;
  s <- push_directory 1 s ;;
  s <- for_each (f_occurrences file) (fun t s =>
         emit_simple_data_1b (encode_text (oc_name (snd t) ++ [0; 0])) s) s ;;
  s <- pop_directory s ;;
  s <- push_directory 3 s ;;
  s <- for_each (f_occurrences file) (fun t s =>
         d <- put_int Debug (fst t) ;;
         emit_simple_data_1b d s) s ;;
  s <- pop_directory s ;;
  s <- push_directory 8 s ;;
  s <- pop_directory s ;;
  s <- pop_directory s ;;
  s <- pop_directory s ;;
  pop_directory s.

(** src/compile/assembler.rs:226-234 [emit_layout_data]. *)
Definition emit_layout_data (file : fmpfile) (s : asm) : outcome asm :=
  s <- push_directory 4 s ;;
  s <- push_directory 1 s ;;
  s <- emit_simple_kv 0 [1; as_u8 (lenN (f_layouts file))] s ;;
  s <- push_directory 5 s ;;
  s <- pop_directory s ;;
  s <- pop_directory s ;;
  pop_directory s.

(** src/compile/assembler.rs:236-239 [emit_theme_data]. *)
Definition emit_theme_data (s : asm) : outcome asm :=
  s <- push_directory 6 s ;; pop_directory s.

(** src/compile/assembler.rs:241-254 [emit_script_data]. *)
Definition emit_script_data (file : fmpfile) (s : asm) : outcome asm :=
  s <- push_directory 17 s ;;
  s <- push_directory 1 s ;;
  s <- emit_simple_kv 0 [1; as_u8 (lenN (f_scripts file))] s ;;
  s <- push_directory 1 s ;;
  s <- for_each (f_scripts file) (fun t s => emit_simple_data (encode_text (sc_name (snd t))) s) s ;;
  s <- pop_directory s ;;
  s <- pop_directory s ;;
  pop_directory s.

(** src/compile/assembler.rs:256-260 [emit_security_data]. *)
Definition emit_security_data (s : asm) : outcome asm :=
  s <- push_directory 23 s ;; pop_directory s.

(** src/compile/assembler.rs:267-270 [emit_font_data]. *)
Definition emit_font_data (s : asm) : outcome asm :=
  s <- push_directory 25 s ;; pop_directory s.

(** src/compile/assembler.rs:272-275 [emit_toolbar_data]. *)
Definition emit_toolbar_data (s : asm) : outcome asm :=
  s <- push_directory 65 s ;; pop_directory s.

(** src/compile/assembler.rs:289 and similar: [splice((idx+8)..(idx+12), n.to_be_bytes())]. *)
Definition set_next (n : N) (s : asm) : outcome asm :=
  buf <- splice (abuf s) (aidx s + 8) (aidx s + 12) (to_be_bytes n) ;;
  Ok (mkAsm buf (aidx s)).

Definition skip (n : N) (s : asm) : outcome asm := Ok (mkAsm (abuf s) (aidx s + n)).

(** src/compile/assembler.rs:282-311 [assemble_fmp12], from the state of [new] (16-23).
    [main.rs] passes the same file to [new] and here. *)
Definition assemble_fmp12 (file : fmpfile) : outcome asm :=
  let buf := HEADER_INIT in
  let name_header := utf8 (f_name file ++ lit "/") in
  buf <- splice buf 3082 (3082 + lenN name_header) name_header ;;
  s <- append_blank_chunk (mkAsm buf 0) ;;
  s <- set_next 4 s ;;
  s <- append_blank_chunk s ;;
  s <- set_next 3 s ;;
  s <- skip 20 s ;;
  s <- emit_noop s ;;
  s <- emit_init_blobs s ;;
  s <- emit_table_metadata file s ;;
  s <- emit_relationship_data file s ;;
  s <- emit_layout_data file s ;;
  s <- emit_theme_data s ;;
  s <- emit_script_data file s ;;
  s <- emit_security_data s ;;
  s <- emit_theme_data s ;;
  s <- emit_font_data s ;;
  s <- emit_toolbar_data s ;;
  s <- append_blank_chunk s ;;
  s <- set_next 4 s ;;
  s <- skip 20 s ;;
  s <- append_blank_chunk s ;;
  set_next 0 s.

(** src/compile/assembler.rs:313-315 [emit_assembly] writes [buffer] to the file. *)
Definition assemble (file : fmpfile) : outcome (list N) :=
  s <- assemble_fmp12 file ;; Ok (abuf s).
