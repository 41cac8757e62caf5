(** C08-C12: the chunk reader. *)
From Coq Require Import NArith List Bool Lia.
From Verif Require Import Prelude PreludeFacts ChunkModel ChunkSpec ChunkFacts ChunkProofs ChunkLemmas ChunkMain.
Import ListNotations.
Local Open Scope N_scope.

(** C12: the reader agrees with the opcode table [ChunkSpec.layout_of] on every input. *)
Theorem chunk_reader_table : forall code pos path local,
  bytes code -> 2 <= lenN code ->
  get_chunk code pos path local =
  match (if pos <=? lenN code then spec_read (skipn (N.to_nat pos) code) else STruncated) with
  | STruncated => Panic
  | SBadOpcode => if local <? pos then Ok (RErr tt) else Panic
  | SRead c r late =>
    let path' := apply_dir (rdir r) late path in
    Ok (ROk (mkChunk (kind_type (rkind r)) c (rdata r) (rref r) path' (rseg r) (rkey r), pos + rused r, path'))
  end.
Proof. exact chunk_table. Qed.
Print Assumptions chunk_reader_table.
Example chunk_reader_table_ex :
  get_chunk [0x80; 0xC6; 16; 2; 7; 8; 9] 1 [3; 4] 0 =
  Ok (ROk (mkChunk RefSimple 6 (Some [7; 8]) None [3] None (Some 16), 6, [3])).
Proof. vm_compute. reflexivity. Qed.

(** C12: the opcodes outside the table are exactly the rejected ones. *)
Theorem chunk_unknown_opcode : forall code pos path local b,
  bytes code -> 2 <= lenN code -> local < pos -> nthN code pos = Some b ->
  (get_chunk code pos path local = Ok (RErr tt) <-> ~ In (fst (split_opcode b)) known).
Proof. exact chunk_unknown. Qed.
Print Assumptions chunk_unknown_opcode.
Example chunk_unknown_opcode_ex : get_chunk [0; 0x18; 0] 1 [] 0 = Ok (RErr tt) /\ ~ In 0x18 known /\ In 0x17 known.
Proof. split; [reflexivity|split]; [|vm_compute; tauto]. vm_compute. intuition discriminate. Qed.

(** C08 *)
Theorem chunk_progress_iff : forall code pos path local ch pos' path',
  bytes code -> 2 <= lenN code ->
  get_chunk code pos path local = Ok (ROk (ch, pos', path')) ->
  pos <= pos' /\
  (pos' = pos <-> (nthN code pos = Some 0x0F \/ nthN code pos = Some 0xCF) /\ nthN code (pos + 1) <> Some 0x80).
Proof. exact chunk_progress. Qed.
Print Assumptions chunk_progress_iff.
Example chunk_progress_iff_ex :
  get_chunk [0x80; 0x0F; 0x81] 1 [5] 0 = Ok (ROk (mkChunk Noop 0x0F None None [5] None None, 1, [5])).
Proof. reflexivity. Qed.

(** C08: the naive claim is false. *)
Theorem chunk_progress_refuted : exists code pos path local ch pos' path',
  bytes code /\ 2 <= lenN code /\ get_chunk code pos path local = Ok (ROk (ch, pos', path')) /\ ~ (pos < pos').
Proof.
  exists [0x0F; 0], 0, [], 0, (mkChunk Noop 0x0F None None [] None None), 0, [].
  split; [repeat constructor|]. split; [vm_compute; discriminate|]. split; [reflexivity|]. lia.
Qed.
Print Assumptions chunk_progress_refuted.

(** C09 *)
Theorem chunk_payload_inside : forall code pos path local ch pos' path',
  bytes code -> 2 <= lenN code ->
  get_chunk code pos path local = Ok (ROk (ch, pos', path')) ->
  (forall d, cdata ch = Some d -> exists x z,
     code = x ++ d ++ z /\ pos < lenN x /\ (ccode ch <> 0x38 -> lenN x + lenN d <= pos')) /\
  (forall d, cref_data ch = Some d -> exists x z,
     code = x ++ d ++ z /\ pos < lenN x /\ (ccode ch <> 0x1F -> lenN x + lenN d <= pos')) /\
  (~ In (ccode ch) [0x00; 0x19; 0x1A; 0x1B; 0x1C; 0x1D; 0x38] -> pos' <= lenN code).
Proof. exact chunk_inside. Qed.
Print Assumptions chunk_payload_inside.
Example chunk_payload_inside_ex :
  get_chunk [0x80; 0x1E; 2; 7; 8; 1; 9; 0x40] 1 [] 0 =
  Ok (ROk (mkChunk RefLong 0x1E (Some [9]) (Some [7; 8]) [] None None, 7, [])).
Proof. reflexivity. Qed.

(** C09: the listed opcodes can leave the position outside the buffer. *)
Theorem chunk_position_outside_refuted :
  Forall (fun c => exists code pos ch pos' path',
            bytes code /\ 2 <= lenN code /\ get_chunk code pos [] 0 = Ok (ROk (ch, pos', path')) /\
            ccode ch = c /\ lenN code < pos')
         [0x00; 0x19; 0x1A; 0x1B; 0x1C; 0x1D; 0x38].
Proof. exact chunk_outside. Qed.
Print Assumptions chunk_position_outside_refuted.

(** C10 *)
Theorem chunk_path_effect : forall code pos path local ch pos' path' b,
  bytes code -> 2 <= lenN code -> nthN code pos = Some b ->
  get_chunk code pos path local = Ok (ROk (ch, pos', path')) ->
  cpath ch = path' /\
  match ctype ch with
  | PathPush => if 0xC0 <=? b then path' = path else exists n, n < 384 /\ path' = path ++ [n]
  | PathPop => path' = if 0xC0 <=? b then removelast (removelast path) else removelast path
  | _ => path' = if 0xC0 <=? b then removelast path else path
  end.
Proof. exact chunk_path. Qed.
Print Assumptions chunk_path_effect.
Example chunk_path_effect_ex :
  get_chunk [0x28; 1; 2; 0] 0 [6] 0 = Ok (ROk (mkChunk PathPush 0x28 (Some [1; 2]) None [6; 130] None None, 3, [6; 130])).
Proof. reflexivity. Qed.

(** C10: one chunk can leave two directories. *)
Theorem chunk_single_step_refuted : exists code pos path ch pos' path',
  bytes code /\ 2 <= lenN code /\ get_chunk code pos path 0 = Ok (ROk (ch, pos', path')) /\
  lenN path' + 1 < lenN path.
Proof.
  exists [0xFD; 0], 0, [1; 2; 3], (mkChunk PathPop 0x3D None None [1] None None), 1, [1].
  split; [repeat constructor|]. split; [vm_compute; discriminate|]. split; [reflexivity|]. reflexivity.
Qed.
Print Assumptions chunk_single_step_refuted.

(** C11 *)
Theorem chunk_local : forall pre suf path local ch pos' path' pre2 ext local2,
  bytes pre -> bytes suf -> bytes pre2 -> bytes ext ->
  2 <= lenN (pre ++ suf) -> 2 <= lenN (pre2 ++ suf ++ ext) ->
  get_chunk (pre ++ suf) (lenN pre) path local = Ok (ROk (ch, pos', path')) ->
  get_chunk (pre2 ++ suf ++ ext) (lenN pre2) path local2 =
    Ok (ROk (ch, lenN pre2 + (pos' - lenN pre), path')).
Proof. exact chunk_locality. Qed.
Print Assumptions chunk_local.
Example chunk_local_ex :
  get_chunk ([1; 2; 3] ++ [0x08; 5; 6]) 3 [9] 0 = Ok (ROk (mkChunk DataSimple 8 (Some [5; 6]) None [9] None None, 6, [9])) /\
  get_chunk ([7] ++ [0x08; 5; 6] ++ [0; 0]) 1 [9] 0 = Ok (ROk (mkChunk DataSimple 8 (Some [5; 6]) None [9] None None, 4, [9])).
Proof. split; reflexivity. Qed.

(** C11: on a one byte buffer the look at position 1 breaks it. *)
Theorem chunk_local_refuted : exists suf ext path, 
  get_chunk suf 0 path 0 = Panic /\ get_chunk (ext ++ suf) (lenN ext) path 0 <> Panic.
Proof. exists [0], [7], []. split; [reflexivity|discriminate]. Qed.
Print Assumptions chunk_local_refuted.
