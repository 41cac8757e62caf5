(** C13-C15: the assembler and its round trip through the chunk reader. *)
From Coq Require Import Ascii String NArith List Bool Lia.
From Verif Require Import Prelude PreludeFacts Utf8 ChunkModel ComponentModel AsmModel AsmSpec AsmMain AsmLemmas.
Import ListNotations.
Local Open Scope N_scope.

(** C13: the buffer is [pre ++ rest], writing starts after [pre]. *)
Theorem simple_kv_roundtrip : forall pre rest k v path local,
  bytes rest -> bytes v -> k < 256 -> 3 + lenN v <= lenN rest ->
  exists s, emit_simple_kv k v (mkAsm (pre ++ rest) (lenN pre)) = Ok s /\
    (reads_as (abuf s) (lenN pre) path local RefSimple (Some k) None (Some v) (aidx s) path <->
     if (k =? 16) || (k =? 216) then lenN v <= 255
     else In (lenN v) [1; 2; 4; 6; 8] \/ (10 <= lenN v /\ lenN v <= 255)).
Proof. exact kv_round. Qed.
Print Assumptions simple_kv_roundtrip.
Example simple_kv_roundtrip_ex :
  emit_simple_kv 7 [1; 2; 3; 4] (mkAsm (9 :: repeat 0 8) 1) = Ok (mkAsm [9; 3; 7; 1; 2; 3; 4; 0; 0] 7) /\
  get_chunk [9; 3; 7; 1; 2; 3; 4; 0; 0] 1 [5] 0 = Ok (ROk (mkChunk RefSimple 3 (Some [1; 2; 3; 4]) None [5] None (Some 7), 7, [5])).
Proof. split; reflexivity. Qed.
(* three bytes come back as two *)
Example simple_kv_roundtrip_ex3 :
  emit_simple_kv 7 [1; 2; 3] (mkAsm (9 :: repeat 0 8) 1) = Ok (mkAsm [9; 2; 7; 1; 2; 3; 0; 0; 0] 6) /\
  get_chunk [9; 2; 7; 1; 2; 3; 0; 0; 0] 1 [5] 0 = Ok (ROk (mkChunk RefSimple 2 (Some [1; 2]) None [5] None (Some 7), 5, [5])).
Proof. split; reflexivity. Qed.

(** C14 *)
Theorem wide_kv_roundtrip : forall pre rest k v path local,
  bytes rest -> bytes v -> 4 + lenN v <= lenN rest ->
  exists s, emit_simple_kv_e k v (mkAsm (pre ++ rest) (lenN pre)) = Ok s /\
    (reads_as (abuf s) (lenN pre) path local RefSimple (Some k) None (Some v) (aidx s) path <->
     128 <= k /\ k < 384 /\ lenN v <= 255).
Proof. exact wide_round. Qed.
Print Assumptions wide_kv_roundtrip.
Example wide_kv_roundtrip_ex :
  emit_simple_kv_e 130 [59; 62] (mkAsm (repeat 0 8) 0) = Ok (mkAsm [14; 252; 2; 2; 59; 62; 0; 0] 6) /\
  get_chunk [14; 252; 2; 2; 59; 62; 0; 0] 0 [] 0 =
    Ok (ROk (mkChunk RefSimple 14 (Some [59; 62]) None [] None (Some 130), 6, [])).
Proof. split; reflexivity. Qed.

Theorem long_kv_roundtrip : forall pre rest k v path local,
  bytes rest -> bytes k -> bytes v -> 3 + lenN k + lenN v <= lenN rest ->
  exists s, emit_long_kv k v (mkAsm (pre ++ rest) (lenN pre)) = Ok s /\
    (reads_as (abuf s) (lenN pre) path local RefLong None (Some k) (Some v) (aidx s) path <->
     lenN k <= 255 /\ lenN v <= 255).
Proof. exact long_round. Qed.
Print Assumptions long_kv_roundtrip.
Example long_kv_roundtrip_ex :
  emit_long_kv [1; 2] [3] (mkAsm (repeat 0 7) 0) = Ok (mkAsm [30; 2; 1; 2; 1; 3; 0] 6) /\
  get_chunk [30; 2; 1; 2; 1; 3; 0] 0 [] 0 = Ok (ROk (mkChunk RefLong 30 (Some [3]) (Some [1; 2]) [] None None, 6, [])).
Proof. split; reflexivity. Qed.

Theorem trailing_data_roundtrip : forall pre rest v path local,
  bytes rest -> bytes v -> 2 + lenN v <= lenN rest ->
  exists s, emit_simple_data_1b v (mkAsm (pre ++ rest) (lenN pre)) = Ok s /\
    (reads_as (abuf s) (lenN pre) path local DataSimple None None (Some v) (aidx s) path <->
     1 <= lenN v /\ lenN v <= 255).
Proof. exact item_round. Qed.
Print Assumptions trailing_data_roundtrip.
Example trailing_data_roundtrip_ex :
  emit_simple_data_1b [5; 6] (mkAsm (repeat 0 9) 0) = Ok (mkAsm [27; 2; 5; 6; 0; 0; 0; 0; 0] 8) /\
  get_chunk [27; 2; 5; 6; 0; 0; 0; 0; 0] 0 [] 0 = Ok (ROk (mkChunk DataSimple 27 (Some [5; 6]) None [] None None, 8, [])).
Proof. split; reflexivity. Qed.

(** C14: a directory change is read as a push of the same number (below 384) and then a no-op. *)
Theorem push_roundtrip : forall pre rest d path local,
  bytes rest -> 4 <= lenN rest ->
  exists s mid, push_directory d (mkAsm (pre ++ rest) (lenN pre)) = Ok s /\
    reads_as (abuf s) (lenN pre) path local PathPush None None (Some (number d)) mid
             (path ++ [if d <? 128 then d else 128 + (d - 128) mod 256]) /\
    forall path2, reads_as (abuf s) mid path2 local Noop None None None (aidx s) path2.
Proof. exact push_round. Qed.
Print Assumptions push_roundtrip.
Example push_roundtrip_ex :
  push_directory 130 (mkAsm (repeat 0 5) 0) = Ok (mkAsm [0x28; 252; 2; 0x80; 0] 4) /\
  get_chunk [0x28; 252; 2; 0x80; 0] 0 [3] 0 =
    Ok (ROk (mkChunk PathPush 0x28 (Some [252; 2]) None [3; 130] None None, 3, [3; 130])).
Proof. split; reflexivity. Qed.

Theorem pop_roundtrip : forall pre rest path local,
  bytes rest -> 1 <= lenN rest -> 2 <= lenN (pre ++ rest) ->
  exists s, pop_directory (mkAsm (pre ++ rest) (lenN pre)) = Ok s /\
    reads_as (abuf s) (lenN pre) path local PathPop None None None (aidx s) (removelast path).
Proof. exact pop_round. Qed.
Print Assumptions pop_roundtrip.
Example pop_roundtrip_ex :
  pop_directory (mkAsm [0; 0] 0) = Ok (mkAsm [64; 0] 1) /\
  get_chunk [64; 0] 0 [3; 4] 0 = Ok (ROk (mkChunk PathPop 64 None None [3] None None, 1, [3])).
Proof. split; reflexivity. Qed.

Theorem noop_roundtrip : forall pre rest path local,
  bytes rest -> 1 <= lenN rest -> 2 <= lenN (pre ++ rest) ->
  exists s, emit_noop (mkAsm (pre ++ rest) (lenN pre)) = Ok s /\
    reads_as (abuf s) (lenN pre) path local Noop None None None (aidx s) path.
Proof. exact noop_round. Qed.
Print Assumptions noop_roundtrip.
Example noop_roundtrip_ex :
  emit_noop (mkAsm [0; 0] 0) = Ok (mkAsm [128; 0] 1) /\
  get_chunk [128; 0] 0 [3] 0 = Ok (ROk (mkChunk Noop 128 None None [3] None None, 1, [3])).
Proof. split; reflexivity. Qed.

Definition demo_file : fmpfile :=
  mkFile (lit "demo") [(1, mkTable (lit "Person") [] [] [] false); (2, mkTable (lit "Job") [] [] [] false)] [] [] [] []
         [(0, mkOcc (lit "Person_occ") 1 (lit "Person") [] [])] [] [].

Lemma demo_fits : fits demo_file.
Proof.
  split; [vm_compute; reflexivity|]. split; [repeat constructor|]. split; [repeat constructor|].
  apply N.leb_le. vm_compute. reflexivity.
Qed.

(** C15: the image is exactly the one described by [AsmSpec.image], whenever everything fits. *)
Theorem assembled_image : forall f,
  (fits f -> assemble f = Ok (image f)) /\ (~ fits f -> assemble f = Panic).
Proof. exact assemble_image. Qed.
Print Assumptions assembled_image.
Example assembled_image_ex : fits demo_file /\ lenN (schema_bytes demo_file) = 934.
Proof. split; [exact demo_fits|]. vm_compute. reflexivity. Qed.

(** C15: size and sector chain; [be4 n] is stored as next pointer of sector [i]. *)
Theorem assembled_size_and_chain : forall f img,
  assemble f = Ok img ->
  lenN img = 20479 /\
  Forall (fun '(i, n) => slice img (4096 * i + 8) (4096 * i + 12) = Ok (be4 n)) [(1, 4); (2, 3); (3, 4); (4, 0)].
Proof. intros f img H. apply assemble_inv in H as [F ->]. now apply image_chain. Qed.
Print Assumptions assembled_size_and_chain.
Example assembled_size_and_chain_ex : exists img, assemble demo_file = Ok img.
Proof. exists (image demo_file). apply assemble_image. exact demo_fits. Qed.
