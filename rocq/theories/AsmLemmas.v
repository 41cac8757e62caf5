(** Round trips and size of the image: lemmas. *)
From Coq Require Import Ascii String NArith ZArith List Bool Lia.
From Verif Require Import Prelude PreludeFacts Utf8 EncodingModel EncodingProofs
  ChunkModel ChunkSpec ChunkFacts ChunkProofs ChunkLemmas ComponentModel HeaderModel AsmModel AsmSpec AsmFacts AsmProofs AsmMain AsmRound.
Import ListNotations.
Local Open Scope N_scope.

Lemma bytes_skipn n l : bytes l -> bytes (skipn n l).
Proof. unfold bytes. rewrite !Forall_forall. intros H x Hx. apply H. rewrite <- (firstn_skipn n l). apply in_or_app. auto. Qed.

Lemma wrote_reads pre rest enc t key long v (P : Prop) path local :
  bytes rest -> bytes enc -> 2 <= lenN (pre ++ rest) -> lenN enc <= lenN rest ->
  ((exists c r late, spec_read (enc ++ skipn (length enc) rest) = SRead c r late /\ kind_type (rkind r) = t /\ rkey r = key /\
     rref r = long /\ rdata r = v /\ rused r = lenN enc /\ apply_dir (rdir r) late path = path) <-> P) ->
  exists s, wrote pre rest enc = Ok s /\
    (reads_as (abuf s) (lenN pre) path local t key long v (aidx s) path <-> P).
Proof.
  intros Hr He H2 Hl HP. eexists. split; [reflexivity|]. cbn [abuf aidx].
  rewrite reads_spec.
  - exact HP.
  - apply bytes_app. split; auto. now apply bytes_skipn.
  - rewrite !lenN_app in *. rewrite lenN_skipn. unfold lenN in *. lia.
Qed.

Lemma kv_bytes_len k v : lenN (kv_bytes k v) <= 3 + lenN v.
Proof.
  unfold kv_bytes. cbv zeta. destruct (_ =? 0); [change (lenN [0]) with 1; lia|].
  destruct (_ =? 6); rewrite lenN_app; [change (lenN [6; k; lenN v mod 256]) with 3|change (lenN [kv_ins k v; k]) with 2]; lia.
Qed.

Lemma kv_bytes_bytes k v : k < 256 -> bytes v -> bytes (kv_bytes k v).
Proof.
  intros Hk Hv. unfold kv_bytes. cbv zeta. pose proof (kv_ins_range k v).
  destruct (_ =? 0); [repeat constructor|].
  destruct (_ =? 6); apply bytes_app; split; auto; repeat constructor; unfold is_byte; lia.
Qed.

Lemma kv_round pre rest k v path local :
  bytes rest -> bytes v -> k < 256 -> 3 + lenN v <= lenN rest ->
  exists s, emit_simple_kv k v (mkAsm (pre ++ rest) (lenN pre)) = Ok s /\
    (reads_as (abuf s) (lenN pre) path local RefSimple (Some k) None (Some v) (aidx s) path <->
     if (k =? 16) || (k =? 216) then lenN v <= 255
     else In (lenN v) [1; 2; 4; 6; 8] \/ (10 <= lenN v /\ lenN v <= 255)).
Proof.
  intros Hr Hv Hk Hl. rewrite kv_emits by auto. pose proof (kv_bytes_len k v). apply wrote_reads; auto.
  - now apply kv_bytes_bytes.
  - rewrite lenN_app. lia.
  - lia.
  - rewrite kv_reads. reflexivity.
Qed.

Lemma number_len k : lenN (number k) <= 2.
Proof. unfold number. destruct (k <? 128); cbn; lia. Qed.

Lemma wide_round pre rest k v path local :
  bytes rest -> bytes v -> 4 + lenN v <= lenN rest ->
  exists s, emit_simple_kv_e k v (mkAsm (pre ++ rest) (lenN pre)) = Ok s /\
    (reads_as (abuf s) (lenN pre) path local RefSimple (Some k) None (Some v) (aidx s) path <->
     128 <= k /\ k < 384 /\ lenN v <= 255).
Proof.
  intros Hr Hv Hl. rewrite wide_emits by auto. pose proof (number_len k). apply wrote_reads; auto.
  - apply bytes_cons. split; [lia|]. apply bytes_app. split; [apply number_bytes|]. apply bytes_cons. split; auto. lia.
  - rewrite lenN_app. lia.
  - rewrite !lenN_cons, lenN_app, lenN_cons. lia.
  - apply wide_reads.
Qed.

Lemma long_round pre rest k v path local :
  bytes rest -> bytes k -> bytes v -> 3 + lenN k + lenN v <= lenN rest ->
  exists s, emit_long_kv k v (mkAsm (pre ++ rest) (lenN pre)) = Ok s /\
    (reads_as (abuf s) (lenN pre) path local RefLong None (Some k) (Some v) (aidx s) path <->
     lenN k <= 255 /\ lenN v <= 255).
Proof.
  intros Hr Hk Hv Hl. rewrite long_emits by auto. apply wrote_reads; auto.
  - apply bytes_cons. split; [lia|]. apply bytes_cons. split; [lia|]. apply bytes_app. split; auto.
    apply bytes_cons. split; auto. lia.
  - rewrite lenN_app. lia.
  - rewrite !lenN_cons, lenN_app, lenN_cons. lia.
  - apply long_reads.
Qed.

Lemma item_round pre rest v path local :
  bytes rest -> bytes v -> 2 + lenN v <= lenN rest ->
  exists s, emit_simple_data_1b v (mkAsm (pre ++ rest) (lenN pre)) = Ok s /\
    (reads_as (abuf s) (lenN pre) path local DataSimple None None (Some v) (aidx s) path <->
     1 <= lenN v /\ lenN v <= 255).
Proof.
  intros Hr Hv Hl. rewrite item_emits by auto. eexists. split; [reflexivity|]. cbn [abuf aidx].
  replace (lenN pre + (2 + lenN v) + 4) with (lenN pre + (2 + lenN v + 4)) by lia.
  rewrite reads_spec.
  - apply item_reads.
  - apply bytes_app. split; [|now apply bytes_skipn]. apply bytes_cons. split; [lia|]. apply bytes_cons. split; auto. lia.
  - rewrite !lenN_app, !lenN_cons. lia.
Qed.

(** A directory change is read as a push followed by a no-op. *)
Lemma push_round pre rest d path local :
  bytes rest -> 4 <= lenN rest ->
  exists s mid, push_directory d (mkAsm (pre ++ rest) (lenN pre)) = Ok s /\
    reads_as (abuf s) (lenN pre) path local PathPush None None (Some (number d)) mid
             (path ++ [if d <? 128 then d else 128 + (d - 128) mod 256]) /\
    forall path2, reads_as (abuf s) mid path2 local Noop None None None (aidx s) path2.
Proof.
  intros Hr Hl. rewrite push_emits by auto. eexists. exists (lenN pre + 1 + lenN (number d)). split; [reflexivity|].
  cbn [abuf aidx]. split.
  - replace (lenN pre + 1 + lenN (number d)) with (lenN pre + (1 + lenN (number d))) by lia.
    rewrite reads_spec.
    + unfold number. destruct (N.ltb_spec d 128) as [H|H].
      * cbn [app spec_read]. rewrite split_small by lia. cbn [read_body].
        assert (L : layout_of 32 d = Some LPush8) by (unfold layout_of; replace (d =? 254) with false by lia; reflexivity).
        rewrite L. do 3 eexists. split; [reflexivity|]. cbn. auto 10.
      * cbn [app spec_read]. rewrite split_small by lia. cbn [read_body].
        assert (L : forall x, layout_of 40 x = Some LPush16) by reflexivity.
        rewrite L. do 3 eexists. split; [reflexivity|]. cbn [rkind rkey rref rdata rused rdir kind_type apply_dir]. auto 10.
    + apply bytes_app. split; [|now apply bytes_skipn]. apply bytes_cons. split; [destruct (d <? 128); lia|].
      apply bytes_app. split; [apply number_bytes|repeat constructor].
    + rewrite !lenN_app, lenN_cons, lenN_app. change (lenN [128]) with 1. lia.
  - intros path2. 
    set (op := if d <? 128 then 32 else 40). rewrite lenN_cons, lenN_app. change (lenN [128]) with 1.
    replace (lenN pre + 1 + lenN (number d)) with (lenN (pre ++ op :: number d)) by (rewrite lenN_app, lenN_cons; lia).
    replace (lenN pre + (1 + (lenN (number d) + 1))) with (lenN (pre ++ op :: number d) + 1) by (rewrite lenN_app, lenN_cons; lia).
    replace (pre ++ (op :: number d ++ [128]) ++ skipn (length (op :: number d ++ [128])) rest)
      with ((pre ++ op :: number d) ++ 128 :: skipn (length (op :: number d ++ [128])) rest)
      by (rewrite <- !app_assoc; cbn [app]; rewrite <- !app_assoc; reflexivity).
    rewrite reads_spec.
    + cbn [spec_read]. rewrite split_small by lia. do 3 eexists. split.
      * unfold read_body. instantiate (1 := false). instantiate (1 := mkReading KNothing None None None None Stay 1).
        instantiate (1 := 128). destruct (skipn _ rest); reflexivity.
      * cbn. auto 10.
    + apply bytes_cons. split; [lia|]. now apply bytes_skipn.
    + rewrite lenN_app, !lenN_cons, lenN_app, lenN_cons. lia.
Qed.

Lemma pop_round pre rest path local :
  bytes rest -> 1 <= lenN rest -> 2 <= lenN (pre ++ rest) ->
  exists s, pop_directory (mkAsm (pre ++ rest) (lenN pre)) = Ok s /\
    reads_as (abuf s) (lenN pre) path local PathPop None None None (aidx s) (removelast path).
Proof.
  intros Hr Hl H2. unfold pop_directory. rewrite ebyte_at by auto. eexists. split; [reflexivity|]. cbn [abuf aidx].
  rewrite <- app_assoc, lenN_app. change (lenN [64]) with 1. rewrite reads_spec.
  - cbn [app spec_read]. rewrite split_small by lia. exists 64, (mkReading KPop None None None None ChunkSpec.Leave 1), false. split.
    + unfold read_body. destruct (skipn _ rest); reflexivity.
    + cbn. auto 10.
  - cbn [app]. apply bytes_cons. split; [lia|]. now apply bytes_skipn.
  - cbn [app]. rewrite lenN_app in *. rewrite lenN_cons, lenN_skipn. lia.
Qed.

Lemma noop_round pre rest path local :
  bytes rest -> 1 <= lenN rest -> 2 <= lenN (pre ++ rest) ->
  exists s, emit_noop (mkAsm (pre ++ rest) (lenN pre)) = Ok s /\
    reads_as (abuf s) (lenN pre) path local Noop None None None (aidx s) path.
Proof.
  intros Hr Hl H2. unfold emit_noop. rewrite ebyte_at by auto. eexists. split; [reflexivity|]. cbn [abuf aidx].
  rewrite <- app_assoc, lenN_app. change (lenN [128]) with 1. rewrite reads_spec.
  - cbn [app spec_read]. rewrite split_small by lia. exists 128, (mkReading KNothing None None None None Stay 1), false. split.
    + unfold read_body. destruct (skipn _ rest); reflexivity.
    + cbn. auto 10.
  - cbn [app]. apply bytes_cons. split; [lia|]. now apply bytes_skipn.
  - cbn [app]. rewrite lenN_app in *. rewrite lenN_cons, lenN_skipn. lia.
Qed.

(** * Size and chain *)

Lemma fits_dec f : fits f \/ ~ fits f.
Proof.
  unfold fits. destruct (N.ltb_spec (lenN (utf8 (f_name f))) 1013); [|right; lia].
  destruct (ids_big (f_tables f)) eqn:B1; [right|].
  { intros (_ & H2 & _). apply ids_big_false in H2. congruence. }
  destruct (ids_big (f_occurrences f)) eqn:B2; [right|].
  { intros (_ & _ & H2 & _). apply ids_big_false in H2. congruence. }
  apply ids_big_false in B1, B2.
  destruct (N.leb_spec (lenN (schema_bytes f)) 4075); [left; auto|right; lia].
Qed.

Lemma assemble_inv f img : assemble f = Ok img -> fits f /\ img = image f.
Proof.
  intros H. destruct (assemble_image f) as [A B]. destruct (fits_dec f) as [F|F].
  - split; auto. rewrite (A F) in H. congruence.
  - rewrite (B F) in H. discriminate.
Qed.

Lemma be_slice pre n suf a : a = lenN pre -> slice (pre ++ be4 n ++ suf) a (a + 4) = Ok (be4 n).
Proof. intros ->. apply slice_mid; auto. Qed.

Lemma image_chain f : fits f ->
  lenN (image f) = 20479 /\
  Forall (fun '(i, n) => slice (image f) (4096 * i + 8) (4096 * i + 12) = Ok (be4 n)) [(1, 4); (2, 3); (3, 4); (4, 0)].
Proof.
  intros (H1 & _ & _ & H4). rewrite image_eq by auto. split.
  - rewrite !lenN_app, front_len, lenN_zeros, !block_len by auto. lia.
  - pose proof (header_with_len _ H1) as HL. pose proof (front_len _ H1) as FL.
    assert (BL := block_len 4).
    repeat constructor.
    + replace (front f ++ schema_bytes f ++ zeros (4075 - lenN (schema_bytes f)) ++ block 4 ++ block 0)
        with ((header_with (f_name f) ++ zeros 9) ++ be4 4 ++
              (zeros 4083 ++ zeros 9 ++ be4 3 ++ zeros 8 ++ schema_bytes f ++ zeros (4075 - lenN (schema_bytes f)) ++ block 4 ++ block 0))
        by (unfold front, block; rewrite <- !app_assoc; reflexivity).
      apply be_slice. rewrite lenN_app, HL, lenN_zeros. reflexivity.
    + replace (front f ++ schema_bytes f ++ zeros (4075 - lenN (schema_bytes f)) ++ block 4 ++ block 0)
        with ((header_with (f_name f) ++ block 4 ++ zeros 9) ++ be4 3 ++
              (zeros 8 ++ schema_bytes f ++ zeros (4075 - lenN (schema_bytes f)) ++ block 4 ++ block 0))
        by (unfold front; rewrite <- !app_assoc; reflexivity).
      apply be_slice. rewrite !lenN_app, HL, lenN_zeros, BL. reflexivity.
    + replace (front f ++ schema_bytes f ++ zeros (4075 - lenN (schema_bytes f)) ++ block 4 ++ block 0)
        with ((front f ++ schema_bytes f ++ zeros (4075 - lenN (schema_bytes f)) ++ zeros 9) ++ be4 4 ++ (zeros 4083 ++ block 0))
        by (unfold block; rewrite <- !app_assoc; reflexivity).
      apply be_slice. rewrite !lenN_app, FL, !lenN_zeros. lia.
    + replace (front f ++ schema_bytes f ++ zeros (4075 - lenN (schema_bytes f)) ++ block 4 ++ block 0)
        with ((front f ++ schema_bytes f ++ zeros (4075 - lenN (schema_bytes f)) ++ block 4 ++ zeros 9) ++ be4 0 ++ zeros 4083)
        by (unfold block; rewrite <- !app_assoc; reflexivity).
      apply be_slice. rewrite !lenN_app, FL, !lenN_zeros, BL. lia.
Qed.
