(** Emitted chunks read back. *)
From Coq Require Import Ascii String NArith ZArith List Bool Lia.
From Verif Require Import Prelude PreludeFacts EncodingModel EncodingSpec EncodingProofs
  ChunkModel ChunkSpec ChunkFacts ChunkProofs ChunkLemmas AsmModel.
From Verif Require AsmSpec.
Notation reads_as := AsmSpec.reads_as (only parsing).
From Verif Require Import AsmFacts.
Import ListNotations.
Local Open Scope N_scope.

Lemma eb_at pre rest d : lenN d <= lenN rest ->
  emit_bytes d (mkAsm (pre ++ rest) (lenN pre)) =
  Ok (mkAsm ((pre ++ d) ++ skipn (length d) rest) (lenN (pre ++ d))).
Proof.
  intros H. unfold emit_bytes. cbn [abuf aidx].
  rewrite <- (firstn_skipn (length d) rest) at 1.
  replace (lenN pre + lenN d) with (lenN pre + lenN (firstn (length d) rest)) at 1
    by (unfold lenN in *; rewrite firstn_length; lia).
  rewrite splice_at. cbn [bind]. now rewrite <- app_assoc, lenN_app.
Qed.

Lemma ebyte_at pre rest b : 1 <= lenN rest ->
  emit_byte b (mkAsm (pre ++ rest) (lenN pre)) =
  Ok (mkAsm ((pre ++ [b]) ++ skipn 1 rest) (lenN (pre ++ [b]))).
Proof.
  intros H. destruct rest as [|x rest]; [cbn in H; lia|].
  unfold emit_byte, poke. cbn [abuf aidx]. rewrite lenN_app, lenN_cons.
  replace (lenN pre <? lenN pre + (1 + lenN rest)) with true by lia. cbn [bind].
  rewrite updateN_app, lenN_app, <- app_assoc. reflexivity.
Qed.

Lemma skipn_skipn' {A} n m (l : list A) : skipn n (skipn m l) = skipn (m + n) l.
Proof.
  revert l. induction m as [|m IH]; intros l; cbn [Nat.add]; auto.
  destruct l; cbn [skipn]; auto. now rewrite skipn_nil.
Qed.

Lemma lenN_skipn {A} n (l : list A) : lenN (skipn n l) = lenN l - N.of_nat n.
Proof. unfold lenN. rewrite skipn_length. lia. Qed.

(** What each emitter leaves in the buffer. *)
Definition wrote (pre rest enc : list N) : outcome asm :=
  Ok (mkAsm (pre ++ enc ++ skipn (length enc) rest) (lenN pre + lenN enc)).

Lemma wrote_two pre rest a b : 
  Ok (mkAsm (((pre ++ a) ++ b) ++ skipn (length b) (skipn (length a) rest)) (lenN ((pre ++ a) ++ b))) =
  wrote pre rest (a ++ b).
Proof.
  unfold wrote. rewrite skipn_skipn', <- !app_assoc, !lenN_app, app_length. reflexivity.
Qed.

Lemma wrote_eq pre rest a b : a = b ->
  Ok (mkAsm ((pre ++ a) ++ skipn (length a) rest) (lenN (pre ++ a))) = wrote pre rest b.
Proof. intros ->. unfold wrote. now rewrite <- app_assoc, lenN_app. Qed.

Lemma join_skip pre rest a b :
  mkAsm (((pre ++ a) ++ b) ++ skipn (length b) (skipn (length a) rest)) (lenN ((pre ++ a) ++ b)) =
  mkAsm ((pre ++ (a ++ b)) ++ skipn (length (a ++ b)) rest) (lenN (pre ++ (a ++ b))).
Proof. rewrite skipn_skipn', app_length, !app_assoc. reflexivity. Qed.

Lemma seq_bytes {B} pre rest a d (k : asm -> outcome B) : lenN a + lenN d <= lenN rest ->
  bind (emit_bytes d (mkAsm ((pre ++ a) ++ skipn (length a) rest) (lenN (pre ++ a)))) k =
  k (mkAsm ((pre ++ (a ++ d)) ++ skipn (length (a ++ d)) rest) (lenN (pre ++ (a ++ d)))).
Proof.
  intros H. rewrite eb_at by (rewrite lenN_skipn; unfold lenN in *; lia). cbn [bind]. now rewrite join_skip.
Qed.

Lemma seq_byte {B} pre rest a b (k : asm -> outcome B) : lenN a + 1 <= lenN rest ->
  bind (emit_byte b (mkAsm ((pre ++ a) ++ skipn (length a) rest) (lenN (pre ++ a)))) k =
  k (mkAsm ((pre ++ (a ++ [b])) ++ skipn (length (a ++ [b])) rest) (lenN (pre ++ (a ++ [b])))).
Proof.
  intros H. rewrite ebyte_at by (rewrite lenN_skipn; unfold lenN in *; lia). cbn [bind].
  change (skipn 1 ?l) with (skipn (length [b]) l). now rewrite join_skip.
Qed.

Lemma first_byte {B} pre rest b (k : asm -> outcome B) : 1 <= lenN rest ->
  bind (emit_byte b (mkAsm (pre ++ rest) (lenN pre))) k =
  k (mkAsm ((pre ++ [b]) ++ skipn (length [b]) rest) (lenN (pre ++ [b]))).
Proof. intros H. now rewrite ebyte_at. Qed.

Lemma last_bytes pre rest a d : lenN a + lenN d <= lenN rest ->
  emit_bytes d (mkAsm ((pre ++ a) ++ skipn (length a) rest) (lenN (pre ++ a))) = wrote pre rest (a ++ d).
Proof.
  intros H. rewrite <- bind_ret at 1. rewrite seq_bytes by auto. now apply wrote_eq.
Qed.

Lemma last_byte pre rest a b : lenN a + 1 <= lenN rest ->
  emit_byte b (mkAsm ((pre ++ a) ++ skipn (length a) rest) (lenN (pre ++ a))) = wrote pre rest (a ++ [b]).
Proof.
  intros H. rewrite <- bind_ret at 1. rewrite seq_byte by auto. now apply wrote_eq.
Qed.

Definition kv_ins (k : N) (v : list N) : N :=
  if k =? 16 then 6 else if k =? 216 then 6 else calc_small_kv_ins v.

Definition kv_bytes (k : N) (v : list N) : list N :=
  let c := kv_ins k v in
  if c =? 0 then [0] else if c =? 6 then [6; k; lenN v mod 256] ++ v else [c; k] ++ v.

Lemma kv_ins_range k v : kv_ins k v <= 6.
Proof.
  unfold kv_ins, calc_small_kv_ins. destruct (k =? 16), (k =? 216); try lia. cbv zeta.
  destruct (N.ltb_spec 5 (as_u8 ((lenN v + 1 + 1) / 2))); lia.
Qed.

Lemma kv_emits pre rest k v : 3 + lenN v <= lenN rest ->
  emit_simple_kv k v (mkAsm (pre ++ rest) (lenN pre)) = wrote pre rest (kv_bytes k v).
Proof.
  intros H. unfold emit_simple_kv. cbv zeta. fold (kv_ins k v). unfold kv_bytes.
  pose proof (kv_ins_range k v) as R. generalize dependent (kv_ins k v). intros c R.
  rewrite first_byte by lia.
  destruct (N.eqb_spec c 0) as [->|H0]; [|destruct (N.eqb_spec c 6) as [->|H6]].
  - change ((1 <=? 0) && (0 <=? 5)) with false. change (0 =? 6) with false. cbn iota. now apply wrote_eq.
  - change ((1 <=? 6) && (6 <=? 5)) with false. change (6 =? 6) with true. change (6 =? 0) with false. cbn iota.
    rewrite seq_byte by (change (lenN [6]) with 1; lia).
    rewrite seq_byte by (change (lenN ([6] ++ [k])) with 2; lia).
    rewrite last_bytes by (change (lenN (([6] ++ [k]) ++ [as_u8 (lenN v)])) with 3; lia). reflexivity.
  - replace ((1 <=? c) && (c <=? 5)) with true by lia.
    rewrite seq_byte by (change (lenN [c]) with 1; lia).
    rewrite last_bytes by (change (lenN ([c] ++ [k])) with 2; lia). reflexivity.
Qed.

Lemma wide_emits pre rest k v : 4 + lenN v <= lenN rest ->
  emit_simple_kv_e k v (mkAsm (pre ++ rest) (lenN pre)) =
  wrote pre rest (14 :: AsmSpec.number k ++ lenN v mod 256 :: v).
Proof.
  intros H. unfold emit_simple_kv_e. rewrite first_byte by lia.
  assert (L : lenN (put_path_int k) <= 2) by (rewrite number_put; unfold AsmSpec.number; destruct (k <? 128); cbn; lia).
  rewrite seq_bytes by (change (lenN [14]) with 1; lia).
  rewrite seq_byte by (rewrite lenN_app; change (lenN [14]) with 1; lia).
  rewrite last_bytes by (rewrite !lenN_app; change (lenN [14]) with 1; change (lenN [as_u8 (lenN v)]) with 1; lia).
  rewrite number_put, <- !app_assoc. reflexivity.
Qed.

Lemma long_emits pre rest k v : 3 + lenN k + lenN v <= lenN rest ->
  emit_long_kv k v (mkAsm (pre ++ rest) (lenN pre)) =
  wrote pre rest (30 :: lenN k mod 256 :: k ++ lenN v mod 256 :: v).
Proof.
  intros H. unfold emit_long_kv. rewrite first_byte by lia.
  rewrite seq_byte by (change (lenN [30]) with 1; lia).
  rewrite seq_bytes by (change (lenN ([30] ++ [as_u8 (lenN k)])) with 2; lia).
  rewrite seq_byte by (rewrite !lenN_app; change (lenN [30]) with 1; change (lenN [as_u8 (lenN k)]) with 1; lia).
  rewrite last_bytes by (rewrite !lenN_app; change (lenN [30]) with 1; change (lenN [as_u8 (lenN k)]) with 1;
                         change (lenN [as_u8 (lenN v)]) with 1; lia).
  rewrite <- !app_assoc. reflexivity.
Qed.

Lemma push_emits pre rest d : 4 <= lenN rest ->
  push_directory d (mkAsm (pre ++ rest) (lenN pre)) =
  wrote pre rest ((if d <? 128 then 0x20 else 0x28) :: AsmSpec.number d ++ [0x80]).
Proof.
  intros H. unfold push_directory. cbv zeta. rewrite first_byte by lia. rewrite number_put.
  unfold AsmSpec.number. destruct (d <? 128).
  - rewrite seq_bytes by (cbn; lia). unfold emit_noop. rewrite last_byte by (cbn; lia). reflexivity.
  - rewrite seq_bytes by (cbn; lia). unfold emit_noop. rewrite last_byte by (cbn; lia). reflexivity.
Qed.

Lemma item_emits pre rest v : 2 + lenN v <= lenN rest ->
  emit_simple_data_1b v (mkAsm (pre ++ rest) (lenN pre)) =
  Ok (mkAsm (pre ++ (27 :: lenN v mod 256 :: v) ++ skipn (2 + length v) rest) (lenN pre + (2 + lenN v) + 4)).
Proof.
  intros H. unfold emit_simple_data_1b. rewrite first_byte by lia.
  rewrite seq_byte by (change (lenN [27]) with 1; lia).
  rewrite seq_bytes by (change (lenN ([27] ++ [as_u8 (lenN v)])) with 2; lia).
  cbn [abuf aidx]. f_equal. rewrite !lenN_app, <- !app_assoc.
  change (lenN [27]) with 1. change (lenN [as_u8 (lenN v)]) with 1. f_equal.
Qed.

(** * Reading back *)

Lemma reads_spec pre suf path local t key long v n path' : bytes suf -> 2 <= lenN (pre ++ suf) ->
  (reads_as (pre ++ suf) (lenN pre) path local t key long v (lenN pre + n) path' <->
   exists c r late, spec_read suf = SRead c r late /\ kind_type (rkind r) = t /\ rkey r = key /\ rref r = long /\
                    rdata r = v /\ rused r = n /\ apply_dir (rdir r) late path = path').
Proof.
  intros Hb H2. unfold AsmSpec.reads_as. rewrite get_chunk_spec by auto. split.
  - intros (ch & H & H1 & H3 & H4 & H5). destruct (spec_read suf) as [c r late| |]; cbn [expected] in H.
    + assert (E : ch = chunk_of c r late path /\ lenN pre + n = lenN pre + rused r /\ path' = apply_dir (rdir r) late path)
        by (revert H; generalize (lenN pre + rused r), (lenN pre + n); intros x y H; injection H; auto).
      destruct E as (-> & E & ->). cbn in *. exists c, r, late. repeat split; auto. lia.
    + destruct (local <? lenN pre); discriminate.
    + discriminate.
  - intros (c & r & late & -> & <- & <- & <- & <- & <- & <-). cbn [expected].
    exists (chunk_of c r late path). cbn. auto.
Qed.

Lemma split_small c : c < 0xC0 -> split_opcode c = (c, false).
Proof. intros H. unfold split_opcode. now replace (192 <=? c) with false by lia. Qed.

Lemma take_min n (v t d r : list N) : take n (v ++ t) = Some (d, r) -> lenN d = n.
Proof. intros H. now apply take_len in H as [<- _]. Qed.

Lemma take_iff n (v t : list N) : (exists r, take n (v ++ t) = Some (v, r)) <-> lenN v = n.
Proof.
  split.
  - intros (r & H). now apply take_len in H.
  - intros <-. rewrite take_app_lenN. eauto.
Qed.

Definition kv_exact (k : N) (v : list N) : Prop :=
  if AsmSpec.forced k then lenN v <= 255 else In (lenN v) [1; 2; 4; 6; 8] \/ (10 <= lenN v /\ lenN v <= 255).

Lemma bytes_cons a l : bytes (a :: l) <-> a < 256 /\ bytes l.
Proof. unfold bytes. split; [intros H; inversion H; auto|intros []; constructor; auto]. Qed.

Lemma width_code c w : layout_of c 0 = Some (LKey8 (Exactly w)) -> True.
Proof. auto. Qed.

Lemma kv_reads k v tail path : 
  (exists c r late, spec_read (kv_bytes k v ++ tail) = SRead c r late /\ kind_type (rkind r) = RefSimple /\ rkey r = Some k /\
     rref r = None /\ rdata r = Some v /\ rused r = lenN (kv_bytes k v) /\ apply_dir (rdir r) late path = path) <->
  kv_exact k v.
Proof.
  unfold kv_bytes. pose proof (kv_ins_range k v) as R.
  assert (CE : kv_exact k v <->
    match kv_ins k v with
    | 0 => False | 1 => lenN v = 1 | 2 => lenN v = 2 | 3 => lenN v = 4 | 4 => lenN v = 6 | 5 => lenN v = 8 | _ => lenN v <= 255
    end).
  { unfold kv_exact, kv_ins, AsmSpec.forced. destruct (k =? 16); [reflexivity|]. destruct (k =? 216); [reflexivity|].
    cbn [orb]. unfold calc_small_kv_ins, as_u8. cbv zeta.
    set (c := (lenN v + 1 + 1) / 2 mod 256).
    assert (C : 5 < c \/ c = 0 \/ c = 1 \/ c = 2 \/ c = 3 \/ c = 4 \/ c = 5) by lia.
    destruct C as [C|C].
    - replace (5 <? c) with true by lia. subst c. cbn [In]. lia.
    - replace (5 <? c) with false by lia. subst c. cbn [In].
      repeat destruct C as [C|C]; rewrite C; lia. }
  rewrite CE. clear CE. generalize dependent (kv_ins k v). intros c R.
  assert (C : c = 0 \/ c = 1 \/ c = 2 \/ c = 3 \/ c = 4 \/ c = 5 \/ c = 6) by lia.
  assert (Short : forall c w, In (c, w) [(1, 1); (2, 2); (3, 4); (4, 6); (5, 8)] ->
    ((exists c' r late, spec_read (([c; k] ++ v) ++ tail) = SRead c' r late /\ kind_type (rkind r) = RefSimple /\ rkey r = Some k /\
     rref r = None /\ rdata r = Some v /\ rused r = lenN ([c; k] ++ v) /\ apply_dir (rdir r) late path = path) <->
     lenN v = w)).
  { clear c R C. intros c w Hin.
    assert (L : forall n, layout_of c n = Some (LKey8 (Exactly w))) by
      (intros n; cbn [In] in Hin; repeat destruct Hin as [Hin|Hin]; try contradiction; injection Hin as <- <-; reflexivity).
    assert (LD : lead_of c k = 0 /\ c < 192) by
      (cbn [In] in Hin; repeat destruct Hin as [Hin|Hin]; try contradiction; injection Hin as <- <-; split; reflexivity).
    destruct LD as [LD Hc]. cbn [app spec_read]. rewrite split_small by auto. cbn [read_body]. rewrite L, LD. cbn [N.to_nat skipn].
    cbn [read_layout field].
    split.
    - intros (c' & r & late & H & _ & _ & _ & Hd & _).
      destruct (take w (v ++ tail)) as [[d rr]|] eqn:T; [|discriminate].
      assert (rdata r = Some d) by (injection H; intros; subst; reflexivity).
      assert (d = v) by congruence. subst d. now apply take_min in T.
    - intros <-. rewrite take_app_lenN. do 3 eexists. split; [reflexivity|]. cbn [rkind rkey rref rdata rused rdir].
      repeat split; auto. rewrite !lenN_cons. lia. }
  repeat destruct C as [C|C]; rewrite C in *; cbn [N.eqb Pos.eqb].
  - split; [|contradiction]. intros (c' & r & late & H & Hk & _). exfalso.
    cbn [app spec_read] in H. rewrite split_small in H by lia. unfold read_body in H.
    destruct tail; cbn in H; injection H; intros; subst; discriminate.
  - apply Short. cbn; auto.
  - apply Short. cbn; auto.
  - apply Short. cbn; auto.
  - apply Short. cbn; auto.
  - apply Short. cbn; auto 10.
  - cbn [app spec_read]. rewrite split_small by lia. cbn [read_body]. change (layout_of 6 k) with (Some (LKey8 Len8)).
    cbv zeta. change (lead_of 6 k) with 0. cbn [N.to_nat skipn read_layout field]. split.
    + intros (c' & r & late & H & _ & _ & _ & Hd & _).
      destruct (take (lenN v mod 256) (v ++ tail)) as [[d rr]|] eqn:T; [|discriminate].
      assert (rdata r = Some d) by (injection H; intros; subst; reflexivity).
      assert (d = v) by congruence. subst d. apply take_min in T. lia.
    + intros H. rewrite (N.mod_small (lenN v)) by lia. rewrite take_app_lenN. do 3 eexists. split; [reflexivity|].
      cbn [rkind rkey rref rdata rused rdir]. repeat split; auto. rewrite !lenN_cons. lia.
Qed.

Lemma number_bytes d : bytes (AsmSpec.number d).
Proof.
  unfold AsmSpec.number. destruct (N.ltb_spec d 128); repeat constructor; unfold is_byte; lia.
Qed.

Lemma wide_reads k v tail path :
  (exists c r late, spec_read ((14 :: AsmSpec.number k ++ lenN v mod 256 :: v) ++ tail) = SRead c r late /\ kind_type (rkind r) = RefSimple /\
     rkey r = Some k /\ rref r = None /\ rdata r = Some v /\ rused r = lenN (14 :: AsmSpec.number k ++ lenN v mod 256 :: v) /\
     apply_dir (rdir r) late path = path) <->
  128 <= k /\ k < 384 /\ lenN v <= 255.
Proof.
  unfold AsmSpec.number. destruct (N.ltb_spec k 128) as [Hk|Hk].
  - split; [|lia]. intros (c & r & late & H & Ht & Hk' & _). exfalso.
    cbn [app spec_read] in H. rewrite split_small in H by lia. cbn [read_body] in H.
    replace (layout_of 14 k) with (Some (LKeyPath Len8)) in H
      by (unfold layout_of; replace (k =? 255) with false by lia; reflexivity).
    cbv zeta in H. replace (lead_of 14 k) with 0 in H by reflexivity. cbn [N.to_nat skipn] in H.
    cbn [read_layout] in H.
    destruct (field Len8 (v ++ tail)) as [[[d n] rr]|]; [|discriminate].
    assert (rkey r = Some (128 + lenN v mod 256)) by (injection H; intros; subst; reflexivity).
    assert (128 + lenN v mod 256 = k) by congruence. lia.
  - cbn [app spec_read]. rewrite split_small by lia. cbn [read_body]. cbv zeta.
    replace (lead_of 14 (252 + (k - 128) / 256 mod 4)) with 0 by reflexivity. cbn [N.to_nat skipn].
    assert (L : layout_of 14 (252 + (k - 128) / 256 mod 4) =
       Some (if 252 + (k - 128) / 256 mod 4 =? 255 then LData (Exactly 6) 0 else LKeyPath Len8)) by reflexivity.
    rewrite L. clear L. destruct (N.eqb_spec (252 + (k - 128) / 256 mod 4) 255) as [E|E].
    + split; [|intros; lia]. intros (c & r & late & H & Ht & Hk' & _). exfalso. cbn [read_layout] in H.
      destruct (field (Exactly 6) _) as [[[d n] rr]|]; [|discriminate].
      assert (rkey r = None) by (injection H; intros; subst; reflexivity). congruence.
    + cbn [read_layout field]. split.
      * intros (c & r & late & H & _ & Hk' & _ & Hd & _).
        destruct (take (lenN v mod 256) (v ++ tail)) as [[d rr]|] eqn:T; [|discriminate].
        assert (rdata r = Some d) by (injection H; intros; subst; reflexivity).
        assert (rkey r = Some (128 + (k - 128) mod 256)) by (injection H; intros; subst; reflexivity).
        assert (d = v) by congruence. subst d. apply take_min in T.
        assert (128 + (k - 128) mod 256 = k) by congruence. lia.
      * intros (H1 & H2 & H3). rewrite (N.mod_small (lenN v)) by lia. rewrite take_app_lenN.
        do 3 eexists. split; [reflexivity|]. cbn [rkind rkey rref rdata rused rdir].
        repeat split; auto; [f_equal; lia|]. rewrite !lenN_cons. lia.
Qed.

Lemma long_reads k v tail path :
  (exists c r late, spec_read ((30 :: lenN k mod 256 :: k ++ lenN v mod 256 :: v) ++ tail) = SRead c r late /\ kind_type (rkind r) = RefLong /\
     rkey r = None /\ rref r = Some k /\ rdata r = Some v /\ rused r = lenN (30 :: lenN k mod 256 :: k ++ lenN v mod 256 :: v) /\
     apply_dir (rdir r) late path = path) <->
  lenN k <= 255 /\ lenN v <= 255.
Proof.
  cbn [app spec_read]. rewrite split_small by lia. cbn [read_body]. cbv zeta.
  change (layout_of 30 (lenN k mod 256)) with (Some (LLong Len8 Len8)).
  replace (lead_of 30 (lenN k mod 256)) with 0 by reflexivity. cbn [N.to_nat skipn read_layout].
  rewrite <- app_assoc. cbn [app]. split.
  - intros (c & r & late & H & _ & _ & Hr & Hd & _). cbn [field] in H.
    destruct (take (lenN k mod 256) (k ++ lenN v mod 256 :: v ++ tail)) as [[rf rr]|] eqn:T; [|discriminate].
    destruct (field Len8 rr) as [[[d n] rr']|] eqn:F; cbn [field] in F; rewrite F in H; [|discriminate].
    assert (rref r = Some rf) by (injection H; intros; subst; reflexivity).
    assert (rdata r = Some d) by (injection H; intros; subst; reflexivity).
    assert (rf = k) by congruence. assert (d = v) by congruence. subst.
    pose proof (take_min _ _ _ _ _ T) as M. split; [lia|].
    assert (T' := T). rewrite <- M in T'. rewrite take_app_lenN in T'. injection T' as <-.
    destruct (take (lenN v mod 256) (v ++ tail)) as [[d' r'']|] eqn:T2; [|discriminate].
    assert (d' = v) by (injection F; auto). subst. apply take_min in T2. lia.
  - intros (H1 & H2). cbn [field]. rewrite (N.mod_small (lenN k)), take_app_lenN by lia.
    rewrite (N.mod_small (lenN v)), take_app_lenN by lia.
    do 3 eexists. split; [reflexivity|]. cbn [rkind rkey rref rdata rused rdir].
    repeat split; auto. rewrite !lenN_cons, lenN_app, lenN_cons. lia.
Qed.

Lemma item_reads v tail path :
  (exists c r late, spec_read ((27 :: lenN v mod 256 :: v) ++ tail) = SRead c r late /\ kind_type (rkind r) = DataSimple /\
     rkey r = None /\ rref r = None /\ rdata r = Some v /\ rused r = 2 + lenN v + 4 /\
     apply_dir (rdir r) late path = path) <->
  1 <= lenN v /\ lenN v <= 255.
Proof.
  cbn [app spec_read]. rewrite split_small by lia. cbn [read_body]. cbv zeta.
  assert (L : layout_of 27 (lenN v mod 256) = Some (if lenN v mod 256 =? 0 then LKey8 (Exactly 4) else LData Len8 4)) by reflexivity.
  rewrite L. unfold lead_of. change (27 =? 27) with true. cbn [andb].
  destruct (N.eqb_spec (lenN v mod 256) 0) as [E|E].
  - split; [|intros; lia]. intros (c & r & late & H & Hk & _). exfalso.
    destruct (read_layout _ _ _) eqn:RL; [|discriminate].
    cbn [read_layout] in RL. destruct (skipn _ _); [discriminate|].
    destruct (field _ _) as [[[? ?] ?]|]; [|discriminate].
    injection H. intros; subst. revert Hk. revert RL. intros RL. 
    assert (rkind r = KKey) by (revert RL; generalize (1 + 1 + 1 + n0); intros ? RL; injection RL; intros; subst; reflexivity).
    rewrite H0. discriminate.
  - cbn [N.to_nat skipn read_layout field]. split.
    + intros (c & r & late & H & _ & _ & _ & Hd & _).
      destruct (take (lenN v mod 256) (v ++ tail)) as [[d rr]|] eqn:T; [|discriminate].
      assert (rdata r = Some d) by (injection H; intros; subst; reflexivity).
      assert (d = v) by congruence. subst d. apply take_min in T. lia.
    + intros (H1 & H2). rewrite (N.mod_small (lenN v)), take_app_lenN by lia.
      do 3 eexists. split; [reflexivity|]. cbn [rkind rkey rref rdata rused rdir].
      repeat split; auto. lia.
Qed.
