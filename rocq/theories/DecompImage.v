(** Decompiling an assembled image. *)
From Coq Require Import Ascii String NArith ZArith List Bool Lia.
From Verif Require Import Prelude PreludeFacts Utf8 EncodingModel EncodingProofs CharConvModel CharConvProofs
  ChunkModel ChunkSpec ChunkFacts ChunkProofs ChunkLemmas ComponentModel AsmModel AsmSpec AsmFacts AsmProofs AsmMain AsmRound AsmLemmas
  DecompModel DecompSpec DecompStream.
Import ListNotations.
Local Open Scope N_scope.

(** * Walks *)

Lemma walk_trans buf st o p o1 p1 o2 p2 : walk buf st o p o1 p1 -> walk buf st o1 p1 o2 p2 -> walk buf st o p o2 p2.
Proof. induction 1; auto. intros. econstructor; eauto. Qed.

Lemma walk_event e pre tail path st :
  readable e -> bytes tail -> 2 <= lenN (pre ++ event_bytes e ++ tail) ->
  walk (pre ++ event_bytes e ++ tail) st (lenN pre) path (lenN (pre ++ event_bytes e)) (event_path e path).
Proof.
  intros Hr Hb H2. destruct e as [d| |k v|k v|k v|v].
  1: { destruct (push_chunks pre d tail path st Hb) as [P1 P2].
       eapply WRead; [exact P1|]. eapply WRead; [exact P2|]. constructor. }
  all: match goal with |- walk (_ ++ event_bytes ?e ++ _) _ _ ?q _ _ =>
           destruct (read_single e pre tail q st Hr ltac:(discriminate) Hb H2) as (ch & EC & G) end;
    eapply WRead; [exact G|constructor].
Qed.

Lemma walk_stream es : forall pre tail path st,
  Forall readable es -> bytes tail -> 2 <= lenN (pre ++ stream_bytes es ++ tail) ->
  walk (pre ++ stream_bytes es ++ tail) st (lenN pre) path (lenN (pre ++ stream_bytes es)) (stream_path es path).
Proof.
  induction es as [|e es IH]; intros pre tail path st HR Hb H2.
  - cbn. rewrite app_nil_r. constructor.
  - inversion HR as [|? ? He Hes]; subst. rewrite stream_cons in *. rewrite <- !app_assoc in *.
    assert (Hb' : bytes (stream_bytes es ++ tail)) by (apply bytes_app; split; auto; now apply stream_bytes_bytes).
    eapply walk_trans; [apply walk_event; auto|]. cbn [stream_path].
    rewrite !app_assoc. rewrite app_assoc in H2. rewrite <- (app_assoc (pre ++ event_bytes e)). apply IH; auto.
Qed.

Lemma walk_zeros n : forall buf st off path,
  2 <= lenN buf ->
  (forall i, off <= i -> i < off + 2 * N.of_nat n -> (i - off) mod 2 = 0 -> nthN buf i = Some 0) ->
  walk buf st off path (off + 2 * N.of_nat n) path.
Proof.
  induction n as [|n IH]; intros buf st off path H2 Hz.
  - replace (off + 2 * N.of_nat 0) with off by lia. constructor.
  - eapply WRead; [apply get_zero; auto; apply Hz; [lia|lia|rewrite N.sub_diag; reflexivity]|].
    replace (off + 2 * N.of_nat (S n)) with (off + 2 + 2 * N.of_nat n) by lia.
    apply IH; auto. intros i Hi1 Hi2 Hi3. apply Hz; [lia|lia|].
    replace (i - off) with (i - (off + 2) + 1 * 2) by lia. rewrite N.mod_add by lia. auto.
Qed.

(** * The events of a schema *)

Definition readable_b (e : event) : bool :=
  match e with
  | Enter _ | Leave => true
  | Put k v => (k <? 256) && forallb (fun b => b <? 256) v && (lenN v <=? 255)
  | PutWide k v => (128 <=? k) && (k <? 384) && forallb (fun b => b <? 256) v && (lenN v <=? 255)
  | PutLong k v => forallb (fun b => b <? 256) k && forallb (fun b => b <? 256) v && (lenN k <=? 255) && (lenN v <=? 255)
  | Item v => forallb (fun b => b <? 256) v && (1 <=? lenN v) && (lenN v <=? 255)
  end.

Lemma bytes_b v : forallb (fun b => b <? 256) v = true -> bytes v.
Proof. intros H. apply Forall_forall. intros x Hx. rewrite forallb_forall in H. apply H in Hx. unfold is_byte. lia. Qed.

Lemma readable_b_ok e : readable_b e = true -> readable e.
Proof.
  destruct e; cbn [readable readable_b]; rewrite ?andb_true_iff; intros H; auto;
  repeat match goal with H : _ /\ _ |- _ => destruct H end; repeat split; try (now apply bytes_b); lia.
Qed.

Lemma all_readable_b es : forallb readable_b es = true -> Forall readable es.
Proof. intros H. apply Forall_forall. intros x Hx. rewrite forallb_forall in H. now apply readable_b_ok, H. Qed.

Lemma be4_bytes n : n < 2 ^ 32 -> bytes (be4 n) /\ lenN (be4 n) = 4.
Proof. intros H. split; [|reflexivity]. unfold be4. repeat (apply bytes_cons; split; [lia|]). constructor. Qed.

Lemma stream_len es : lenN es <= lenN (stream_bytes es).
Proof.
  induction es as [|e es IH]; [apply N.le_refl|]. rewrite stream_cons, lenN_app, lenN_cons.
  pose proof (event_bytes_pos e). lia.
Qed.

Lemma lenN_map {A B} (g : A -> B) l : lenN (map g l) = lenN l.
Proof. unfold lenN. now rewrite map_length. Qed.

Lemma few_tables f : lenN (f_tables f) <= lenN (schema_bytes f).
Proof.
  unfold schema_bytes. rewrite lenN_cons. pose proof (stream_len (schema_events f)) as H.
  revert H. set (m := lenN (stream_bytes _)). clearbody m. unfold schema_events, table_events.
  rewrite !lenN_app, !lenN_map. lia.
Qed.

Lemma schema_readable f : fits f -> short_names f -> Forall readable (schema_events f).
Proof.
  intros (_ & I1 & I2 & SL) [Ht Ho]. pose proof (few_tables f) as FT. unfold schema_events. apply Forall_app. split; [|apply Forall_app; split; [|apply Forall_app; split]].
  - apply all_readable_b. vm_compute. reflexivity.
  - unfold table_events. apply Forall_app. split; [now apply all_readable_b|].
    apply Forall_app. split.
    { apply Forall_map. apply Forall_forall. intros t Hi. rewrite Forall_forall in Ht. specialize (Ht _ Hi). cbn [readable].
      rewrite lenN_app, encode_text_len. change (lenN [0; 0; 0]) with 3. change (lenN [2; 128; fst t mod 256]) with 3.
      repeat split; [| |lia|lia].
      - apply bytes_app. split; [apply encode_text_bytes|repeat constructor].
      - repeat constructor; unfold is_byte; lia. }
    apply Forall_app. split; [now apply all_readable_b|].
    apply Forall_app. split.
    { apply Forall_map. apply Forall_forall. intros t Hi. cbn [readable]. rewrite Forall_forall in I1.
      destruct (be4_bytes (fst t)) as [B L]; [specialize (I1 _ Hi); lia|]. rewrite L.
      repeat split; auto; lia. }
    apply Forall_app. split.
    { destruct (be4_bytes (lenN (f_tables f))) as [B L]; [lia|].
      constructor; [exact I|]. constructor; [cbn [readable]; rewrite L; repeat split; auto; lia|].
      now apply all_readable_b. }
    apply Forall_app. split; [|now apply all_readable_b].
    apply Forall_flat_map. apply Forall_forall. intros t Hi. repeat constructor.
  - unfold relation_events. apply Forall_app. split; [now apply all_readable_b|].
    apply Forall_app. split.
    { apply Forall_map. apply Forall_forall. intros t Hi. rewrite Forall_forall in Ho. specialize (Ho _ Hi). cbn [readable].
      rewrite lenN_app, encode_text_len. change (lenN [0; 0; 0; 0]) with 4.
      repeat split; [|lia|lia].
      apply bytes_app. split; [apply encode_text_bytes|repeat constructor]. }
    apply Forall_app. split; [now apply all_readable_b|].
    apply Forall_app. split; [|now apply all_readable_b].
    apply Forall_map. apply Forall_forall. intros t Hi. cbn [readable]. rewrite Forall_forall in I2.
    destruct (be4_bytes (fst t)) as [B L]; [specialize (I2 _ Hi); lia|]. rewrite L.
    repeat split; auto; lia.
  - assert (P : forall n, readable (Put 0 [1; n mod 256])).
    { intros n. cbn [readable]. split; [lia|split]; [|apply N.leb_le; reflexivity]. repeat (apply bytes_cons; split; [lia|]). constructor. }
    unfold tail_events. repeat (apply Forall_cons; [first [exact I | apply P]|]). apply Forall_nil.
Qed.

Lemma stream_path_app es1 : forall es2 path, stream_path (es1 ++ es2) path = stream_path es2 (stream_path es1 path).
Proof. induction es1 as [|e es1 IH]; intros; [reflexivity|]. apply IH. Qed.

Lemma stream_path_still {A} (g : A -> event) l path : (forall a p, event_path (g a) p = p) -> stream_path (map g l) path = path.
Proof. intros H. induction l as [|a l IH]; cbn [map stream_path]; auto. now rewrite H. Qed.

Lemma stream_path_visit {A} (g : A -> N) l path : stream_path (flat_map (fun a => [Enter (g a); Leave]) l) path = path.
Proof.
  induction l as [|a l IH]; [reflexivity|]. cbn [flat_map app stream_path event_path]. now rewrite removelast_last.
Qed.

Definition quiet (path : list N) : Prop := forall ch s, dispatch path ch s = Ok s.

Fixpoint quiet_along (es : list event) (path : list N) : Prop :=
  match es with [] => True | e :: es' => quiet (event_path e path) /\ quiet_along es' (event_path e path) end.

Lemma quiet_run es : forall path s, quiet_along es path -> run_events es path s = Ok s.
Proof.
  induction es as [|e es IH]; intros path s H; [reflexivity|]. destruct H as [H1 H2]. cbn [run_events].
  assert (E : run_chunks (event_chunks e path) s = Ok s).
  { destruct e; cbn [event_chunks run_chunks event_path] in *; rewrite !H1; cbn [bind]; rewrite ?H1; reflexivity. }
  rewrite E. cbn [bind]. now apply IH.
Qed.

Lemma quiet_app es1 : forall es2 path, quiet_along es1 path -> quiet_along es2 (stream_path es1 path) ->
  quiet_along (es1 ++ es2) path.
Proof.
  induction es1 as [|e es1 IH]; intros es2 path H1 H2; [exact H2|]. destruct H1. split; auto.
Qed.

Lemma quiet_still {A} (g : A -> event) l path : (forall a p, event_path (g a) p = p) -> quiet path ->
  quiet_along (map g l) path.
Proof. intros H Q. induction l as [|a l IH]; cbn [map quiet_along]; auto. now rewrite H. Qed.

Lemma quiet_visit {A} (g : A -> N) l path : quiet path -> (forall d, quiet (path ++ [d])) ->
  quiet_along (flat_map (fun a => [Enter (g a); Leave]) l) path.
Proof.
  intros Q1 Q2. induction l as [|a l IH]; [exact I|]. cbn [flat_map app quiet_along event_path].
  rewrite removelast_last. auto.
Qed.

Ltac quiet_tac := repeat (split; [intros ? ?; reflexivity|]); exact I.

Lemma schema_path f : stream_path (schema_events f) [] = [] /\ quiet_along (schema_events f) [].
Proof.
  assert (T : stream_path (table_events f) [] = [3] /\ quiet_along (table_events f) []).
  { unfold table_events. split.
    - rewrite stream_path_app, stream_path_app, stream_path_still by reflexivity.
      rewrite stream_path_app, stream_path_app, stream_path_still by reflexivity.
      rewrite stream_path_app, stream_path_app, stream_path_visit. reflexivity.
    - apply quiet_app; [quiet_tac|]. apply quiet_app; [apply quiet_still; [reflexivity|intros ? ?; reflexivity]|].
      rewrite stream_path_still by reflexivity.
      apply quiet_app; [quiet_tac|]. apply quiet_app; [apply quiet_still; [reflexivity|intros ? ?; reflexivity]|].
      rewrite stream_path_still by reflexivity.
      apply quiet_app; [quiet_tac|]. apply quiet_app; [apply quiet_visit; [intros ? ?; reflexivity|]|].
      + intros d ? ?. reflexivity.
      + rewrite stream_path_visit. quiet_tac. }
  assert (R : stream_path (relation_events f) [3] = [] /\ quiet_along (relation_events f) [3]).
  { unfold relation_events. split.
    - rewrite stream_path_app, stream_path_app, stream_path_still by reflexivity.
      rewrite stream_path_app, stream_path_app, stream_path_still by reflexivity. reflexivity.
    - apply quiet_app; [quiet_tac|]. apply quiet_app; [apply quiet_still; [reflexivity|intros ? ?; reflexivity]|].
      rewrite stream_path_still by reflexivity.
      apply quiet_app; [quiet_tac|]. apply quiet_app; [apply quiet_still; [reflexivity|intros ? ?; reflexivity]|].
      rewrite stream_path_still by reflexivity. quiet_tac. }
  destruct T as [T1 T2], R as [R1 R2]. unfold schema_events. split.
  - rewrite !stream_path_app. change (stream_path blob_events []) with (@nil N). now rewrite T1, R1.
  - apply quiet_app; [quiet_tac|]. change (stream_path blob_events []) with (@nil N).
    apply quiet_app; [exact T2|]. rewrite T1. apply quiet_app; [exact R2|]. rewrite R1. quiet_tac.
Qed.

(** * The image *)

Lemma nth_zeros A n B i : lenN A <= i -> i < lenN A + n -> nthN (A ++ zeros n ++ B) i = Some 0.
Proof.
  intros H1 H2. rewrite nthN_app_r, nthN_app_l by (rewrite ?lenN_zeros; lia). unfold zeros.
  rewrite nthN_nth_error. apply nth_error_repeat. lia.
Qed.

Lemma image_zero f i : fits f -> 8212 + lenN (schema_bytes f) <= i -> i < 20479 ->
  ~ (12296 <= i /\ i < 12300) -> ~ (16392 <= i /\ i < 16396) -> nthN (image f) i = Some 0.
Proof.
  intros (F1 & _ & _ & F4) H1 H2 H3 H4. rewrite image_eq by auto. pose proof (front_len f F1) as FL.
  assert (L4 : forall n, lenN (be4 n) = 4) by reflexivity.
  destruct (N.ltb_spec i 12287); [|destruct (N.ltb_spec i 12296); [|destruct (N.ltb_spec i 16383); [|destruct (N.ltb_spec i 16392)]]].
  - rewrite app_assoc. apply nth_zeros; rewrite lenN_app; lia.
  - replace (front f ++ schema_bytes f ++ zeros (4075 - lenN (schema_bytes f)) ++ block 4 ++ block 0)
      with ((front f ++ schema_bytes f ++ zeros (4075 - lenN (schema_bytes f))) ++ zeros 9 ++ (be4 4 ++ zeros 4083 ++ block 0))
      by (unfold block; rewrite <- !app_assoc; reflexivity).
    apply nth_zeros; rewrite !lenN_app, lenN_zeros; lia.
  - replace (front f ++ schema_bytes f ++ zeros (4075 - lenN (schema_bytes f)) ++ block 4 ++ block 0)
      with ((front f ++ schema_bytes f ++ zeros (4075 - lenN (schema_bytes f)) ++ zeros 9 ++ be4 4) ++ zeros 4083 ++ block 0)
      by (unfold block; rewrite <- !app_assoc; reflexivity).
    apply nth_zeros; rewrite !lenN_app, !lenN_zeros, L4; lia.
  - replace (front f ++ schema_bytes f ++ zeros (4075 - lenN (schema_bytes f)) ++ block 4 ++ block 0)
      with ((front f ++ schema_bytes f ++ zeros (4075 - lenN (schema_bytes f)) ++ block 4) ++ zeros 9 ++ (be4 0 ++ zeros 4083))
      by (unfold block at 3; rewrite <- !app_assoc; reflexivity).
    apply nth_zeros; rewrite !lenN_app, !lenN_zeros, block_len; lia.
  - replace (front f ++ schema_bytes f ++ zeros (4075 - lenN (schema_bytes f)) ++ block 4 ++ block 0)
      with ((front f ++ schema_bytes f ++ zeros (4075 - lenN (schema_bytes f)) ++ block 4 ++ zeros 9 ++ be4 0) ++ zeros 4083 ++ [])
      by (unfold block at 2; rewrite app_nil_r, <- !app_assoc; reflexivity).
    apply nth_zeros; rewrite !lenN_app, !lenN_zeros, block_len, L4; lia.
Qed.

Lemma zeros_bytes n : bytes (zeros n).
Proof. apply Forall_forall. intros x Hx. apply repeat_spec in Hx as ->. unfold is_byte. lia. Qed.

Lemma block_bytes n : n < 256 -> bytes (block n).
Proof.
  intros H. unfold block. repeat (apply bytes_app; split); try apply zeros_bytes. now apply be4_bytes; lia.
Qed.

Definition after (f : fmpfile) : list N := zeros (4075 - lenN (schema_bytes f)) ++ block 4 ++ block 0.

Lemma after_bytes f : bytes (after f).
Proof. unfold after. apply bytes_app; split; [apply zeros_bytes|]. apply bytes_app; split; apply block_bytes; lia. Qed.

Lemma image_parts f : fits f -> image f = (front f ++ [128]) ++ stream_bytes (schema_events f) ++ after f.
Proof.
  intros (_ & _ & _ & F4). rewrite image_eq by auto. unfold schema_bytes at 1, after. rewrite <- !app_assoc. reflexivity.
Qed.

Lemma lead_noop f path st : fits f -> short_names f ->
  get_chunk (image f) 8212 path st = Ok (ROk (mkChunk Noop 128 None None path None None, 8213, path)).
Proof.
  intros F S. rewrite image_parts by auto. rewrite <- app_assoc.
  pose proof (front_len f ltac:(apply F)) as FL. rewrite <- FL.
  assert (B : bytes (stream_bytes (schema_events f) ++ after f)).
  { apply bytes_app. split; [apply stream_bytes_bytes, schema_readable; auto|apply after_bytes]. }
  erewrite (get_one (front f) [128] _ path st 128 (mkReading KNothing None None None None Stay 1) false).
  - rewrite lenN_app, FL. reflexivity.
  - apply bytes_cons. split; [lia|auto].
  - rewrite lenN_app, FL. lia.
  - cbn [app spec_read]. rewrite split_small by lia. unfold read_body.
    destruct (stream_bytes (schema_events f) ++ after f); reflexivity.
  - reflexivity.
Qed.

Lemma head_len f : fits f -> lenN (front f ++ [128]) = 8213.
Proof. intros F. rewrite lenN_app, front_len by apply F. reflexivity. Qed.

Lemma streamed_len f : fits f -> lenN ((front f ++ [128]) ++ stream_bytes (schema_events f)) = 8212 + lenN (schema_bytes f).
Proof. intros F. rewrite lenN_app, head_len by auto. unfold schema_bytes. rewrite lenN_cons. lia. Qed.

(** Reading the whole metadata sector ends with an empty path. *)
Lemma image_walk f : fits f -> short_names f ->
  exists off, walk (image f) 8192 8212 [] off [] /\ 12288 <= off <= 12289.
Proof.
  intros F S. pose proof (proj1 (image_chain f F)) as IL.
  assert (SB := proj2 (proj2 (proj2 F))).
  set (p := 8212 + lenN (schema_bytes f)).
  set (n := N.to_nat ((12288 - p + 1) / 2)).
  exists (p + 2 * N.of_nat n). split; [|subst n p; lia].
  eapply WRead; [apply lead_noop; auto|].
  eapply walk_trans.
  - rewrite image_parts by auto. rewrite <- (head_len f F). apply walk_stream.
    + now apply schema_readable.
    + apply after_bytes.
    + rewrite lenN_app, head_len by auto. lia.
  - rewrite streamed_len by auto. rewrite (proj1 (schema_path f)). fold p. apply walk_zeros; [lia|].
    intros i Hi1 Hi2 _. apply image_zero; subst n p; auto; lia.
Qed.

(** Sector headers in a file. *)
Lemma sector_in buf start b : start + 20 <= lenN buf -> slice buf (start + 8) (start + 12) = Ok b ->
  exists rest sec, slice buf start (lenN buf) = Ok rest /\ get_sector rest = Ok sec /\ s_next sec = get_int b.
Proof.
  intros H E. 
  assert (HS : slice buf start (lenN buf) = Ok (skipn (N.to_nat start) buf)).
  { apply slice_ok. repeat split; try lia. symmetry. apply firstn_all2. unfold lenN. rewrite skipn_length. lia. }
  assert (EB : buf = firstn (N.to_nat start) buf ++ skipn (N.to_nat start) buf) by (symmetry; apply firstn_skipn).
  assert (FL : lenN (firstn (N.to_nat start) buf) = start) by (unfold lenN in *; rewrite firstn_length; lia).
  set (r := skipn (N.to_nat start) buf) in *.
  assert (RL : 20 <= lenN r) by (subst r; rewrite lenN_skipn; lia).
  rewrite EB in E. rewrite <- FL in E at 2 3. rewrite slice_shift in E.
  destruct (nthN_ex r 0 ltac:(lia)) as (b0 & E0). destruct (nthN_ex r 1 ltac:(lia)) as (b1 & E1).
  exists r. unfold get_sector, at_. rewrite E0, E1, E. cbn [unwrap bind].
  assert (X : exists x, slice r 4 8 = Ok x) by (unfold slice; replace ((4 <=? 8) && (8 <=? lenN r)) with true by lia; eauto).
  destruct X as (x & X). assert (Y : exists y, slice r 20 (lenN r) = Ok y)
    by (unfold slice; replace ((20 <=? lenN r) && (lenN r <=? lenN r)) with true by lia; eauto).
  destruct Y as (y & Y). rewrite X, Y. cbn [bind]. eexists. repeat split; auto.
Qed.

Lemma n_chunks_len es : N.of_nat (n_chunks es) <= lenN (stream_bytes es).
Proof.
  induction es as [|e es IH]; [apply N.le_0_l|]. rewrite stream_cons, lenN_app.
  pose proof (event_bytes_pos e). destruct e; cbn [n_chunks]; try lia.
  cbn [event_bytes]. rewrite lenN_cons, lenN_app. change (lenN [128]) with 1. lia.
Qed.

Lemma data_sector fuel f s : fits f -> short_names f -> (N.to_nat 4100 <= fuel)%nat ->
  chunk_loop fuel (image f) 8212 12288 8192 [] s = Ok s.
Proof.
  intros F S Hf. pose proof (proj1 (image_chain f F)) as IL.
  assert (SB := proj2 (proj2 (proj2 F))).
  pose proof (n_chunks_len (schema_events f)) as NC.
  assert (SL : lenN (schema_bytes f) = 1 + lenN (stream_bytes (schema_events f))) by (unfold schema_bytes; apply lenN_cons).
  remember (fuel - 1 - n_chunks (schema_events f))%nat as k eqn:Ek.
  replace fuel with (Datatypes.S (n_chunks (schema_events f) + k)) by lia.
  erewrite loop_step; [|lia|apply lead_noop; auto].
  change (dispatch [] _ s) with (Ok s). cbn [bind].
  rewrite image_parts by auto. rewrite <- (head_len f F) at 1. rewrite chunk_loop_stream.
  - rewrite quiet_run by apply schema_path. cbn [bind]. rewrite streamed_len, (proj1 (schema_path f)) by auto.
    rewrite <- image_parts by auto. apply zero_run; [lia| |reflexivity|lia].
    intros i Hi1 Hi2 _. apply image_zero; auto; lia.
  - now apply schema_readable.
  - apply after_bytes.
  - rewrite lenN_app, head_len by auto. lia.
  - rewrite streamed_len by auto. lia.
Qed.

Lemma blank_sector fuel f s i : fits f -> i = 3 \/ i = 4 -> (N.to_nat 4100 <= fuel)%nat ->
  chunk_loop fuel (image f) (i * 4096 + 20) (i * 4096 + 4096) (i * 4096) [] s = Ok s.
Proof.
  intros F Hi Hf. pose proof (proj1 (image_chain f F)) as IL.
  assert (SB := proj2 (proj2 (proj2 F))).
  apply zero_run; [lia| |reflexivity|lia].
  intros j Hj1 Hj2 Hj3. apply image_zero; auto; destruct Hi as [-> | ->]; lia.
Qed.

(** The decompiler finds nothing in an assembled image. *)
Lemma decompile_image order fuel f : fits f -> short_names f -> (N.to_nat 5000 <= fuel)%nat -> order [] = [] ->
  decompile order fuel (image f) = Ok fmpfile_new.
Proof.
  intros F S Hf Ho. destruct (image_chain f F) as [IL CH].
  inversion CH as [|? ? C1 CH1]; subst. inversion CH1 as [|? ? C2 CH2]; subst.
  inversion CH2 as [|? ? C3 CH3]; subst. inversion CH3 as [|? ? C4 CH4]; subst.
  destruct (sector_in (image f) (4096 * 1) _ ltac:(lia) C1) as (r1 & s1 & R1 & G1 & N1).
  destruct (sector_in (image f) (4096 * 2) _ ltac:(lia) C2) as (r2 & s2 & R2 & G2 & N2).
  destruct (sector_in (image f) (4096 * 3) _ ltac:(lia) C3) as (r3 & s3 & R3 & G3 & N3).
  destruct (sector_in (image f) (4096 * 4) _ ltac:(lia) C4) as (r4 & s4 & R4 & G4 & N4).
  unfold decompile. change 4096 with (4096 * 1). rewrite R1. cbn [bind]. rewrite G1. cbn [bind]. rewrite N1.
  change (get_int (be4 4) + 1) with 5.
  assert (E : sector_loop fuel (image f) 5 2 (mkD fmpfile_new [] []) = Ok (mkD fmpfile_new [] [])).
  { remember (fuel - 4)%nat as k eqn:Ek. replace fuel with (4 + k)%nat by lia.
    cbn [plus sector_loop]. change (2 =? 0) with false. change (2 * 4096) with (4096 * 2). rewrite R2. cbn [bind]. rewrite G2. cbn [bind].
    change (2 <? 5) with true. cbn iota. change (4096 * 2 + 20) with 8212. change (4096 * 2 + 4096) with 12288. change (4096 * 2) with 8192.
    fold chunk_loop. rewrite data_sector by (auto; lia). cbn [bind]. rewrite N2. change (get_int (be4 3)) with 3.
    change (3 =? 0) with false. cbn iota. change (3 * 4096) with (4096 * 3). rewrite R3. cbn [bind]. rewrite G3. cbn [bind].
    change (3 <? 5) with true. cbn iota. change (4096 * 3) with (3 * 4096). rewrite blank_sector by (auto; lia). cbn [bind].
    rewrite N3. change (get_int (be4 4)) with 4.
    change (4 =? 0) with false. cbn iota. change (4 * 4096) with (4096 * 4). rewrite R4. cbn [bind]. rewrite G4. cbn [bind].
    change (4 <? 5) with true. cbn iota. change (4096 * 4) with (4 * 4096). rewrite blank_sector by (auto; lia). cbn [bind].
    rewrite N4. change (get_int (be4 0)) with 0. reflexivity. }
  rewrite E. cbn [bind d_segments]. rewrite Ho. reflexivity.
Qed.
