(** The whole image. *)
From Coq Require Import Ascii String NArith ZArith List Bool Lia.
From Verif Require Import Prelude PreludeFacts Utf8 Utf8Facts EncodingModel EncodingSpec EncodingProofs CharConvModel CharConvProofs
  InstrModel ComponentModel HeaderModel AsmModel AsmSpec AsmFacts AsmProofs.
Import ListNotations.
Local Open Scope N_scope.

Lemma header_len : lenN HEADER_INIT = 4095.
Proof. vm_compute. reflexivity. Qed.

Lemma name_splice f :
  splice HEADER_INIT 3082 (3082 + lenN (utf8 (f_name f ++ lit "/"))) (utf8 (f_name f ++ lit "/")) =
  if lenN (utf8 (f_name f)) <? 1013 then Ok (header_with (f_name f)) else Panic.
Proof.
  rewrite utf8_app. change (utf8 (lit "/")) with [47]. unfold splice. rewrite header_len, lenN_app.
  change (lenN [47]) with 1. unfold header_with.
  destruct (N.ltb_spec (lenN (utf8 (f_name f))) 1013).
  - replace (_ && _) with true by lia. do 3 f_equal. f_equal. rewrite app_length. unfold lenN. cbn [length]. lia.
  - replace (3082 + (lenN (utf8 (f_name f)) + 1) <=? 4095) with false by lia. now rewrite andb_false_r.
Qed.

Lemma header_with_len n : lenN (utf8 n) < 1013 -> lenN (header_with n) = 4095.
Proof.
  intros H. unfold header_with. rewrite !lenN_app. pose proof header_len as L. unfold lenN in *.
  rewrite firstn_length, skipn_length, app_length. cbn [length]. lia.
Qed.

(** A block of 4096 zero bytes appended, then the next pointer set. *)
Definition block (n : N) : list N := zeros 9 ++ be4 n ++ zeros 4083.

Lemma block_len n : lenN (block n) = 4096.
Proof. unfold block. rewrite !lenN_app, !lenN_zeros, be4_len. reflexivity. Qed.

Lemma to_be_be4 n : n < 256 -> to_be_bytes n = be4 n.
Proof.
  intros H. unfold to_be_bytes, be4. change (2 ^ 24) with 16777216. change (2 ^ 16) with 65536. change (2 ^ 8) with 256.
  f_equal. lia.
Qed.

Lemma append_next buf i n : n < 256 ->
  (s <- append_blank_chunk (mkAsm buf i) ;; set_next n s) = Ok (mkAsm (buf ++ block n) (lenN buf + 1)).
Proof.
  intros Hn. unfold append_blank_chunk. cbn [abuf]. change (repeat 0 (N.to_nat 4096)) with (zeros 4096).
  rewrite lenN_app, lenN_zeros. unfold subU. replace (4095 <=? lenN buf + 4096) with true by lia. cbn [bind].
  unfold set_next. cbn [abuf aidx].
  replace (zeros 4096) with (zeros 9 ++ zeros 4 ++ zeros 4083) by (rewrite !zeros_app; reflexivity).
  rewrite (app_assoc buf).
  replace (lenN buf + 4096 - 4095 + 8) with (lenN (buf ++ zeros 9)) by (rewrite lenN_app, lenN_zeros; lia).
  replace (lenN buf + 4096 - 4095 + 12) with (lenN (buf ++ zeros 9) + lenN (zeros 4)) by (rewrite lenN_app, !lenN_zeros; lia).
  rewrite splice_at. cbn [bind]. f_equal. f_equal; [|lia].
  unfold block. rewrite <- app_assoc. rewrite to_be_be4 by lia. reflexivity.
Qed.

Definition front (f : fmpfile) : list N :=
  header_with (f_name f) ++ block 4 ++ zeros 9 ++ be4 3 ++ zeros 8.

Lemma front_len f : lenN (utf8 (f_name f)) < 1013 -> lenN (front f) = 8212.
Proof.
  intros H. unfold front. rewrite !lenN_app, header_with_len, block_len, !lenN_zeros, be4_len by auto. reflexivity.
Qed.

Lemma front_state f : lenN (utf8 (f_name f)) < 1013 ->
  (s <- append_blank_chunk (mkAsm (header_with (f_name f)) 0) ;; s <- set_next 4 s ;;
   s <- append_blank_chunk s ;; s <- set_next 3 s ;; skip 20 s) = Ok (st 12287 (front f)).
Proof.
  intros H.
  replace (s <- append_blank_chunk (mkAsm (header_with (f_name f)) 0) ;; s <- set_next 4 s ;;
           s <- append_blank_chunk s ;; s <- set_next 3 s ;; skip 20 s)
    with (s <- (s <- append_blank_chunk (mkAsm (header_with (f_name f)) 0) ;; set_next 4 s) ;;
          s <- (s <- append_blank_chunk s ;; set_next 3 s) ;; skip 20 s).
  - rewrite append_next by lia. cbn [bind]. rewrite append_next by lia. cbn [bind]. unfold skip. cbn [abuf aidx].
    f_equal. unfold st. rewrite front_len by auto. rewrite lenN_app, block_len, header_with_len by auto.
    f_equal. unfold tape. rewrite front_len by auto. change (8212 <=? 12287) with true. cbn iota. unfold front.
    rewrite <- !app_assoc. do 2 f_equal.
  - destruct (append_blank_chunk _); cbn [bind]; auto. destruct (set_next 4 a); cbn [bind]; auto.
    destruct (append_blank_chunk _); cbn [bind]; auto.
Qed.

Lemma emit_noop_all f T s :
  (a <- emit_noop (st T s) ;; emit_all (schema_events f) a) =
  if lenN s + lenN (schema_bytes f) <=? T then Ok (st T (s ++ schema_bytes f)) else Panic.
Proof.
  unfold emit_noop. rewrite emit_byte_st, emit_bytes_st. change (lenN [128]) with 1.
  destruct (schema_ends f) as (es & E). pose proof (sound_schema f) as S. unfold schema_bytes.
  rewrite E in *. rewrite lenN_cons.
  destruct (N.leb_spec (lenN s + 1) T); cbn [bind].
  - rewrite emit_all_st by (apply Forall_app in S; tauto). rewrite lenN_app. change (lenN [128]) with 1.
    rewrite <- app_assoc. cbn [app].
    replace (lenN s + 1 + lenN (stream_bytes (es ++ [Leave]))) with (lenN s + (1 + lenN (stream_bytes (es ++ [Leave])))) by lia.
    reflexivity.
  - destruct (N.leb_spec (lenN s + (1 + lenN (stream_bytes (es ++ [Leave])))) T); auto. lia.
Qed.

Lemma stream_len_ge es : lenN es <= lenN (stream_bytes es).
Proof.
  induction es as [|e es IH]; cbn [stream_bytes flat_map]; [apply N.le_refl|]. rewrite lenN_app, lenN_cons.
  unfold stream_bytes in IH. destruct e; cbn [event_bytes]; rewrite ?lenN_cons; try lia.
  cbv zeta. match goal with |- context [if ?c =? 6 then _ else _] => destruct (c =? 6) end; rewrite ?lenN_cons; lia.
Qed.

Lemma schema_len_ge f : lenN (f_tables f) <= lenN (schema_bytes f).
Proof.
  unfold schema_bytes. rewrite lenN_cons. pose proof (stream_len_ge (schema_events f)).
  assert (lenN (f_tables f) <= lenN (schema_events f)); [|lia].
  unfold schema_events, table_events. rewrite !lenN_app, lenN_map. lia.
Qed.

Lemma image_eq f : lenN (schema_bytes f) <= 4075 ->
  image f = front f ++ schema_bytes f ++ zeros (4075 - lenN (schema_bytes f)) ++ block 4 ++ block 0.
Proof.
  intros H. unfold image.
  assert (E : header_with (f_name f) ++ [0] ++ sector 4 [] ++ sector 3 (schema_bytes f) ++ sector 4 [] ++ sector 0 [] =
    (front f ++ schema_bytes f ++ zeros (4075 - lenN (schema_bytes f)) ++ block 4 ++ block 0) ++ [0]).
  2: { rewrite E. apply removelast_last. }
  unfold front, sector, block. change (lenN (@nil N)) with 0. rewrite N.sub_0_r. cbn [app].
  assert (Z9 : zeros 9 = 0 :: zeros 8) by reflexivity.
  assert (Zs : forall a b l, zeros a ++ zeros b ++ l = zeros (a + b) ++ l) by (intros; now rewrite app_assoc, zeros_app).
  assert (Z1 : [0] = zeros 1) by reflexivity.
  rewrite <- !app_assoc. f_equal. change (0 :: zeros 8 ++ be4 4 ++ zeros 8 ++ zeros 4076 ++ ?l) with
    (zeros 9 ++ be4 4 ++ zeros 8 ++ zeros 4076 ++ l).
  rewrite Z1. f_equal. f_equal. rewrite !Zs, !zeros_app.
  change (8 + 4076) with 4084. change (4084 + 8) with 4092. change (4083 + 9) with 4092. change (4083 + 1) with 4084.
  f_equal. f_equal. f_equal. f_equal. f_equal. f_equal. lia.
Qed.

Lemma tail_blocks b i :
  (s <- append_blank_chunk (mkAsm b i) ;; s <- set_next 4 s ;; s <- skip 20 s ;; s <- append_blank_chunk s ;; set_next 0 s)
  = Ok (mkAsm (b ++ block 4 ++ block 0) (lenN b + 4097)).
Proof.
  replace (s <- append_blank_chunk (mkAsm b i) ;; s <- set_next 4 s ;; s <- skip 20 s ;; s <- append_blank_chunk s ;; set_next 0 s)
    with (s <- (s <- append_blank_chunk (mkAsm b i) ;; set_next 4 s) ;;
          s <- skip 20 s ;; (s <- append_blank_chunk s ;; set_next 0 s)).
  - rewrite append_next by lia. cbn [bind]. unfold skip. cbn [bind abuf aidx].
    rewrite append_next by lia. rewrite lenN_app, block_len, <- app_assoc. f_equal. f_equal. lia.
  - destruct (append_blank_chunk _); cbn [bind]; auto.
Qed.

Lemma assoc2 {A B C} (x : outcome A) (g : A -> outcome B) (h : B -> outcome C) :
  (b <- (a <- x ;; g a) ;; h b) = (a <- x ;; b <- g a ;; h b).
Proof. destruct x; reflexivity. Qed.

Lemma not_fits_big f : tables_big f || ids_big (f_occurrences f) = true -> ~ fits f.
Proof.
  intros B (H1 & H2 & H3 & H4). apply ids_big_false in H2, H3. unfold tables_big in B. rewrite H2, H3 in B.
  rewrite orb_false_r in B. cbn [orb] in B. unfold big in B. pose proof (schema_len_ge f). lia.
Qed.

Lemma assemble_image f :
  (fits f -> assemble f = Ok (image f)) /\ (~ fits f -> assemble f = Panic).
Proof.
  unfold assemble, assemble_fmp12.
  cbv zeta. rewrite name_splice.
  destruct (N.ltb_spec (lenN (utf8 (f_name f))) 1013) as [Hn|Hn].
  2: { split; [intros (H1 & _); lia|reflexivity]. }
  cbn [bind].
  match goal with |- (_ -> ?x = _) /\ _ =>
    replace x with
     (s <- (s <- append_blank_chunk (mkAsm (header_with (f_name f)) 0) ;; s <- set_next 4 s ;;
            s <- append_blank_chunk s ;; s <- set_next 3 s ;; skip 20 s) ;;
      s <- emit_noop s ;;
      s <- (s <- emit_init_blobs s ;; s <- emit_table_metadata f s ;; s <- emit_relationship_data f s ;;
            s <- emit_layout_data f s ;; s <- emit_theme_data s ;; s <- emit_script_data f s ;;
            s <- emit_security_data s ;; s <- emit_theme_data s ;; s <- emit_font_data s ;; emit_toolbar_data s) ;;
      s <- (s <- append_blank_chunk s ;; s <- set_next 4 s ;; s <- skip 20 s ;; s <- append_blank_chunk s ;; set_next 0 s) ;;
      Ok (abuf s))
  end.
  2: { rewrite !assoc2. repeat (first [reflexivity | progress rewrite ?assoc2 | apply bind_ext; intros ?]). }
  rewrite front_state by auto. cbn [bind].
  assert (E : (s <- emit_noop (st 12287 (front f)) ;;
      s <- (s <- emit_init_blobs s ;; s <- emit_table_metadata f s ;; s <- emit_relationship_data f s ;;
            s <- emit_layout_data f s ;; s <- emit_theme_data s ;; s <- emit_script_data f s ;;
            s <- emit_security_data s ;; s <- emit_theme_data s ;; s <- emit_font_data s ;; emit_toolbar_data s) ;;
      s <- (s <- append_blank_chunk s ;; s <- set_next 4 s ;; s <- skip 20 s ;; s <- append_blank_chunk s ;; set_next 0 s) ;;
      Ok (abuf s)) =
    if tables_big f || ids_big (f_occurrences f) then Panic else
    (s <- (a <- emit_noop (st 12287 (front f)) ;; emit_all (schema_events f) a) ;;
      s <- (s <- append_blank_chunk s ;; s <- set_next 4 s ;; s <- skip 20 s ;; s <- append_blank_chunk s ;; set_next 0 s) ;;
      Ok (abuf s))).
  { destruct (tables_big f || ids_big (f_occurrences f)) eqn:B.
    - apply bind_panic; [apply emit_byte_nf|]. intros a. rewrite schema_events_run, B. reflexivity.
    - rewrite assoc2. apply bind_ext. intros a. rewrite schema_events_run, B. reflexivity. }
  rewrite E. destruct (tables_big f || ids_big (f_occurrences f)) eqn:B.
  { split; [intros F; exfalso; now apply (not_fits_big f)|reflexivity]. }
  rewrite emit_noop_all, front_len by auto.
  assert (FB : Forall (fun t => fst t < 2 ^ 24) (f_tables f) /\ Forall (fun t => fst t < 2 ^ 24) (f_occurrences f)).
  { apply orb_false_iff in B. destruct B as [B1 B2]. unfold tables_big in B1. apply orb_false_iff in B1.
    destruct B1 as [B1 _]. split; now apply ids_big_false. }
  destruct (N.leb_spec (8212 + lenN (schema_bytes f)) 12287) as [Hp|Hp]; cbn [bind].
  2: { split; [intros (_ & _ & _ & H4); lia|reflexivity]. }
  split.
  2: { intros NF. exfalso. apply NF. unfold fits. repeat split; try tauto; lia. }
  intros _. unfold st. rewrite tail_blocks. cbn [bind abuf]. f_equal. rewrite image_eq by lia.
  unfold tape. rewrite lenN_app, front_len by auto. replace (8212 + lenN (schema_bytes f) <=? 12287) with true by lia.
  rewrite <- !app_assoc. do 3 f_equal. f_equal. lia.
Qed.
