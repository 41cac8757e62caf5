(** Reading a stream of storage events with the decompiler's chunk loop. *)
From Coq Require Import Ascii String NArith ZArith List Bool Lia.
From Verif Require Import Prelude PreludeFacts EncodingModel EncodingProofs
  ChunkModel ChunkSpec ChunkFacts ChunkProofs ChunkLemmas ComponentModel AsmModel AsmSpec AsmFacts AsmProofs AsmRound AsmLemmas DecompModel.
Import ListNotations.
Local Open Scope N_scope.

(** Events whose bytes are read back as they were meant. *)
Definition readable (e : event) : Prop :=
  match e with
  | Enter _ | Leave => True
  | Put k v => k < 256 /\ bytes v /\ lenN v <= 255
  | PutWide k v => 128 <= k /\ k < 384 /\ bytes v /\ lenN v <= 255
  | PutLong k v => bytes k /\ bytes v /\ lenN k <= 255 /\ lenN v <= 255
  | Item v => bytes v /\ 1 <= lenN v /\ lenN v <= 255
  end.

Definition shown (d : N) : N := if d <? 128 then d else 128 + (d - 128) mod 256.

Definition kv_opcode (k : N) (v : list N) : N := if forced k then 6 else short_code (lenN v).

(** The chunks of an event read at [path], with the path after each. *)
Definition event_chunks (e : event) (path : list N) : list (chunk * list N) :=
  match e with
  | Enter d =>
    let p := path ++ [shown d] in
    [(mkChunk PathPush (if d <? 128 then 0x20 else 0x28) (Some (number d)) None p None None, p);
     (mkChunk Noop 0x80 None None p None None, p)]
  | Leave => let p := removelast path in [(mkChunk PathPop 0x40 None None p None None, p)]
  | Put k v => [(mkChunk RefSimple (kv_opcode k v) (Some v) None path None (Some k), path)]
  | PutWide k v => [(mkChunk RefSimple 0x0e (Some v) None path None (Some k), path)]
  | PutLong k v => [(mkChunk RefLong 0x1e (Some v) (Some k) path None None, path)]
  | Item v => [(mkChunk DataSimple 0x1b (Some v) None path None None, path)]
  end.

Definition event_path (e : event) (path : list N) : list N :=
  match e with Enter d => path ++ [shown d] | Leave => removelast path | _ => path end.

Fixpoint run_chunks (l : list (chunk * list N)) (s : dstate) : outcome dstate :=
  match l with
  | [] => Ok s
  | (ch, p) :: l' => s <- dispatch p ch s ;; run_chunks l' s
  end.

Fixpoint run_events (es : list event) (path : list N) (s : dstate) : outcome dstate :=
  match es with
  | [] => Ok s
  | e :: es' => s <- run_chunks (event_chunks e path) s ;; run_events es' (event_path e path) s
  end.

Fixpoint stream_path (es : list event) (path : list N) : list N :=
  match es with [] => path | e :: es' => stream_path es' (event_path e path) end.

Fixpoint n_chunks (es : list event) : nat :=
  match es with [] => O | Enter _ :: es' => S (S (n_chunks es')) | _ :: es' => S (n_chunks es') end.

(** * One chunk *)

Lemma get_one pre enc tail path start c r late :
  bytes (enc ++ tail) -> 2 <= lenN (pre ++ enc ++ tail) ->
  spec_read (enc ++ tail) = SRead c r late -> rused r = lenN enc ->
  get_chunk (pre ++ enc ++ tail) (lenN pre) path start =
  Ok (ROk (chunk_of c r late path, lenN (pre ++ enc), apply_dir (rdir r) late path)).
Proof.
  intros Hb H2 Hs Hu. rewrite get_chunk_spec by auto. rewrite Hs. cbn [expected]. now rewrite Hu, lenN_app.
Qed.

Lemma event_bytes_pos e : 1 <= lenN (event_bytes e).
Proof.
  destruct e; cbn [event_bytes]; rewrite ?lenN_cons; try lia.
  cbv zeta. match goal with |- context [if ?c =? 6 then _ else _] => destruct (c =? 6) end; rewrite ?lenN_cons; lia.
Qed.

Lemma short_code_short n : short_code n <> 6 -> In (short_code n, n) [(1, 1); (2, 2); (3, 4); (4, 6); (5, 8)].
Proof.
  unfold short_code. destruct n as [|p]; [congruence|].
  repeat match goal with |- context [match ?p with xI _ => _ | xO _ => _ | xH => _ end] =>
                         destruct p as [p|p|]; try congruence end; cbn; auto 10.
Qed.

(** Single-chunk events. *)
Lemma read_single e pre tail path start :
  readable e -> (forall d, e <> Enter d) -> bytes tail -> 2 <= lenN (pre ++ event_bytes e ++ tail) ->
  exists ch, event_chunks e path = [(ch, event_path e path)] /\
    get_chunk (pre ++ event_bytes e ++ tail) (lenN pre) path start =
    Ok (ROk (ch, lenN (pre ++ event_bytes e), event_path e path)).
Proof.
  intros Hr Hn Hb H2. destruct e as [d| |k v|k v|k v|v]; cbn [readable event_path event_chunks] in *.
  - now destruct (Hn d).
  - eexists. split; [reflexivity|]. cbn [event_bytes] in *.
    erewrite (get_one pre [64] tail path start 64 (mkReading KPop None None None None ChunkSpec.Leave 1) false);
      [reflexivity| | | |reflexivity]; auto.
    + now apply bytes_cons.
    + cbn [app spec_read]. rewrite split_small by lia. unfold read_body. destruct tail; reflexivity.
  - eexists. split; [reflexivity|]. destruct Hr as (Hk & Hv & Hl).
    cbn [event_bytes] in *. cbv zeta in *. fold (kv_opcode k v) in *.
    destruct (N.eqb_spec (kv_opcode k v) 6) as [E|E].
    + erewrite (get_one pre (6 :: k :: lenN v mod 256 :: v) tail path start 6
                 (mkReading KKey (Some k) None (Some v) None Stay (3 + lenN v)) false).
      * unfold chunk_of. rewrite E. reflexivity.
      * cbn [app]. repeat (apply bytes_cons; split; [lia|]). now apply bytes_app.
      * auto.
      * cbn [app spec_read]. rewrite split_small by lia. cbn [read_body]. change (layout_of 6 k) with (Some (LKey8 Len8)).
        cbv zeta. change (lead_of 6 k) with 0. cbn [N.to_nat skipn read_layout ChunkSpec.field].
        rewrite N.mod_small, take_app_lenN by lia. f_equal. f_equal. lia.
      * rewrite !lenN_cons. cbn [rused]. lia.
    + assert (S : In (kv_opcode k v, lenN v) [(1, 1); (2, 2); (3, 4); (4, 6); (5, 8)]).
      { unfold kv_opcode in *. destruct (forced k); [congruence|]. now apply short_code_short. }
      set (c := kv_opcode k v) in *. clearbody c.
      erewrite (get_one pre (c :: k :: v) tail path start c
                 (mkReading KKey (Some k) None (Some v) None Stay (2 + lenN v)) false).
      * reflexivity.
      * cbn [app]. assert (c < 256) by (cbn in S; repeat destruct S as [S|S]; try contradiction; injection S as <- _; lia).
        repeat (apply bytes_cons; split; [lia|]). now apply bytes_app.
      * auto.
      * cbn [app spec_read].
        assert (L : forall n, layout_of c n = Some (LKey8 (Exactly (lenN v)))) by
          (intros n; cbn [In] in S; repeat destruct S as [S|S]; try contradiction; injection S as <- <-; reflexivity).
        assert (LD : lead_of c k = 0 /\ c < 192) by
          (cbn [In] in S; repeat destruct S as [S|S]; try contradiction; injection S as <- _; split; reflexivity).
        destruct LD as [LD LC]. rewrite split_small by auto. cbn [read_body]. rewrite L, LD. cbn [N.to_nat skipn read_layout ChunkSpec.field].
        rewrite take_app_lenN. f_equal. 
      * rewrite !lenN_cons. cbn [rused]. lia.
  - eexists. split; [reflexivity|]. destruct Hr as (Hk & Hk2 & Hv & Hl). cbn [event_bytes] in *.
    erewrite (get_one pre (14 :: number k ++ lenN v mod 256 :: v) tail path start 14
                 (mkReading KKey (Some k) None (Some v) None Stay (4 + lenN v)) false).
    + reflexivity.
    + apply bytes_app. split; auto. apply bytes_cons. split; [lia|]. apply bytes_app. split; [apply number_bytes|].
      apply bytes_cons. split; auto. lia.
    + auto.
    + unfold number. replace (k <? 128) with false by lia. cbn [app spec_read]. rewrite split_small by lia.
      cbn [read_body]. cbv zeta. replace (lead_of 14 (252 + (k - 128) / 256 mod 4)) with 0 by reflexivity.
      assert (L : layout_of 14 (252 + (k - 128) / 256 mod 4) = Some (LKeyPath Len8)).
      { unfold layout_of. replace (252 + (k - 128) / 256 mod 4 =? 255) with false by lia. reflexivity. }
      rewrite L. cbn [N.to_nat skipn read_layout ChunkSpec.field]. rewrite (N.mod_small (lenN v)), take_app_lenN by lia.
      f_equal. f_equal; [f_equal; lia|lia].
    + rewrite !lenN_cons, lenN_app, lenN_cons. cbn [rused]. unfold number. replace (k <? 128) with false by lia.
      change (lenN [252 + (k - 128) / 256 mod 4; (k - 128) mod 256]) with 2. lia.
  - eexists. split; [reflexivity|]. destruct Hr as (Hk & Hv & Hk2 & Hl). cbn [event_bytes] in *.
    erewrite (get_one pre (30 :: lenN k mod 256 :: k ++ lenN v mod 256 :: v) tail path start 30
                 (mkReading KLongKey None (Some k) (Some v) None Stay (3 + lenN k + lenN v)) false).
    + reflexivity.
    + apply bytes_app. split; auto. do 2 (apply bytes_cons; split; [lia|]). apply bytes_app. split; auto.
      apply bytes_cons. split; auto. lia.
    + auto.
    + cbn [app spec_read]. rewrite split_small by lia. cbn [read_body]. cbv zeta.
      change (layout_of 30 (lenN k mod 256)) with (Some (LLong Len8 Len8)).
      replace (lead_of 30 (lenN k mod 256)) with 0 by reflexivity. cbn [N.to_nat skipn read_layout].
      rewrite <- app_assoc. cbn [app ChunkSpec.field]. rewrite (N.mod_small (lenN k)), take_app_lenN by lia.
      rewrite (N.mod_small (lenN v)), take_app_lenN by lia. f_equal. f_equal. lia.
    + rewrite !lenN_cons, lenN_app, lenN_cons. cbn [rused]. lia.
  - eexists. split; [reflexivity|]. destruct Hr as (Hv & Hl & Hl2). cbn [event_bytes] in *.
    erewrite (get_one pre (27 :: lenN v mod 256 :: v ++ [0; 0; 0; 0]) tail path start 27
                 (mkReading KData None None (Some v) None Stay (6 + lenN v)) false).
    + reflexivity.
    + apply bytes_app. split; auto. do 2 (apply bytes_cons; split; [lia|]). apply bytes_app. split; auto. repeat constructor.
    + auto.
    + cbn [app spec_read]. rewrite split_small by lia. cbn [read_body]. cbv zeta.
      assert (L : layout_of 27 (lenN v mod 256) = Some (LData Len8 4)).
      { unfold layout_of. replace (lenN v mod 256 =? 0) with false by lia. reflexivity. }
      rewrite L. unfold lead_of. replace (lenN v mod 256 =? 0) with false by lia. rewrite andb_false_r.
      cbn [N.to_nat skipn read_layout ChunkSpec.field]. rewrite <- app_assoc.
      rewrite (N.mod_small (lenN v)), take_app_lenN by lia. f_equal. f_equal. lia.
    + rewrite !lenN_cons, lenN_app. change (lenN [0; 0; 0; 0]) with 4. cbn [rused]. lia.
Qed.

Lemma loop_step fuel buf off bound start path s ch off' path' :
  off < bound -> get_chunk buf off path start = Ok (ROk (ch, off', path')) ->
  chunk_loop (S fuel) buf off bound start path s =
  (s' <- dispatch path' ch s ;; chunk_loop fuel buf off' bound start path' s').
Proof. intros H E. cbn [chunk_loop]. replace (off <? bound) with true by lia. now rewrite E. Qed.

Lemma push_chunks pre d tail path start :
  bytes tail -> 
  let op := if d <? 128 then 0x20 else 0x28 in
  get_chunk (pre ++ event_bytes (Enter d) ++ tail) (lenN pre) path start =
    Ok (ROk (mkChunk PathPush op (Some (number d)) None (path ++ [shown d]) None None, lenN (pre ++ op :: number d), path ++ [shown d])) /\
  get_chunk (pre ++ event_bytes (Enter d) ++ tail) (lenN (pre ++ op :: number d)) (path ++ [shown d]) start =
    Ok (ROk (mkChunk Noop 0x80 None None (path ++ [shown d]) None None, lenN (pre ++ event_bytes (Enter d)), path ++ [shown d])).
Proof.
  intros Hb op. cbn [event_bytes]. fold op.
  assert (Hop : op < 256) by (subst op; destruct (d <? 128); lia).
  replace (pre ++ (op :: number d ++ [128]) ++ tail) with (pre ++ (op :: number d) ++ (128 :: tail))
    by (cbn [app]; rewrite <- app_assoc; reflexivity).
  split.
  - erewrite (get_one pre (op :: number d) (128 :: tail) path start op
       (mkReading KPush None None (Some (number d)) None (ChunkSpec.Enter (shown d)) (1 + lenN (number d))) false).
    + reflexivity.
    + apply bytes_app. split; [|apply bytes_cons; split; auto; lia]. apply bytes_cons. split; auto. apply number_bytes.
    + rewrite !lenN_app, !lenN_cons. lia.
    + subst op. unfold number, shown. destruct (N.ltb_spec d 128) as [H|H].
      * cbn [app spec_read]. rewrite split_small by lia. cbn [read_body].
        assert (L : layout_of 32 d = Some LPush8) by (unfold layout_of; replace (d =? 254) with false by lia; reflexivity).
        rewrite L. reflexivity.
      * cbn [app spec_read]. rewrite split_small by lia. cbn [read_body].
        assert (L : forall x, layout_of 40 x = Some LPush16) by reflexivity. rewrite L. reflexivity.
    + cbn [rused]. now rewrite lenN_cons.
  - rewrite app_assoc. change (128 :: tail) with ([128] ++ tail).
    erewrite (get_one (pre ++ op :: number d) [128] tail (path ++ [shown d]) start 128
       (mkReading KNothing None None None None Stay 1) false).
    + cbn [chunk_of rkind rkey rref rdata rused rdir kind_type apply_dir rseg]. do 3 f_equal.
      rewrite <- app_assoc. reflexivity.
    + now apply bytes_cons.
    + rewrite !lenN_app, !lenN_cons. lia.
    + cbn [app spec_read]. rewrite split_small by lia. unfold read_body. destruct tail; reflexivity.
    + reflexivity.
Qed.

Lemma stream_cons e es : stream_bytes (e :: es) = event_bytes e ++ stream_bytes es.
Proof. reflexivity. Qed.

Lemma event_bytes_bytes e : readable e -> bytes (event_bytes e).
Proof.
  destruct e as [d| |k v|k v|k v|v]; cbn [readable event_bytes]; intros H.
  - apply bytes_cons. split; [destruct (d <? 128); lia|]. apply bytes_app. split; [apply number_bytes|repeat constructor].
  - repeat constructor.
  - destruct H as (Hk & Hv & Hl). cbv zeta. fold (kv_opcode k v).
    pose proof (short_code_range (lenN v)).
    assert (kv_opcode k v < 256) by (unfold kv_opcode; destruct (forced k); lia).
    destruct (kv_opcode k v =? 6); repeat (apply bytes_cons; split; [lia|]); auto.
  - destruct H as (_ & _ & Hv & _). apply bytes_cons. split; [lia|]. apply bytes_app. split; [apply number_bytes|].
    apply bytes_cons. split; auto. lia.
  - destruct H as (Hk & Hv & _). do 2 (apply bytes_cons; split; [lia|]). apply bytes_app. split; auto.
    apply bytes_cons. split; auto. lia.
  - destruct H as (Hv & _). do 2 (apply bytes_cons; split; [lia|]). apply bytes_app. split; auto. repeat constructor.
Qed.

Lemma stream_bytes_bytes es : Forall readable es -> bytes (stream_bytes es).
Proof.
  induction 1 as [|e es He _ IH]; [constructor|]. rewrite stream_cons. apply bytes_app. split; auto.
  now apply event_bytes_bytes.
Qed.

(** The loop reads the events and goes on behind them. *)
Lemma chunk_loop_stream es : forall fuel pre tail bound start path s,
  Forall readable es -> bytes tail -> 2 <= lenN (pre ++ stream_bytes es ++ tail) ->
  lenN (pre ++ stream_bytes es) <= bound ->
  chunk_loop (n_chunks es + fuel) (pre ++ stream_bytes es ++ tail) (lenN pre) bound start path s =
  (s' <- run_events es path s ;;
   chunk_loop fuel (pre ++ stream_bytes es ++ tail) (lenN (pre ++ stream_bytes es)) bound start (stream_path es path) s').
Proof.
  induction es as [|e es IH]; intros fuel pre tail bound start path s HR Hb H2 HB.
  - cbn [n_chunks plus stream_bytes flat_map run_events bind stream_path]. now rewrite app_nil_r.
  - inversion HR as [|? ? He Hes]; subst.
    rewrite stream_cons in *. pose proof (event_bytes_pos e) as Pe.
    assert (Hb' : bytes (stream_bytes es ++ tail)) by (apply bytes_app; split; auto; now apply stream_bytes_bytes).
    rewrite <- app_assoc in H2. rewrite lenN_app, lenN_app in HB.
    assert (STEP : forall s1, chunk_loop (n_chunks es + fuel) (pre ++ event_bytes e ++ stream_bytes es ++ tail)
                      (lenN (pre ++ event_bytes e)) bound start (event_path e path) s1 =
             (s' <- run_events es (event_path e path) s1 ;;
              chunk_loop fuel (pre ++ event_bytes e ++ stream_bytes es ++ tail)
                (lenN (pre ++ event_bytes e ++ stream_bytes es)) bound start (stream_path es (event_path e path)) s')).
    { intros s1. rewrite app_assoc. rewrite IH; auto.
      - apply bind_ext. intros s'. now rewrite <- !app_assoc.
      - now rewrite <- app_assoc.
      - rewrite !lenN_app. lia. }
    rewrite <- !app_assoc. cbn [run_events stream_path].
    destruct e as [d| |k v|k v|k v|v].
    1: { cbn [n_chunks plus event_chunks run_chunks event_path]. 
         destruct (push_chunks pre d (stream_bytes es ++ tail) path start Hb') as [P1 P2].
         set (op := if d <? 128 then 32 else 40) in *.
         assert (Lp : lenN (pre ++ op :: number d) < lenN (pre ++ event_bytes (Enter d))).
         { cbn [event_bytes]. fold op. rewrite !lenN_app, !lenN_cons, lenN_app. change (lenN [128]) with 1. lia. }
         rewrite (lenN_app pre (event_bytes (Enter d))) in Lp.
         assert (L0 : lenN pre <= lenN (pre ++ op :: number d)) by (rewrite lenN_app; lia).
         erewrite loop_step; [|lia|exact P1].
         destruct (dispatch (path ++ [shown d]) _ s) as [s1| |]; cbn [bind]; auto.
         erewrite loop_step; [|lia|exact P2].
         destruct (dispatch (path ++ [shown d]) _ s1) as [s2| |]; cbn [bind]; auto. }
    all: match goal with |- context [event_chunks ?e ?q] =>
           destruct (read_single e pre (stream_bytes es ++ tail) q start He ltac:(discriminate) Hb' H2) as (ch & EC & G) end;
         rewrite EC; cbn [n_chunks plus run_chunks];
         (erewrite loop_step; [|lia|exact G]);
         destruct (dispatch _ ch s) as [s1| |]; cbn [bind]; auto.
Qed.

(** * Zero padding *)

Definition zero_chunk (path : list N) : chunk := mkChunk DataSimple 0 (Some []) None path None None.

Lemma get_zero buf off path start : nthN buf off = Some 0 -> 2 <= lenN buf ->
  get_chunk buf off path start = Ok (ROk (zero_chunk path, off + 2, path)).
Proof.
  intros H H2. unfold get_chunk, at_. rewrite H. cbn [unwrap bind]. change (N.land 0 192 =? 192) with false. cbn iota.
  unfold chunk_arms. change (0 =? 0) with true. cbn iota.
  apply nthN_lt in H.
  assert (E : slice buf (off + 1) (off + 1) = Ok []).
  { unfold slice. replace ((off + 1 <=? off + 1) && (off + 1 <=? lenN buf)) with true by lia.
    now rewrite N.sub_diag. }
  rewrite E. cbn [bind].
  destruct (nthN_ex buf 1 ltac:(lia)) as (x & Hx). unfold at_. rewrite Hx. reflexivity.
Qed.

Lemma zero_run fuel : forall buf off bound start path s,
  2 <= lenN buf ->
  (forall i, off <= i -> i < bound -> (i - off) mod 2 = 0 -> nthN buf i = Some 0) ->
  dispatch path (zero_chunk path) s = Ok s ->
  (N.to_nat (bound - off) < fuel)%nat ->
  chunk_loop fuel buf off bound start path s = Ok s.
Proof.
  induction fuel as [|fuel IH]; intros buf off bound start path s H2 Hz Hd Hf; [lia|].
  destruct (N.ltb_spec off bound) as [H|H].
  - erewrite loop_step; [|auto|apply get_zero; auto; apply Hz; auto; [lia|rewrite N.sub_diag; reflexivity]].
    rewrite Hd. cbn [bind]. apply IH; auto; [|lia].
    intros i Hi1 Hi2 Hi3. apply Hz; auto; [lia|].
    replace (i - off) with (i - (off + 2) + 1 * 2) by lia. rewrite N.mod_add by lia. auto.
  - cbn [chunk_loop]. now replace (off <? bound) with false by lia.
Qed.
