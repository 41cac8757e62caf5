(** A stored schema is read back: the whole schema and the whole file. *)
From Coq Require Import Ascii String NArith ZArith List Bool Lia.
From Verif Require Import Prelude PreludeFacts Utf8 Utf8Facts EncodingModel EncodingProofs CharConvModel ChunkModel ComponentModel
  AsmModel AsmSpec AsmFacts AsmProofs AsmRound AsmLemmas DecompModel DecompStream DecompImage DecompCalcSpec DecompCalc DecompScriptSpec DecompScript
  DecompRecoverSpec DecompRecover DecompRecover2 DecompRecover3.
Import ListNotations.
Local Open Scope N_scope.

(** * Everything stored is readable *)

Lemma within_forall (P : event -> Prop) dirs es : P Leave -> (forall d, P (Enter d)) -> Forall P es -> Forall P (within dirs es).
Proof.
  intros H1 H2 H. induction dirs as [|d ds IH]; cbn [within]; auto. constructor; auto. apply Forall_app. auto.
Qed.

Lemma text_readable k s : k < 256 -> short_text s -> readable (text_ev k s).
Proof.
  intros Hk [H1 H2]. cbn. split; auto. split; [now apply encrypt_bytes|]. unfold fm_string_encrypt. now rewrite PreludeFacts.lenN_map.
Qed.

Lemma flat_forall {A} (P : event -> Prop) (g : A -> list event) (Q : A -> Prop) l :
  (forall a, Q a -> Forall P (g a)) -> Forall Q l -> Forall P (flat_map g l).
Proof. intros H. induction 1; cbn [flat_map]; [constructor|]. apply Forall_app. auto. Qed.

Lemma stored_readable q : well_formed q -> Forall readable (stored q).
Proof.
  intros [[_ W1] [_ W2] [_ W3] [W4 _] [_ W5] [_ W6] [_ W7]]. unfold stored.
  repeat (apply Forall_app; split).
  - apply within_forall; cbn; auto. eapply flat_forall; [|exact W1]. intros [i n] [_ H]. unfold ev_table.
    constructor; [exact I|]. constructor; [apply text_readable; auto; lia|]. repeat constructor.
  - eapply flat_forall; [|exact W2]. intros [i fs] [_ H]. apply within_forall; cbn; auto. cbn [snd] in H.
    eapply flat_forall; [|exact H]. intros [y f] [_ HT]. cbn [snd] in HT.
    inversion HT as [|? ? T1 HT1]; subst. inversion HT1 as [|? ? T2 HT2]; subst. inversion HT2 as [|? ? T3 HT3]; subst.
    inversion HT3 as [|? ? T4 HT4]; subst. inversion HT4 as [|? ? T5 _]; subst. 
    unfold ev_field. cbv zeta. cbn [fst snd]. constructor; [exact I|].
    do 5 (constructor; [apply text_readable; auto; lia|]). repeat constructor.
  - apply within_forall; cbn; auto. eapply flat_forall; [|exact W3]. intros [i [o n]] (H1 & H2 & H3). cbn [fst snd] in *.
    unfold ev_layout. cbn [fst snd]. constructor; [exact I|]. constructor; [|constructor; [apply text_readable; auto; lia|repeat constructor]].
    cbn [readable]. split; [lia|]. split; [|cbn; lia]. repeat (apply bytes_cons; split; [lia|]). constructor.
  - apply within_forall; cbn; auto. eapply flat_forall; [|exact W4]. intros [[t n] rs] (H1 & H2 & H3).
    unfold ev_occurrence. apply Forall_app. split; [|apply Forall_app; split; [|repeat constructor]].
    + constructor; [|constructor; [apply text_readable; auto; lia|repeat constructor]].
      cbn [readable]. split; [lia|]. split; [|cbn; lia]. repeat (apply bytes_cons; split; [lia|]). constructor.
    + clear -H3. induction H3; constructor; auto. cbn [readable]. split; [|cbn; lia].
      repeat (apply bytes_cons; split; [lia|]). constructor.
  - apply within_forall; cbn; auto. eapply flat_forall; [|exact W5]. intros [i [[c a] b]] (H1 & H2 & H3 & H4).
    apply within_forall; cbn; auto. constructor; [|constructor]. split; [lia|]. split; [|cbn; lia].
    repeat (apply bytes_cons; split; [lia|]). constructor.
  - apply within_forall; cbn; auto. eapply flat_forall; [|exact W6]. intros [i n] [_ H]. unfold ev_script.
    constructor; [exact I|]. constructor; [apply text_readable; auto; lia|]. repeat constructor.
  - apply within_forall; cbn; auto. clear -W7. induction W7 as [|[[id n] l] ls H _ IH]; constructor; auto.
    cbn [fst snd readable]. destruct H as (_ & H1 & H2 & H3 & _). auto.
  - apply within_forall; cbn; auto. eapply flat_forall; [|exact W7]. intros [[id n] l] (_ & _ & _ & _ & H1 & H2 & H3).
    unfold ev_source. cbn [fst snd]. constructor; [exact I|]. constructor; [|repeat constructor].
    cbn [readable]. split; [lia|]. auto.
Qed.

(** * The whole schema *)

Lemma occs_back q : occs_of (q_occurrences q) = occurrences_back q.
Proof.
  unfold occs_of, occurrences_back, numbered. rewrite map_map. apply map_ext. intros [i [[t n] rs]]. reflexivity.
Qed.

Lemma pairs_back q : pairs_of (q_occurrences q) = pairs q.
Proof.
  unfold pairs_of, pairs, numbered. induction (combine _ _) as [|[i [[t n] rs]] l IH]; [reflexivity|].
  cbn [map flat_map fst snd]. now rewrite IH.
Qed.

Lemma rels_back q : joined_rels (fun i => match nget (q_joins q) i with Some x => Some x | None => None end)
    (distinct [] (pairs_of (q_occurrences q))) = relations_back q.
Proof.
  rewrite pairs_back. unfold joined_rels, relations_back, numbered. rewrite map_map. apply map_ext. intros [i p].
  cbn [fst snd]. f_equal. unfold joined, relation_back. destruct (nget (q_joins q) (N.of_nat i)) as [[[c a] b]|]; reflexivity.
Qed.

Lemma tables_back_eq q :
  mk_tables (fun id => match nget (q_fields q) id with Some x => add_fields x [] | None => [] end) (q_tables q) = tables_back q.
Proof.
  unfold mk_tables, tables_back. apply map_ext. intros [id n]. cbn [fst snd]. do 2 f_equal.
Qed.

Ltac within_start dirs :=
  match goal with |- context [run_events (within dirs ?es) [] ?s] =>
    let W1 := fresh "W" in let W2 := fresh "P" in
    destruct (run_within dirs [] es s) as [W1 W2];
    [exact still_nil | repeat constructor | cbn [app still_all]; repeat split; still | | rewrite W1; cbn [app]] end.

Lemma source_names l ss : Forall2 source_back l ss ->
  exists ns, Forall2 (fun (e : N * list N * list N) n => decode_bytes (snd (fst e)) = Ok n) l ns.
Proof.
  induction 1 as [|[[id n] lc] r l ss H _ (ns & IH)]; [exists []; constructor|].
  destruct H as (m & lo & D & _). exists (m :: ns). constructor; auto.
Qed.

Lemma run_stored q srcs : well_formed q -> Forall2 source_back (q_sources q) srcs ->
  run_events (stored q) [] (mkD fmpfile_new [] []) =
  Ok (mkD (mkFile [] (tables_back q) (relations_back q) (layouts_back q) [] (scripts_back q) (occurrences_back q) srcs []) [] []).
Proof.
  intros [[N1 W1] [N2 W2] [N3 W3] [W4 N4] [N5 W5] [N6 W6] [N7 W7]] HS. unfold stored.
  (* tables *)
  rewrite run_events_app.
  destruct (run_tables (q_tables q) (mkD fmpfile_new [] []) [] N1 (Forall_nil _) W1 eq_refl) as [R1 P1].
  destruct (run_within [3; 16; 5] [] (flat_map ev_table (q_tables q)) (mkD fmpfile_new [] [])) as [A1 B1];
    [exact still_nil|repeat constructor|cbn [app still_all]; repeat split; still|exact P1|].
  rewrite A1, B1. cbn [app]. rewrite R1. cbn [bind app]. clear A1 B1 R1 P1.
  (* fields *)
  rewrite run_events_app.
  assert (L128 : Forall (fun t => fst t < 128) (q_tables q)) by (eapply Forall_impl; [|exact W1]; cbn; tauto).
  match goal with |- bind (run_events _ _ ?s) _ = _ =>
    destruct (run_all_fields (q_fields q) s (fun _ => []) (q_tables q) N1 L128 N2 W2 eq_refl) as [R1 P1] end.
  rewrite R1, P1. cbn [bind]. rewrite tables_back_eq. clear R1 P1.
  (* layouts *)
  rewrite run_events_app.
  match goal with |- bind (run_events (within _ ?es) _ ?s) _ = _ =>
    destruct (run_layouts (q_layouts q) s [] N3 W3 eq_refl) as [R1 P1];
    destruct (run_within [4; 1; 7] [] es s) as [A1 B1];
    [exact still_nil|repeat constructor|cbn [app still_all]; repeat split; still|exact P1|] end.
  rewrite A1, B1. cbn [app]. rewrite R1. cbn [bind app]. clear A1 B1 R1 P1.
  (* occurrences *)
  rewrite run_events_app.
  match goal with |- bind (run_events (within _ ?es) _ ?s) _ = _ =>
    destruct (run_occurrences (q_occurrences q) s N4 W4 eq_refl eq_refl) as [R1 P1];
    destruct (run_within [3; 17; 5; 0] [] es s) as [A1 B1];
    [exact still_nil|repeat constructor|cbn [app still_all]; repeat split; still|exact P1|] end.
  rewrite A1, B1. cbn [app]. rewrite R1. cbn [bind app]. clear A1 B1 R1 P1.
  (* joins *)
  rewrite run_events_app.
  match goal with |- bind (run_events (within _ ?es) _ ?s) _ = _ =>
    destruct (run_joins (q_joins q) s (fun _ => None) (distinct [] (pairs_of (q_occurrences q))) N5 W5) as [R1 P1];
    [reflexivity|];
    destruct (run_within [3; 251; 5] [] es s) as [A1 B1];
    [exact still_nil|repeat constructor|cbn [app still_all]; repeat split; still|exact P1|] end.
  rewrite A1, B1. cbn [app]. rewrite R1. cbn [bind app]. rewrite rels_back, occs_back. clear A1 B1 R1 P1.
  (* scripts *)
  rewrite run_events_app.
  match goal with |- bind (run_events (within _ ?es) _ ?s) _ = _ =>
    destruct (run_scripts (q_scripts q) s [] N6 W6 eq_refl) as [R1 P1];
    destruct (run_within [17; 1; 1] [] es s) as [A1 B1];
    [exact still_nil|repeat constructor|cbn [app still_all]; repeat split; still|exact P1|] end.
  rewrite A1, B1. cbn [app]. rewrite R1. cbn [bind app]. clear A1 B1 R1 P1.
  (* sources *)
  destruct (source_names _ _ HS) as (ns & HN).
  rewrite run_events_app.
  match goal with |- bind (run_events (within _ ?es) _ ?s) _ = _ =>
    destruct (run_source_names (q_sources q) s ns HN) as [R1 P1];
    destruct (run_within [32; 1; 1] [] es s) as [A1 B1];
    [exact still_nil|repeat constructor|cbn [app still_all]; repeat split; still|exact P1|] end.
  rewrite A1, B1. cbn [app]. rewrite R1. cbn [bind app]. clear A1 B1 R1 P1.
  match goal with |- run_events (within _ ?es) _ ?s = _ =>
    destruct (run_sources (q_sources q) s srcs) as [R1 P1]; [exact N7| |exact HN|exact HS|];
    [|destruct (run_within [32; 5] [] es s) as [A1 B1];
      [exact still_nil|repeat constructor|cbn [app still_all]; repeat split; still|exact P1|]] end.
  - eapply Forall_impl; [|exact W7]. intros [[id n] l]. cbn. tauto.
  - rewrite A1. cbn [app]. rewrite R1. reflexivity.
Qed.

(** * The whole file *)

Lemma balanced_path es : forall p,
  (fix go (depth : nat) (l : list event) : Prop :=
     match l with
     | [] => depth = O
     | Enter _ :: l' => go (S depth) l'
     | Leave :: l' => match depth with O => False | S d => go d l' end
     | _ :: l' => go depth l'
     end) (length p) es -> stream_path es p = [].
Proof.
  induction es as [|e es IH]; intros p H.
  - destruct p; [reflexivity|discriminate].
  - cbn [stream_path]. apply IH. destruct e; cbn [event_path]; auto.
    + rewrite app_length, Nat.add_1_r. exact H.
    + destruct p as [|x p] using rev_ind; [destruct H|]. rewrite app_length, Nat.add_1_r in H. now rewrite removelast_last.
Qed.

Fixpoint run_streams (streams : list (list event)) (s : dstate) : outcome dstate :=
  match streams with [] => Ok s | es :: rest => s <- run_events es [] s ;; run_streams rest s end.

Lemma run_streams_concat streams : Forall balanced streams -> forall s, run_streams streams s = run_events (concat streams) [] s.
Proof.
  induction 1 as [|es rest H _ IH]; intros s; [reflexivity|]. cbn [run_streams concat]. rewrite run_events_app.
  rewrite (balanced_path es []) by exact H. apply bind_ext. auto.
Qed.

Definition chain_ok (streams : list (list event)) : Prop :=
  Forall balanced streams /\ Forall (fun es => Forall readable es /\ lenN (stream_bytes es) <= 4076) streams.

Lemma sector_len next payload : lenN payload <= 4076 -> lenN (sector next payload) = 4096.
Proof. intros H. unfold sector. rewrite !lenN_app, !lenN_zeros. change (lenN (be4 next)) with 4. lia. Qed.

Lemma sector_bytes next payload : next < 2 ^ 32 -> bytes payload -> bytes (sector next payload).
Proof.
  intros H1 H2. unfold sector. apply bytes_app. split; [apply zeros_bytes|]. apply bytes_app. split; [now apply be4_bytes|].
  apply bytes_app. split; [apply zeros_bytes|]. apply bytes_app. split; auto. apply zeros_bytes.
Qed.

Lemma chain_cons i es rest : 
  sector_chain i (es :: rest) = sector (if rest then 0 else i + 1) (stream_bytes es) ++ sector_chain (i + 1) rest.
Proof. destruct rest; cbn [sector_chain]; [now rewrite app_nil_r|reflexivity]. Qed.

Lemma chain_bytes streams : forall i, chain_ok streams -> i + lenN streams < 2 ^ 32 -> bytes (sector_chain i streams).
Proof.
  induction streams as [|es rest IH]; intros i [H1 H2] L; [constructor|]. inversion H1; inversion H2 as [|? ? [HR HL] H2']; subst.
  rewrite lenN_cons in L. rewrite chain_cons. apply bytes_app. split.
  - apply sector_bytes; [destruct rest; lia|]. now apply stream_bytes_bytes.
  - apply IH; [split; auto|lia].
Qed.

Lemma get_int_be4 n : n < 2 ^ 32 -> get_int (be4 n) = n.
Proof.
  intros H. rewrite get_int_be by now apply be4_bytes. cbn -[N.mul N.add N.div N.modulo]. unfold EncodingSpec.be_value. cbn [be4 fold_left]. lia.
Qed.

Lemma chain_loop streams : forall fuel pre i s n,
  streams <> [] -> chain_ok streams -> 2 <= i -> i + lenN streams < 2 ^ 32 -> lenN pre = 4096 * i ->
  n = i + lenN streams -> (N.to_nat 4100 + length streams <= fuel)%nat ->
  sector_loop fuel (pre ++ sector_chain i streams) n i s = run_streams streams s.
Proof.
  induction streams as [|es rest IH]; intros fuel pre i s n HN [H1 H2] Hi L LP Hn Hf; [congruence|].
  inversion H1 as [|? ? BE H1']; inversion H2 as [|? ? [HR HL] H2']; subst. rewrite lenN_cons in *. cbn [length] in Hf.
  destruct fuel as [|fuel]; [lia|]. cbn [sector_loop]. replace (i =? 0) with false by lia.
  rewrite chain_cons. set (next := if rest then 0 else i + 1).
  assert (NX : next < 2 ^ 32) by (unfold next; destruct rest; lia).
  set (tl := sector_chain (i + 1) rest).
  assert (BT : bytes tl) by (apply chain_bytes; [split; auto|lia]).
  set (pre' := pre ++ zeros 8 ++ be4 next ++ zeros 8).
  assert (LP' : lenN pre' = i * 4096 + 20).
  { unfold pre'. rewrite !lenN_app, !lenN_zeros. change (lenN (be4 next)) with 4. lia. }
  assert (EB : pre ++ sector next (stream_bytes es) ++ tl =
               pre' ++ stream_bytes es ++ (zeros (4076 - lenN (stream_bytes es)) ++ tl)).
  { unfold sector, pre'. rewrite <- !app_assoc. reflexivity. }
  set (buf := pre ++ sector next (stream_bytes es) ++ tl) in *.
  assert (LB : i * 4096 + 4096 <= lenN buf) by (unfold buf; rewrite !lenN_app, sector_len by auto; lia).
  assert (S8 : slice buf (i * 4096 + 8) (i * 4096 + 12) = Ok (be4 next)).
  { rewrite EB. unfold pre'. rewrite <- !app_assoc. rewrite (app_assoc pre). apply slice_mid.
    - rewrite lenN_app, lenN_zeros. lia.
    - rewrite lenN_app, lenN_zeros. change (lenN (be4 next)) with 4. lia. }
  destruct (sector_in buf (i * 4096) (be4 next) ltac:(lia) S8) as (rs & sec & E1 & E2 & E3).
  rewrite E1. cbn [bind]. rewrite E2. cbn [bind]. replace (i <? i + (1 + lenN rest)) with true by lia.
  rewrite E3, get_int_be4 by auto.
  pose proof (n_chunks_len es) as NC.
  assert (CL : chunk_loop (S fuel) buf (i * 4096 + 20) (i * 4096 + 4096) (i * 4096) [] s = run_events es [] s).
  { remember (S fuel - n_chunks es)%nat as k eqn:Ek. replace (S fuel) with (n_chunks es + k)%nat by lia.
    rewrite EB, <- LP' at 1. rewrite chunk_loop_stream; auto.
    - rewrite balanced_path by exact BE. rewrite lenN_app, LP'.
      destruct (run_events es [] s) as [s1| |]; cbn [bind]; auto.
      apply zero_run; [rewrite <- EB; lia| |reflexivity|lia].
      intros j J1 J2 _. rewrite app_assoc. apply nth_zeros; rewrite lenN_app, LP'; lia.
    - apply bytes_app. split; auto. apply zeros_bytes.
    - rewrite <- EB. lia.
    - rewrite lenN_app, LP'. lia. }
  rewrite CL. cbn [run_streams]. destruct (run_events es [] s) as [s1| |]; cbn [bind]; auto.
  destruct rest as [|es2 rest].
  - unfold next. cbn [run_streams]. destruct fuel; [lia|]. reflexivity.
  - unfold next. unfold buf, tl. rewrite app_assoc. apply IH; try (split; auto); try lia; try discriminate.
    rewrite lenN_app, sector_len by auto. lia.
Qed.

Lemma decompile_file order fuel streams :
  streams <> [] -> chain_ok streams -> lenN streams + 2 < 2 ^ 32 -> (N.to_nat 4100 + length streams <= fuel)%nat ->
  decompile order fuel (file_of streams) =
  (s <- run_streams streams (mkD fmpfile_new [] []) ;; s <- build_scripts (order (d_segments s)) s ;; Ok (d_file s)).
Proof.
  intros HN HC HL Hf. unfold decompile, file_of.
  set (buf := zeros 4096 ++ sector (lenN streams + 1) [] ++ sector_chain 2 streams).
  assert (LB : 8192 <= lenN buf).
  { unfold buf. rewrite !lenN_app, lenN_zeros, sector_len by (change (lenN (@nil N)) with 0; lia). lia. }
  assert (S8 : slice buf (4096 + 8) (4096 + 12) = Ok (be4 (lenN streams + 1))).
  { unfold buf, sector. rewrite <- !app_assoc. rewrite (app_assoc (zeros 4096)). apply slice_mid; rewrite lenN_app, !lenN_zeros; reflexivity. }
  destruct (sector_in buf 4096 _ ltac:(lia) S8) as (rs & sec & E1 & E2 & E3).
  rewrite E1. cbn [bind]. rewrite E2. cbn [bind]. rewrite E3, get_int_be4 by lia.
  unfold buf. rewrite app_assoc. rewrite chain_loop; auto; try lia.
Qed.

Lemma schema_recovered order fuel q srcs streams :
  well_formed q -> Forall2 source_back (q_sources q) srcs ->
  concat streams = stored q -> Forall balanced streams -> Forall (fun es => lenN (stream_bytes es) <= 4076) streams ->
  lenN streams + 2 < 2 ^ 32 -> (N.to_nat 4100 + length streams <= fuel)%nat -> order [] = [] ->
  decompile order fuel (file_of streams) =
  Ok (mkFile [] (tables_back q) (relations_back q) (layouts_back q) [] (scripts_back q) (occurrences_back q) srcs []).
Proof.
  intros W HS EC HB HL HN Hf Ho. rewrite decompile_file; auto.
  - rewrite run_streams_concat, EC by auto. rewrite (run_stored q srcs) by auto. cbn [bind d_segments]. rewrite Ho. reflexivity.
  - intros ->. cbn in EC. unfold stored in EC. cbn [within app] in EC. discriminate.
  - split; auto. pose proof (stored_readable q W) as R. rewrite <- EC in R. clear -R HL.
    induction HL as [|es l H _ IH]; constructor; cbn [concat] in R; apply Forall_app in R as [R1 R2]; auto.
Qed.
