(** Which files stop the decompiler. *)
From Coq Require Import NArith Arith List Bool Lia Permutation.
From Verif Require Import Prelude PreludeFacts Utf8 EncodingModel EncodingSpec CharConvModel ChunkModel ChunkMain InstrModel ComponentModel DecompModel DecompSpec
  DecompCalcSpec DecompCalc DecompScriptSpec DecompScript DecompChain HistorySpec History History2 History3 StepsSpec Steps Steps2 Steps3 AbortSpec Abort Abort2 Abort3.
Import ListNotations.
Local Open Scope N_scope.

(** ** The scripts at the end *)
Lemma build_good l : forall s, NoDup (keys l) -> (good (build_scripts l s) <->
  forall k segs, In (k, segs) l -> exists sts, decode_list (nam s) 28 (chunks 28 (concat (map snd segs))) = Ok sts /\ (sts <> [] -> has_script s k)).
Proof.
  induction l as [|[sid segs] l IH]; intros s ND; cbn [build_scripts]; [apply good_ok_iff; intros k segs []|].
  inversion ND as [|? ? N1 N2]; subst. split.
  - intros (s' & H) k g. destruct (build_script sid segs s) as [s1| |] eqn:E; try discriminate. cbn [bind] in H.
    unfold build_script in E. pose proof (loop_script _ _ _ _ _ _ E) as LS. apply steps_loop_inv in E as (sts & D & P & O & Nm).
    intros [[= <- <-]|I].
    + exists sts. split; [exact D|]. now apply LS.
    + assert (G : good (build_scripts l s1)) by (now exists s'). apply (proj1 (IH s1 N2)) with (1 := G) in I as (sts' & D' & S'). exists sts'.
      rewrite (decode_list_names _ (nam s)) in D' by exact Nm. split; [exact D'|]. intros X. specialize (S' X). specialize (Nm k). unfold has_script, names_of in *.
      destruct (nget (nam s) k); [discriminate|]. destruct (nget (nam s1) k); [discriminate|congruence].
  - intros H. destruct (H sid segs (or_introl eq_refl)) as (sts & D & S).
    assert (G : good (build_script sid segs s)).
    { unfold build_script. eapply steps_loop_good; [exact D|exact S|apply put_append_good]. }
    destruct G as (s1 & E). rewrite E. cbn [bind]. unfold build_script in E. apply steps_loop_inv in E as (_ & _ & _ & _ & Nm).
    apply IH; [exact N2|]. intros k g I. destruct (H k g (or_intror I)) as (sts' & D' & S'). exists sts'.
    rewrite (decode_list_names _ (nam s)) by exact Nm. split; [exact D'|]. intros X. specialize (S' X). specialize (Nm k). unfold has_script, names_of in *.
    destruct (nget (nam s1) k); [discriminate|]. destruct (nget (nam s) k); [discriminate|congruence].
Qed.

Lemma segments_iff h s : so_far h s -> (good (build_scripts (d_segments s) s) <-> segments_ok h).
Proof.
  intros F. pose proof (sf_good _ _ F) as [ND GS]. pose proof (sf_names _ _ F) as FN. rewrite build_good by exact ND. unfold segments_ok. rewrite Forall_forall in GS. split.
  - intros H k d (segs & A & B & ->). pose proof (sf_segs _ _ F k) as FS. destruct (nget (d_segments s) k) as [g|] eqn:G.
    + assert (I : In (k, g) (d_segments s)) by (apply (mget_In N.eqb N.eqb_spec) in G; exact G).
      assert (E : segs = g) by (apply increasing_inj; [exact A|exact (GS _ I)|intros i; now rewrite B, FS]). subst g.
      destruct (H _ _ I) as (sts & D & S). exists sts. split; [eapply steps_in_ext; [exact FN|now apply code_steps]|]. intros X. apply (named_iff h s k F). auto.
    + assert (E : segs = []).
      { apply (increasing_inj segs []); [exact A|constructor|]. intros i. rewrite B, FS. reflexivity. }
      subst segs. exists []. split; [|intros X; now contradiction X]. exists [], []. split; [constructor|]. split; [constructor|reflexivity].
  - intros H k segs I. assert (G : nget (d_segments s) k = Some segs) by (apply (In_mget N.eqb N.eqb_spec); auto).
    pose proof (sf_segs _ _ F k) as FS. rewrite G in FS.
    destruct (H k (concat (map snd segs))) as (l & S & X).
    { exists segs. split; [exact (GS _ I)|]. split; [exact FS|reflexivity]. }
    exists l. split; [apply steps_code; eapply steps_in_ext; [|exact S]; intros j; symmetry; apply FN|]. intros Y. apply (named_iff h s k F). auto.
Qed.

(** ** Sectors *)
Lemma good_sector l : 20 <= lenN l -> good (get_sector l).
Proof.
  intros H. unfold get_sector, at_.
  destruct (nthN l 0) eqn:A; [|exfalso; revert A; apply nth_some; lia]. destruct (nthN l 1) eqn:B; [|exfalso; revert B; apply nth_some; lia]. cbn [unwrap bind].
  unfold slice. destruct (N.leb_spec 8 (lenN l)); [|lia]. destruct (N.leb_spec 12 (lenN l)); [|lia]. destruct (N.leb_spec 20 (lenN l)); [|lia]. rewrite N.leb_refl. apply good_ok.
Qed.
Lemma tail_len (buf : list N) a rest : slice buf a (lenN buf) = Ok rest -> a + lenN rest = lenN buf.
Proof. intros H. apply slice_len in H as L. unfold slice in H. destruct (N.leb_spec a (lenN buf)); [|discriminate]. lia. Qed.

Lemma header_iff buf i : (exists rest sec, slice buf (i * 4096) (lenN buf) = Ok rest /\ get_sector rest = Ok sec) <-> 4096 * i + 20 <= lenN buf.
Proof.
  split.
  - intros (rest & sec & S & G). apply tail_len in S. destruct (N.ltb_spec (lenN rest) 20) as [L|L]; [rewrite header_short in G by exact L; discriminate|]. lia.
  - intros L. assert (S : exists rest, slice buf (i * 4096) (lenN buf) = Ok rest).
    { unfold slice. destruct (N.leb_spec (i * 4096) (lenN buf)); [|lia]. rewrite N.leb_refl. cbn [andb]. eauto. }
    destruct S as (rest & S). pose proof (tail_len _ _ _ S). destruct (good_sector rest) as (sec & G); [lia|]. eauto.
Qed.

Lemma chunk_loop_run buf bound start : forall off path h, reads buf bound start off path h ->
  forall fuel s, (length h < fuel)%nat -> chunk_loop fuel buf off bound start path s = run_history h s.
Proof.
  induction 1 as [off path L|off path ch off' path' h L G R IH]; intros [|fuel] s Hf; try (cbn [length] in Hf; lia); cbn [chunk_loop run_history].
  - destruct (N.ltb_spec off bound); [lia|reflexivity].
  - destruct (N.ltb_spec off bound); [|lia]. rewrite G. cbn [bind]. destruct (dispatch path' ch s); cbn [bind]; try reflexivity. apply IH. cbn [length] in Hf. lia.
Qed.

Lemma sector_loop_run buf last : bytes buf -> forall i h, file_history buf i h -> stays buf last i ->
  exists k, forall fuel s, (k <= fuel)%nat -> sector_loop fuel buf (last + 1) i s = run_history h s.
Proof.
  intros HB. induction 1 as [|i n h h' Hi S R F IH]; intros W.
  - exists 1%nat. intros [|fuel] s Hf; [lia|]. reflexivity.
  - inversion W as [|? n' ? Hl Hb S' W']; subst; [contradiction|]. rewrite (succ_det _ _ _ _ S' S) in W'. destruct (IH W') as (k & IHk).
    exists (Datatypes.S (k + length h)%nat). intros [|fuel] s Hf; [lia|]. cbn [sector_loop]. fold chunk_loop.
    destruct (N.eqb_spec i 0); [contradiction|]. destruct (proj2 (header_iff buf i) Hb) as (rest & sec & E & G). rewrite E. cbn [bind]. rewrite G. cbn [bind].
    destruct (N.ltb_spec i (last + 1)); [|lia].
    assert (C : chunk_loop (Datatypes.S fuel) buf (i * 4096 + 20) (i * 4096 + 4096) (i * 4096) [] s = run_history h s) by (eapply chunk_loop_run; [exact R|lia]).
    match goal with |- bind ?x _ = _ => change x with (chunk_loop (Datatypes.S fuel) buf (i * 4096 + 20) (i * 4096 + 4096) (i * 4096) [] s) end.
    rewrite C, run_app. destruct (run_history h s); cbn [bind]; try reflexivity.
    rewrite (succ_det _ _ _ _ (sector_succ _ _ _ _ HB E G) S). apply IHk. lia.
Qed.

Lemma sector_loop_stays fuel : forall buf last i s s', bytes buf -> sector_loop fuel buf (last + 1) i s = Ok s' -> stays buf last i.
Proof.
  induction fuel as [|fuel IH]; intros buf last i s s' HB H; [discriminate|]. cbn [sector_loop] in H. fold chunk_loop in H.
  destruct (N.eqb_spec i 0) as [->|Hi]; [constructor|].
  destruct (slice buf (i * 4096) (lenN buf)) as [rest| |] eqn:E; try discriminate. cbn [bind] in H.
  destruct (get_sector rest) as [sec| |] eqn:G; try discriminate. cbn [bind] in H.
  destruct (N.ltb_spec i (last + 1)); try discriminate.
  destruct (chunk_loop _ _ _ _ _ _ _) as [s1| |]; try discriminate. cbn [bind] in H.
  eapply StNext; [exact Hi|lia| |eapply sector_succ; eauto|eauto]. apply header_iff. eauto.
Qed.

(** ** The data of records are bytes of the file *)
Lemma reads_bytes buf bound start off path h : bytes buf -> 2 <= lenN buf -> reads buf bound start off path h -> Forall of_bytes h.
Proof.
  intros HB H2. induction 1 as [off path L|off path ch off' path' h L G R IH]; constructor; auto.
  intros d E. cbn [snd] in E. destruct (chunk_inside _ _ _ _ _ _ _ HB H2 G) as (I & _ & _). destruct (I d E) as (x & z & -> & _).
  apply bytes_app in HB as [_ HB]. now apply bytes_app in HB as [HB _].
Qed.
Lemma history_bytes buf i h : bytes buf -> 2 <= lenN buf -> file_history buf i h -> Forall of_bytes h.
Proof.
  intros HB H2. induction 1 as [|i n h h' Hi S R F IH]; [constructor|]. apply Forall_app. split; [eapply reads_bytes; eauto|exact IH].
Qed.

(** ** Whole files *)
Lemma first_sector buf rest first : bytes buf -> slice buf 4096 (lenN buf) = Ok rest -> get_sector rest = Ok first ->
  4096 + 20 <= lenN buf /\ sector_next buf 1 (s_next first).
Proof.
  intros HB S G. change 4096 with (1 * 4096) in S. split; [|eapply sector_succ; eauto]. change (4096 + 20) with (4096 * 1 + 20). apply header_iff. eauto.
Qed.

Lemma decompile_run order buf last h : bytes buf -> 4096 + 20 <= lenN buf -> sector_next buf 1 last -> stays buf last 2 -> file_history buf 2 h ->
  exists k, forall fuel, (k <= fuel)%nat -> decompile order fuel buf =
    (s <- run_history h (mkD fmpfile_new [] []) ;; s <- build_scripts (order (d_segments s)) s ;; Ok (d_file s)).
Proof.
  intros HB L S W F. destruct (sector_loop_run buf last HB 2 h F W) as (k & R). exists k. intros fuel Hf. unfold decompile.
  destruct (proj2 (header_iff buf 1) L) as (rest & first & E & G). change (1 * 4096) with 4096 in E. rewrite E. cbn [bind]. rewrite G. cbn [bind].
  destruct (first_sector _ _ _ HB E G) as [_ S']. rewrite (succ_det _ _ _ _ S' S), R by exact Hf. reflexivity.
Qed.

Lemma decompile_parts order fuel buf f : bytes buf -> decompile order fuel buf = Ok f ->
  4096 + 20 <= lenN buf /\ exists last h s s1, sector_next buf 1 last /\ stays buf last 2 /\ file_history buf 2 h /\
    run_history h (mkD fmpfile_new [] []) = Ok s /\ build_scripts (order (d_segments s)) s = Ok s1 /\ f = d_file s1.
Proof.
  intros HB H. unfold decompile in H.
  destruct (slice buf 4096 (lenN buf)) as [rest| |] eqn:E; try discriminate. cbn [bind] in H.
  destruct (get_sector rest) as [first| |] eqn:G; try discriminate. cbn [bind] in H. destruct (first_sector _ _ _ HB E G) as [L N].
  destruct (sector_loop _ _ _ _ _) as [s| |] eqn:SL; try discriminate. cbn [bind] in H.
  destruct (build_scripts _ s) as [s1| |] eqn:B; try discriminate. cbn [bind] in H. injection H as <-. split; [exact L|].
  pose proof (sector_loop_stays _ _ _ _ _ _ HB SL) as W. apply sector_loop_history in SL as (h & F & R); [|exact HB].
  exists (s_next first), h, s, s1. auto 10.
Qed.

Lemma order_good order s : (forall l, Permutation (order l) l) -> NoDup (keys (d_segments s)) ->
  (good (build_scripts (order (d_segments s)) s) <-> good (build_scripts (d_segments s) s)).
Proof.
  intros PO ND. assert (ND' : NoDup (keys (order (d_segments s)))).
  { eapply Permutation_NoDup; [|exact ND]. apply Permutation_map. symmetry. apply PO. }
  rewrite !build_good by assumption. split; intros H k segs I; apply H.
  - eapply Permutation_in; [symmetry; apply PO|exact I].
  - eapply Permutation_in; [apply PO|exact I].
Qed.

(** What decides about a file whose records can be read. *)
Lemma records_decide order h : (forall l, Permutation (order l) l) -> Forall of_bytes h ->
  (good (s <- run_history h (mkD fmpfile_new [] []) ;; s <- build_scripts (order (d_segments s)) s ;; Ok (d_file s)) <->
   (forall h1 e h2, h = h1 ++ e :: h2 -> record_ok h1 e) /\ segments_ok h).
Proof.
  intros PO B. destruct (run_fits h [] _ facts_start B) as [R A]. cbn [app] in *. rewrite <- R.
  destruct (run_history h _) as [s| |]; cbn [bind].
  - specialize (A s eq_refl). pose proof (af_steps _ _ A) as F. pose proof (sf_good _ _ F) as [ND _].
    rewrite <- (segments_iff h s F), <- (order_good order s PO ND). split.
    + intros (f & H). split; [apply good_ok|]. destruct (build_scripts (order (d_segments s)) s); try discriminate. apply good_ok.
    + intros [_ (s1 & ->)]. apply good_ok.
  - apply good_panic_iff. intros [H _]. now apply good_panic in H.
  - split; [intros (f & H); discriminate|]. intros [(x & H) _]. discriminate.
Qed.

Theorem decompile_exact order buf : bytes buf -> (forall l, Permutation (order l) l) ->
  ((exists fuel f, decompile order fuel buf = Ok f) <-> decompilable buf).
Proof.
  intros HB PO. split.
  - intros (fuel & f & H). destruct (decompile_parts _ _ _ _ HB H) as (L & last & h & s & s1 & S & W & F & R & B & ->).
    split; [exact L|]. split; [eauto|]. exists h. split; [exact F|]. apply (records_decide order h PO); [eapply history_bytes; eauto; lia|].
    exists (d_file s1). rewrite R. cbn [bind]. rewrite B. reflexivity.
  - intros (L & (last & S & W) & h & F & O). destruct (decompile_run order _ _ _ HB L S W F) as (k & D). exists k.
    assert (G : good (decompile order k buf)) by (rewrite D by lia; apply records_decide; [exact PO|eapply history_bytes; eauto; lia|exact O]).
    destruct G as (f & G). eauto.
Qed.

Lemma run_nofuel h : forall s, run_history h s <> NoFuel.
Proof. induction h as [|[p ch] h IH]; intros s; cbn [run_history]; [discriminate|]. apply nf_bind; [apply nf_arms|auto]. Qed.

(** When the chain can be followed and read to its end, enough time settles it. *)
Theorem decompile_settled order buf last h : bytes buf -> (forall l, Permutation (order l) l) ->
  4096 + 20 <= lenN buf -> sector_next buf 1 last -> stays buf last 2 -> file_history buf 2 h ->
  exists k, forall fuel, (k <= fuel)%nat ->
    ((forall h1 e h2, h = h1 ++ e :: h2 -> record_ok h1 e) /\ segments_ok h -> exists f, decompile order fuel buf = Ok f) /\
    (~ ((forall h1 e h2, h = h1 ++ e :: h2 -> record_ok h1 e) /\ segments_ok h) -> decompile order fuel buf = Panic).
Proof.
  intros HB PO L S W F. destruct (decompile_run order _ _ _ HB L S W F) as (k & D). exists k. intros fuel Hf. rewrite D by exact Hf.
  assert (B : Forall of_bytes h) by (eapply history_bytes; eauto; lia). pose proof (records_decide order h PO B) as Q. split.
  - intros O. apply Q in O. exact O.
  - intros NO. destruct (s <- run_history h _ ;; _) as [f| |] eqn:E; [|reflexivity|].
    + exfalso. apply NO, Q. apply good_ok.
    + exfalso. revert E. apply nf_bind; [apply run_nofuel|]. intros s. apply nf_bind; [apply nf_build_scripts|]. intros; apply nf_ok.
Qed.

Theorem unreadable_aborts order buf : bytes buf -> (forall l, Permutation (order l) l) -> no_stuck buf -> ends buf 2 -> ~ decompilable buf ->
  exists k, forall fuel, (k <= fuel)%nat -> decompile order fuel buf = Panic.
Proof.
  intros HB PO NS E NR. destruct (decompile_halts order buf HB NS E) as (k & H). exists k. intros fuel Hf. specialize (H fuel Hf).
  destruct (decompile order fuel buf) eqn:D; [|reflexivity|congruence]. exfalso. apply NR, (decompile_exact order buf HB PO). eauto.
Qed.

Theorem decompile_tables order fuel buf f : bytes buf -> decompile order fuel buf = Ok f -> exists h, file_history buf 2 h /\ tables_recovered h f.
Proof.
  intros HB H. destruct (decompile_parts _ _ _ _ HB H) as (L & last & h & s & s1 & S & W & F & R & B & ->). exists h. split; [exact F|].
  assert (Q : Forall of_bytes h) by (eapply history_bytes; eauto; lia).
  destruct (run_fits h [] _ facts_start Q) as [_ A]. destruct (A _ R) as [_ [_ T] _ _]. cbn [app] in T.
  assert (E : tab s1 = tab s) by exact (build_keeps tab _ (fun _ _ => eq_refl) _ _ B).
  intros t. change (f_tables (d_file s1)) with (tab s1). rewrite E. specialize (T t). unfold table_known in T. destruct (nget (tab s) t); [exact T|apply T].
Qed.

(** ** The records come from the bytes by the opcode table *)
Lemma read_exact buf off path start ch off' path' : bytes buf -> 2 <= lenN buf ->
  (get_chunk buf off path start = Ok (ROk (ch, off', path')) <-> read_at buf off path (path', ch) off').
Proof.
  intros HB H2. rewrite chunk_table by assumption. unfold read_at. cbn [fst snd]. destruct (N.leb_spec off (lenN buf)) as [L|L].
  - destruct (ChunkSpec.spec_read _) as [c r late| |] eqn:E.
    + split.
      * intros [= <- <- <-]. split; [exact L|]. exists c, r, late. auto.
      * intros (_ & c' & r' & late' & [= <- <- <-] & -> & -> & ->). reflexivity.
    + split; [destruct (_ <? _); discriminate|]. intros (_ & ? & ? & ? & X & _). discriminate.
    + split; [discriminate|]. intros (_ & ? & ? & ? & X & _). discriminate.
  - split; [discriminate|]. intros (X & _). lia.
Qed.
Lemma sector_exact buf bound start : bytes buf -> 2 <= lenN buf -> forall h off path, reads buf bound start off path h <-> sector_records buf bound off path h.
Proof.
  intros HB H2. induction h as [|[p ch] h IH]; intros off path; (split; intros H; inversion H; subst).
  - now constructor.
  - now constructor.
  - eapply SrNext; [assumption|eapply read_exact; eauto|]. apply IH. assumption.
  - eapply RdNext; [assumption|eapply read_exact; eauto|]. apply IH. assumption.
Qed.
Lemma file_exact buf : bytes buf -> 2 <= lenN buf -> forall i h, file_history buf i h <-> file_records buf i h.
Proof.
  intros HB H2 i h. split.
  - induction 1 as [|i n h h' Hi S R F IH]; [constructor|]. econstructor; eauto. eapply sector_exact; eauto.
  - induction 1 as [|i n h h' Hi S R F IH]; [constructor|]. econstructor; eauto. eapply sector_exact; eauto.
Qed.
