(** Proofs about the lines printed while a file is decompiled: whole files. *)
From Coq Require Import Ascii String NArith ZArith List Bool Arith Lia Permutation.
From Verif Require Import Prelude PreludeFacts Utf8 EncodingModel CharConvModel ChunkModel InstrModel ComponentModel DecompModel DecompSpec DecompMaps DecompCalc DecompScript DecompChain HistorySpec History History2 History3 StepsSpec Steps Steps2 Steps3 ReportModel ReportSpec Report.
Import ListNotations.
Local Open Scope N_scope.

Lemma told_det h l : told h l -> forall l', told h l' -> l = l'.
Proof.
  assert (D : forall h e m m', entry_tells h e m -> entry_tells h e m' -> m = m').
  { assert (C : forall e l l', calc_of e l -> calc_of e l' -> l = l') by (intros e l1 l2 (d & E & T) (d' & E' & T'); rewrite E in E'; inversion E'; subst; eapply calc_tells_det; eauto).
    assert (X : forall k i h s s' o o', in_place k h s -> in_place k h s' -> first_is i o s -> first_is i o' s' -> o = o').
    { intros k i h0 s s' o o' P P' (pre & st & post & -> & I & F & <-) (pre' & st' & post' & -> & I' & F' & <-). pose proof (in_place_det _ _ _ P _ P') as E.
      destruct (first_det i _ _ _ _ _ _ E I I' F F') as (_ & -> & _). reflexivity. }
    assert (O : forall e, starts_occurrence e = true -> step_here e = SOther).
    { intros e H. apply place_first. unfold starts_occurrence, occurrence_here, at_place in H. destruct (place_of (fst e)); try discriminate. reflexivity. }
    intros h0 e m m' T T'. destruct T as [b S B|k i l1 S K T|k i st l1 S K P F T|k i st op S K P F N|k i S K|k i S K|S K K'];
      destruct T' as [b' S' B'|k' i' l1' S' Q T'|k' i' st' l1' S' Q P' F' T'|k' i' st' op' S' Q P' F' N'|k' i' S' Q|k' i' S' Q|S' Q Q'];
      try reflexivity; try congruence; try (apply O in S; congruence); try (apply O in S'; congruence); try (eapply C; eassumption);
      try (rewrite S in S'; inversion S'; subst; first [congruence|exfalso; apply N; exact (X _ _ _ _ _ _ _ P P' F F')|exfalso; apply N'; exact (X _ _ _ _ _ _ _ P' P F' F)]);
      try (exfalso; eapply K; eassumption); try (exfalso; eapply K'; eassumption); try (exfalso; eapply Q; eassumption); try (exfalso; eapply Q'; eassumption). }
  induction 1 as [|h e l m T IH E]; intros l' H'.
  - inversion H' as [|h' e' l1 m' T' E' Q]; [reflexivity|]. destruct h'; discriminate.
  - inversion H' as [Q|h' e' l1 m' T' E' Q]; [destruct h; discriminate|]. apply app_inj_tail in Q as [-> ->]. rewrite (IH _ T'). f_equal. eapply D; eauto.
Qed.

Lemma snoc_far h s path ch s' : so_far h s -> dispatch path ch s = Ok s' -> so_far (h ++ [(path, ch)]) s'.
Proof. intros F D. apply (so_far_run [(path, ch)] h s s'); [|exact F]. cbn [run_history]. rewrite D. reflexivity. Qed.

(** What is printed by a record that breaks off. *)
Lemma broken_record path ch s m o : dispatch_reported path ch s = (m, o) -> (forall s', o <> Ok s') ->
  m = [] \/ (Forall (eq RFunction) m /\ has_key 5 (path, ch) = true /\ exists k i, step_here (path, ch) = SCalc k i \/ step_here (path, ch) = SValue k i).
Proof.
  assert (CA : forall (k : list N -> outcome dstate) d, Forall (eq RFunction) (fst (and_report (calculation_reported d) (fun c => mute (k c))))).
  { intros k d. unfold and_report. pose proof (calc_any (S (length d)) d []) as A. fold (calculation_reported d) in A. destruct (snd (calculation_reported d)); cbn [fst mute]; rewrite ?app_nil_r; exact A. }
  intros H NO. rewrite report_place in H. unfold report_arm in H.
  assert (V : forall k i, step_place_of path = SValue k i -> value_reported k i ch s = (m, o) -> m = [] \/ (Forall (eq RFunction) m /\ has_key 5 (path, ch) = true /\ exists k i, step_here (path, ch) = SCalc k i \/ step_here (path, ch) = SValue k i)).
  { intros k i P V. rewrite value_eq in V. destruct (has_key 5 ([], ch)) eqn:K; [|inversion V; now left]. right. split; [|split; [exact K|exists k, i; right; exact P]].
    revert V. unfold mod_reported. cbv zeta. unfold and_report at 1. cbn [mute fst snd]. destruct (nget _ k) as [sc|]; cbn [unwrap]; [|intros [= <- _]; constructor]. cbn [app].
    intros V. apply (f_equal fst) in V. cbn [fst] in V. subst m.
    match goal with |- Forall _ (fst (and_report ?x _)) => assert (A : Forall (eq RFunction) (fst x)) end.
    { clear H NO. induction (sc_steps sc) as [|st l IH]; [constructor|]. cbn [push_reported]. destruct (step_index st =? i).
      - match goal with |- Forall _ (fst (and_report ?x _)) => assert (B : Forall (eq RFunction) (fst x)) end.
        { destruct (instr_eqb _ _); [constructor|]. destruct (instr_eqb _ _); [|constructor]. unfold and_report at 1. cbn [mute fst snd]. destruct (cdata ch) as [d|]; cbn [unwrap fst app]; [|constructor].
          unfold and_report. pose proof (calc_any (S (length d)) d []) as A. fold (calculation_reported d) in A. destruct (snd (calculation_reported d)); cbn [fst mute]; rewrite ?app_nil_r; exact A. }
        unfold and_report at 1. match goal with |- context [match snd ?x with _ => _ end] => destruct (snd x) end; cbn [fst mute]; rewrite ?app_nil_r; exact B.
      - unfold and_report at 1. destruct (snd (push_reported l i _)); cbn [fst mute]; rewrite ?app_nil_r; exact IH. }
    unfold and_report at 1. match goal with |- context [match snd ?x with _ => _ end] => destruct (snd x) end; cbn [fst mute]; rewrite ?app_nil_r; exact A. }
  assert (W : forall k i, step_place_of path = SCalc k i -> step_calc_reported k i ch s = (m, o) -> m = [] \/ (Forall (eq RFunction) m /\ has_key 5 (path, ch) = true /\ exists k i, step_here (path, ch) = SCalc k i \/ step_here (path, ch) = SValue k i)).
  { intros k i P W. rewrite calc_eq in W. destruct (has_key 5 ([], ch)) eqn:K.
    - right. split; [|split; [exact K|exists k, i; left; exact P]]. apply (f_equal fst) in W. cbn [fst] in W. subst m.
      match goal with |- Forall _ (fst (and_report ?x _)) => assert (A : Forall (eq RFunction) (fst x)) end.
      { unfold and_report at 1. cbn [mute fst snd]. destruct (cdata ch) as [d|]; cbn [unwrap fst app]; [apply CA|constructor]. }
      unfold and_report at 1. match goal with |- context [match snd ?x with _ => _ end] => destruct (snd x) as [s1| |] end; cbn [fst]; try exact A.
      unfold and_report, mute. cbn [fst snd]. destruct (nget _ k); cbn [unwrap fst app]; rewrite ?app_nil_r; exact A.
    - left. unfold and_report, mute in W. cbn [fst snd] in W. destruct (nget _ k); cbn [unwrap fst snd app] in W; inversion W; reflexivity. }
  destruct (place_of path) eqn:P.
  2: { left. unfold occurrence_reported in H. destruct (cref ch) as [k|] eqn:K; [|inversion H; reflexivity]. destruct (N.eq_dec k 2) as [->|Hk].
       - unfold and_report, mute in H. cbn [fst snd] in H. destruct (unwrap (cdata ch)) as [d| |]; cbn [app] in H; try (inversion H; reflexivity). destruct (at_ d 6) as [t| |]; cbn [fst snd app] in H; try (inversion H; reflexivity).
         destruct (at_ d 2) as [b| |]; cbn [fst snd app] in H; try (inversion H; reflexivity). cbn [prints fst snd] in H. inversion H; subst. exfalso. eapply NO. reflexivity.
       - assert (Q : mute (arm_occurrence ch s) = (m, o)) by (destruct k as [|[p|[p|p|]|]]; exact H || congruence). inversion Q; reflexivity. }
  all: destruct (step_place_of path) eqn:Q; try (inversion H; now left); eauto.
Qed.

Lemma low_bits c : c < 256 -> (if N.land c 192 =? 192 then N.land c 63 else c) = if c <? 192 then c else c - 192.
Proof.
  intros H. assert (A : forall n, (n < 256)%nat -> (if N.land (N.of_nat n) 192 =? 192 then N.land (N.of_nat n) 63 else N.of_nat n) = if N.of_nat n <? 192 then N.of_nat n else N.of_nat n - 192).
  { intros n L. do 256 (destruct n as [|n]; [reflexivity|]). exfalso. lia. }
  specialize (A (N.to_nat c)). rewrite N2Nat.id in A. apply A. lia.
Qed.

Lemma code_there buf off path start : get_chunk buf off path start = Ok (RErr tt) -> exists c, nthN buf off = Some c.
Proof. unfold get_chunk, at_. destruct (nthN buf off) as [c|]; [eauto|discriminate]. Qed.
Lemma byte_at buf off c : bytes buf -> nthN buf off = Some c -> c < 256.
Proof. intros H E. unfold bytes in H. rewrite Forall_forall in H. apply H. apply nthN_Some in E. eapply nth_error_In; eauto. Qed.

Definition no_result {A} (o : outcome A) : Prop := forall a, o <> Ok a.
Lemma chunk_begins buf bound start : bytes buf -> forall fuel off path s l o g l0, chunk_loop_reported fuel buf off bound start path s = (l, o) -> so_far g s -> told g l0 ->
  exists h l1 m off' path', reads_to buf bound start off path h off' path' /\ l = l1 ++ m /\ told (g ++ h) (l0 ++ l1) /\ last_words buf (Some (start, off', path')) m /\
    (o = Panic -> off' < bound /\ (get_chunk buf off' path' start = Ok (RErr tt) -> m <> [])) /\ (o = NoFuel -> Forall (eq RFunction) m) /\
    (forall s', o = Ok s' -> m = [] /\ reads buf bound start off path h /\ so_far (g ++ h) s').
Proof.
  intros HB. induction fuel as [|fuel IH]; intros off path s l o g l0 H F T.
  { inversion H; subst. exists [], [], [], off, path. rewrite !app_nil_r. split; [constructor|]. split; [reflexivity|]. split; [exact T|]. split; [constructor|]. split; [discriminate|]. split; [constructor|discriminate]. }
  cbn [chunk_loop_reported] in H. destruct (N.ltb_spec off bound) as [L|L].
  2: { inversion H; subst. exists [], [], [], off, path. rewrite !app_nil_r. split; [constructor|]. split; [reflexivity|]. split; [exact T|]. split; [constructor|]. split; [discriminate|]. split; [discriminate|]. intros s' [= <-]. split; [reflexivity|]. split; [now constructor|exact F]. }
  unfold chunk_reported in H. unfold and_report at 1 in H. cbn [fst snd] in H. destruct (get_chunk buf off path start) as [[[[ch off'] path']|[]]| |] eqn:G.
  - cbn [app] in H. destruct (dispatch_reported path' ch s) as [m1 o1] eqn:D. unfold and_report in H. cbn [fst snd] in H. pose proof (dispatch_snd path' ch s) as DS. rewrite D in DS. cbn [snd] in DS.
    assert (Br : no_result o1 -> l = m1 -> no_result o -> exists h l1 m off' path', reads_to buf bound start off path h off' path' /\ l = l1 ++ m /\ told (g ++ h) (l0 ++ l1) /\ last_words buf (Some (start, off', path')) m /\
      (o = Panic -> off' < bound /\ (get_chunk buf off' path' start = Ok (RErr tt) -> m <> [])) /\ (o = NoFuel -> Forall (eq RFunction) m) /\
      (forall s', o = Ok s' -> m = [] /\ reads buf bound start off path h /\ so_far (g ++ h) s')).
    { intros NO -> E. exists [], [], m1, off, path. rewrite !app_nil_r. split; [constructor|]. split; [reflexivity|]. split; [exact T|]. 
      assert (Q : Forall (eq RFunction) m1) by (destruct (broken_record _ _ _ _ _ D NO) as [->|(A & _)]; [constructor|exact A]).
      split; [|split; [intros _; split; [exact L|rewrite G; discriminate]|split; [auto|intros s' X; now apply E in X]]].
      destruct (broken_record _ _ _ _ _ D NO) as [->|(A & K & k & i & P)]; [constructor|]. eapply LwCalc; eauto. }
    destruct o1 as [s1| |]; [|inversion H; subst; rewrite ?app_nil_r in *; apply Br; [intros ?; discriminate|reflexivity|intros ?; discriminate]..]. clear Br.
    destruct (chunk_loop_reported fuel buf off' bound start path' s1) as [l2 o2] eqn:C. cbn [fst snd] in H. inversion H; subst l o2.
    destruct (IH _ _ _ _ _ (g ++ [(path', ch)]) (l0 ++ m1) C) as (h & l1 & m & off2 & path2 & R & -> & T2 & W & Z & Y & E).
    + eapply snoc_far; eauto.
    + constructor; auto. eapply record_tells; eauto.
    + exists ((path', ch) :: h), (m1 ++ l1), m, off2, path2. rewrite <- !app_assoc in *. cbn [app] in *. split; [econstructor; eauto|]. split; [reflexivity|]. split; [exact T2|]. split; [exact W|]. split; [exact Z|]. split; [exact Y|].
      intros s' Q. destruct (E s' Q) as (-> & R' & F'). split; [reflexivity|]. split; [econstructor; eauto|]. rewrite <- ?app_assoc in F'. exact F'.
  - cbn [mute fst snd] in H. rewrite app_nil_r in H. inversion H; subst. exists [], [], (code_report buf off start), off, path. rewrite !app_nil_r. split; [constructor|]. split; [reflexivity|]. split; [exact T|].
    destruct (code_there _ _ _ _ G) as (c & E). unfold code_report. rewrite E. split; [|split; [split; [exact L|discriminate]|split; discriminate]].
    rewrite low_bits by (eapply byte_at; eauto). eapply LwCode; eauto.
  - inversion H; subst. exists [], [], [], off, path. rewrite !app_nil_r. split; [constructor|]. split; [reflexivity|]. split; [exact T|]. split; [constructor|]. split; [intros _; split; [exact L|rewrite G; discriminate]|split; [constructor|discriminate]].
  - inversion H; subst. exists [], [], [], off, path. rewrite !app_nil_r. split; [constructor|]. split; [reflexivity|]. split; [exact T|]. split; [constructor|]. split; [discriminate|]. split; [constructor|discriminate].
Qed.

(** A record that is not read leaves a line. *)
Definition broken_at (buf : list N) (w : option (N * N * list N)) (m : list report) : Prop :=
  forall start off path, w = Some (start, off, path) -> get_chunk buf off path start = Ok (RErr tt) -> m <> [].
Lemma sector_begins buf n : bytes buf -> forall fuel i s l o g l0, sector_loop_reported fuel buf n i s = (l, o) -> so_far g s -> told g l0 ->
  exists h l1 m w, first_records buf i h w /\ l = l1 ++ m /\ told (g ++ h) (l0 ++ l1) /\ last_words buf w m /\ (o = Panic -> broken_at buf w m) /\ (o = NoFuel -> Forall (eq RFunction) m) /\
    (forall s', o = Ok s' -> m = [] /\ w = None /\ file_history buf i h /\ so_far (g ++ h) s').
Proof.
  intros HB. induction fuel as [|fuel IH]; intros i s l o g l0 H F T.
  { inversion H; subst. exists [], [], [], None. rewrite !app_nil_r. split; [constructor|]. split; [reflexivity|]. split; [exact T|]. split; [constructor|]. split; [discriminate|]. split; [constructor|discriminate]. }
  cbn [sector_loop_reported] in H. fold chunk_loop_reported in H. destruct (N.eqb_spec i 0) as [->|Hi].
  { inversion H; subst. exists [], [], [], None. rewrite !app_nil_r. split; [constructor|]. split; [reflexivity|]. split; [exact T|]. split; [constructor|]. split; [discriminate|]. split; [discriminate|]. intros s' [= <-]. split; [reflexivity|]. split; [reflexivity|]. split; [constructor|exact F]. }
  assert (Z : l = [] -> no_result o -> exists h l1 m w, first_records buf i h w /\ l = l1 ++ m /\ told (g ++ h) (l0 ++ l1) /\ last_words buf w m /\ (o = Panic -> broken_at buf w m) /\ (o = NoFuel -> Forall (eq RFunction) m) /\
    (forall s', o = Ok s' -> m = [] /\ w = None /\ file_history buf i h /\ so_far (g ++ h) s')).
  { intros -> E2. exists [], [], [], None. rewrite !app_nil_r. split; [constructor|]. split; [reflexivity|]. split; [exact T|]. split; [constructor|]. split; [intros _ ? ? ? [=]|]. split; [constructor|]. intros s' Q. now apply E2 in Q. }
  unfold and_report, mute in H. cbn [fst snd app] in H. destruct (slice buf (i * 4096) (lenN buf)) as [rest| |] eqn:E; cbn [fst snd app] in H; [|inversion H; subst; apply Z; [reflexivity|intros ?; discriminate]..].
  destruct (get_sector rest) as [sec| |] eqn:G; cbn [fst snd app] in H; [|inversion H; subst; apply Z; [reflexivity|intros ?; discriminate]..].
  destruct (i <? n); cbn [fst snd app] in H; [|inversion H; subst; apply Z; [reflexivity|intros ?; discriminate]]. clear Z.
  destruct (chunk_loop_reported (S fuel) buf (i * 4096 + 20) (i * 4096 + 4096) (i * 4096) [] s) as [l1 o1] eqn:C. cbn [fst snd app] in H.
  destruct (chunk_begins buf _ _ HB _ _ _ _ _ _ g l0 C F T) as (h & k1 & m & off' & path' & R & -> & T1 & W & Z & Y & K).
  destruct o1 as [s1| |]; cbn [fst snd app] in H.
  - destruct (K s1 eq_refl) as (-> & R1 & F1). rewrite app_nil_r in H. destruct (sector_loop_reported fuel buf n (s_next sec) s1) as [l2 o2] eqn:S2. cbn [fst snd] in H. inversion H; subst.
    destruct (IH _ _ _ _ (g ++ h) (l0 ++ k1) S2 F1 T1) as (h2 & k2 & m2 & w & Fr & -> & T2 & W2 & Z2 & Y2 & K2).
    exists (h ++ h2), (k1 ++ k2), m2, w. rewrite <- !app_assoc in *. pose proof (sector_succ _ _ _ _ HB E G) as SN. split; [econstructor; eauto|]. split; [reflexivity|]. split; [exact T2|]. split; [exact W2|]. split; [exact Z2|]. split; [exact Y2|].
    intros s' Q. destruct (K2 s' Q) as (-> & -> & Fh & F2). split; [reflexivity|]. split; [reflexivity|]. split; [econstructor; eauto|]. rewrite <- ?app_assoc in F2. exact F2.
  - inversion H; subst. exists h, k1, m, (Some (i * 4096, off', path')). split; [now constructor|]. rewrite ?app_nil_r. split; [reflexivity|]. split; [exact T1|]. split; [exact W|]. split; [intros Q ? ? ? [= <- <- <-]; now apply Z|]. split; [discriminate|discriminate].
  - inversion H; subst. exists h, k1, m, (Some (i * 4096, off', path')). split; [now constructor|]. rewrite ?app_nil_r. split; [reflexivity|]. split; [exact T1|]. split; [exact W|]. split; [discriminate|]. split; [intros _; now apply Y|discriminate].
Qed.

Theorem decompile_begins order fuel buf l o : bytes buf -> decompile_reported order fuel buf = (l, o) ->
  exists h l1 m w, first_records buf 2 h w /\ l = l1 ++ m /\ told h l1 /\ last_words buf w m /\ (o = Panic -> broken_at buf w m) /\ (o = NoFuel -> Forall (eq RFunction) m) /\ (forall f, o = Ok f -> m = [] /\ file_history buf 2 h).
Proof.
  intros HB H. assert (Z : l = [] -> no_result o -> exists h l1 m w, first_records buf 2 h w /\ l = l1 ++ m /\ told h l1 /\ last_words buf w m /\ (o = Panic -> broken_at buf w m) /\ (o = NoFuel -> Forall (eq RFunction) m) /\ (forall f, o = Ok f -> m = [] /\ file_history buf 2 h)).
  { intros -> NO. exists [], [], [], None. split; [constructor|]. split; [reflexivity|]. split; [constructor|]. split; [constructor|]. split; [intros _ ? ? ? [=]|]. split; [constructor|]. intros f Q. now apply NO in Q. }
  unfold decompile_reported, and_report, mute in H. cbn [fst snd app] in H. destruct (slice buf 4096 (lenN buf)) as [rest| |]; cbn [fst snd app] in H; [|inversion H; subst; apply Z; [reflexivity|intros ?; discriminate]..].
  destruct (get_sector rest) as [sec| |]; cbn [fst snd app] in H; [|inversion H; subst; apply Z; [reflexivity|intros ?; discriminate]..].
  clear Z. destruct (sector_loop_reported fuel buf (s_next sec + 1) 2 (mkD fmpfile_new [] [])) as [l1 o1] eqn:S.
  destruct (sector_begins buf _ HB _ _ _ _ _ [] [] S so_far_start ToNone) as (h & k & m & w & Fr & -> & T & W & Z & Y & K). cbn [fst snd app] in *.
  destruct o1 as [s1| |]; cbn [fst snd app] in H.
  - destruct (K s1 eq_refl) as (-> & -> & Fh & _). rewrite !app_nil_r in H.
    exists h, k, [], None. rewrite app_nil_r. split; [exact Fr|]. split; [destruct (build_scripts _ s1); cbn [fst snd app] in H; rewrite ?app_nil_r in H; congruence|]. split; [exact T|]. split; [constructor|]. split; [intros _ ? ? ? [=]|]. split; [constructor|auto].
  - inversion H; subst. exists h, k, m, w. rewrite ?app_nil_r. split; [exact Fr|]. split; [reflexivity|]. split; [exact T|]. split; [exact W|]. split; [intros _; now apply Z|]. split; discriminate.
  - inversion H; subst. exists h, k, m, w. rewrite ?app_nil_r. split; [exact Fr|]. split; [reflexivity|]. split; [exact T|]. split; [exact W|]. split; [discriminate|]. split; [intros _; now apply Y|discriminate].
Qed.
