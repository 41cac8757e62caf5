(** What the program does, from the texts and files given to it. *)
From Coq Require Import Ascii String NArith List Bool Lia Arith Permutation.
From Verif Require HistorySpec HistoryProps StepsSpec StepsProps AbortSpec AbortProps DecompRecover2.
From Verif Require Import Prelude PreludeFacts InstrModel ComponentModel CalcModel RelModel RelSpec RelProofs DbModel DbGenSpec DbGen EvalModel VmModel VmSpec VmTestSpec VmTextSpec VmText AsmSpec AsmProps ChunkModel DecompModel SchemaModel SchemaSpec SchemaProps RunsSpec Runs DecompMaps MainModel MainSpec MainProofs MainProps SessionSpec.
Import ListNotations.
Local Open Scope N_scope.

(** ** The environment of the tests *)
Lemma both_ways_snoc l a b : both_ways (l ++ [(a, b)]) = both_ways l ++ [(a, b); (b, a)].
Proof. unfold both_ways. rewrite flat_map_app. reflexivity. Qed.
Lemma related_both es g : related es g -> built (both_ways es) g.
Proof. induction 1 as [|es g a b R IH]; [constructor|]. rewrite both_ways_snoc. now constructor. Qed.

Lemma last_snoc {V} (name : V -> list N) l e n x : last_named name (l ++ [e]) n x <-> if str_eqb (name (snd e)) n then x = e else last_named name l n x.
Proof.
  split.
  - intros (b & a & Q & Hn & F). destruct (exists_last (l := x :: a)) as (u & y & Qx); [discriminate|]. rewrite Qx, app_assoc in Q. apply app_inj_tail in Q as [Q ->]. destruct a as [|z a].
    + assert (u = [] /\ x = y) as [-> ->] by (destruct u as [|? [|]]; inversion Qx; auto). destruct (str_eqb_spec (name (snd y)) n); congruence.
    + destruct u as [|u0 u]; [discriminate|]. inversion Qx; subst u0. assert (In y (z :: a)) as Hy by (rewrite H1; apply in_elt). rewrite Forall_forall in F. pose proof (F y Hy).
      destruct (str_eqb_spec (name (snd y)) n); [congruence|]. exists b, u. split; [exact Q|]. split; [exact Hn|]. apply Forall_forall. intros w Hw. apply F. rewrite H1. apply in_or_app. now left.
  - destruct (str_eqb_spec (name (snd e)) n) as [Hn|Hn].
    + intros ->. exists l, []. split; [reflexivity|]. split; [exact Hn|constructor].
    + intros (b & a & -> & H & F). exists b, (a ++ [e]). split; [now rewrite <- app_assoc|]. split; [exact H|]. apply Forall_app. split; [exact F|]. constructor; [exact Hn|constructor].
Qed.
Lemma named_fold {V} (name : V -> list N) (val : N * V -> N) : forall l n i,
  sget (fold_left (fun m e => sset m (name (snd e)) (val e)) l []) n = Some i <-> exists e, last_named name l n e /\ i = val e.
Proof.
  intros l n. induction l as [|e l IH] using rev_ind; intros i.
  - cbn. split; [discriminate|]. intros (e & (b & a & Q & _) & _). destruct b; discriminate.
  - rewrite fold_left_app. cbn [fold_left]. rewrite sget_sset. split.
    + intros H. destruct (str_eqb (name (snd e)) n) eqn:Q.
      * inversion H; subst. exists e. split; auto. apply last_snoc. now rewrite Q.
      * apply IH in H as (x & Hx & Hi). exists x. split; auto. apply last_snoc. now rewrite Q.
    + intros (x & Hx & Hi). apply last_snoc in Hx. destruct (str_eqb (name (snd e)) n); [now subst|]. apply IH. eauto.
Qed.
Lemma min_key_least l : l <> [] -> In (min_key l) l /\ forall j, In j l -> min_key l <= j.
Proof.
  induction l as [|a l IH]; [congruence|]. intros _. destruct l as [|b l].
  - cbn. split; auto. intros j [->|[]]. lia.
  - destruct IH as [I1 I2]; [discriminate|]. cbn [min_key] in *. split.
    + destruct (N.min_spec a (min_key (b :: l))) as [[_ Q]|[_ Q]]; cbn [min_key] in Q; rewrite Q; [now left|right; exact I1].
    + intros j [->|Hj]; [lia|]. specialize (I2 _ Hj). cbn [min_key] in I2. lia.
Qed.

Lemma database_generated f : maps_ok f -> relations_fit f -> exists d, generate_from_fmp12 db_new f = Ok d /\ database_of f d.
Proof.
  intros M Fit. destruct (generate_ok f M) as [G _]. destruct (G Fit) as (d & Q & Lt & Lo & Ht & Ho & R & Hh & Hx). destruct M as (M1 & M2 & M3 & M4).
  exists d. split; [exact Q|]. constructor.
  - intros i. rewrite Ht. destruct (nget (f_tables f) i) as [t|] eqn:Hi; [|reflexivity]. exists (empty_table t). split; [reflexivity|]. split; [reflexivity|]. intros j.
    assert (Nd : NoDup (keys (tb_fields t))) by (eapply M4; eapply (mget_In _ N.eqb_spec); eauto).
    destruct (gen_fields_ok t Nd) as (fs & Ef & _ & Hf). unfold empty_table, columns. cbn. rewrite Ef. apply Hf.
  - exact Ho.
  - intros x. apply built_neighbours. now apply related_both.
  - intros n i. rewrite Hx. apply (named_fold oc_name (fun e => as_u16 (fst e))).
  - rewrite Hh. destruct (f_occurrences f) as [|e l] eqn:O; [left; split; reflexivity|right]. rewrite <- O in *.
    destruct (min_key_least (keys (f_occurrences f))) as [K1 K2]; [rewrite O; discriminate|].
    destruct (nget (f_occurrences f) (min_key (keys (f_occurrences f)))) as [o|] eqn:K; [|apply nget_none in K; tauto]. exists (min_key (keys (f_occurrences f))), o. auto.
Qed.
Lemma environment f : maps_ok f -> (relations_fit f -> exists s, generate_test_environment f vm_new = Ok s /\ set_up f s) /\ (~ relations_fit f -> generate_test_environment f vm_new = Panic).
Proof.
  intros M. split.
  - intros F. destruct (database_generated f M F) as (d & G & D). unfold generate_test_environment, generate_database. change (vm_db vm_new) with db_new. rewrite G. cbn [bind].
    eexists. split; [reflexivity|]. exists d, (fold_left (fun m e => add_mapping m (ly_name (snd e)) (ly_occurrence (snd e))) (f_layouts f) []). split; [reflexivity|]. split; [exact D|].
    intros n o. apply (named_fold ly_name (fun e => ly_occurrence (snd e))).
  - intros F. unfold generate_test_environment, generate_database. change (vm_db vm_new) with db_new. now rewrite (proj2 (generate_ok f M) F).
Qed.
Lemma fit_dec f : relations_fit f \/ ~ relations_fit f.
Proof.
  unfold relations_fit. generalize (max_key (keys (f_occurrences f))). intros m. induction (vals (f_relationships f)) as [|rl l [IH|IH]]; [left; constructor| |].
  - destruct (N.le_gt_cases (rl_table1 rl) m), (N.le_gt_cases (rl_table2 rl) m); [left; constructor; auto|right; intros K; inversion K; lia..].
  - right. intros K. inversion K. auto.
Qed.

(** ** The tests *)
Definition option_of {A} (r : outcome A) : option A := match r with Ok a => Some a | _ => None end.
Lemma tested_end E order fuel nt f es r : tested E order fuel nt f es r -> maps_ok (order f) -> f_tests (order f) = f_tests f -> r <> NoFuel ->
  tests_end E nt (order f) es (match r with Ok _ => true | _ => false end).
Proof.
  intros T M Q NF. destruct (environment (order f) M) as [E1 E2]. destruct T as [H|s rs s' N T G R|r N T G|s b t a rs s1 r N T G Qt R L].
  - apply TeNone. now rewrite Q.
  - destruct (fit_dec (order f)) as [F|F]; [|rewrite (E2 F) in G; discriminate]. destruct (E1 F) as (s0 & G0 & S0). rewrite G in G0. inversion G0; subst s0.
    unfold run_tests_with_cleanup, run_tests in R. destruct (run_tests_loop E (order f) fuel (f_tests (order f)) s) as [[rs1 s1]| |] eqn:R1; cbn [bind] in R; inversion R; subst.
    apply TeRun with (s := s) (s' := s1); auto; [congruence|]. eapply reports_loop; eauto.
  - destruct (fit_dec (order f)) as [F|F]; [destruct (E1 F) as (s0 & G0 & S0); rewrite G in G0; destruct r; discriminate|]. destruct r; cbn [failed] in *; [now elim NF|]. apply TeNoDatabase; auto. congruence.
  - destruct (fit_dec (order f)) as [F|F]; [|rewrite (E2 F) in G; discriminate]. destruct (E1 F) as (s0 & G0 & S0). rewrite G in G0. inversion G0; subst s0.
    destruct r; cbn [failed] in *; [now elim NF|]. eapply TeBreaksOff; eauto; [eapply reports_loop; eauto|]. apply run_panic. rewrite <- load_begun. eauto.
Qed.

(** ** Texts and files *)
Lemma text_compiles E code f : compile_burn E code = Ok f -> schema_text E code f.
Proof. intros H. apply C53_compiled in H as (ts & cs & H1 & H2 & H3). exists ts, cs. auto. Qed.
Lemma text_fails E code : compile_burn E code = Panic -> forall f, ~ schema_text E code f.
Proof. intros H f (ts & cs & H1 & H2 & H3). destruct (C53_compiles E code ts cs H1 H2) as (g & G & _). congruence. Qed.

Lemma chunk_loop_more buf bound start : forall f o p s r, chunk_loop f buf o bound start p s = r -> r <> NoFuel -> forall g, (f <= g)%nat -> chunk_loop g buf o bound start p s = r.
Proof.
  induction f as [|f IH]; intros o p s r H NF g L; cbn [chunk_loop] in H; [congruence|]. destruct g as [|g]; [lia|]. cbn [chunk_loop].
  destruct (o <? bound); [|exact H]. destruct (get_chunk buf o p start) as [[[[ch o'] p']|e]| |]; cbn [bind] in *; auto. destruct (dispatch p' ch s) as [s1| |]; cbn [bind] in *; auto.
  apply IH; auto. lia.
Qed.
Lemma sector_loop_more buf n : forall f i s r, sector_loop f buf n i s = r -> r <> NoFuel -> forall g, (f <= g)%nat -> sector_loop g buf n i s = r.
Proof.
  induction f as [|f IH]; intros i s r H NF g L; [cbn in H; congruence|]. destruct g as [|g]; [lia|]. cbn [sector_loop] in *. destruct (i =? 0); [exact H|]. cbv zeta in *.
  destruct (slice buf (i * 4096) (lenN buf)) as [rest| |]; cbn [bind] in *; auto. destruct (get_sector rest) as [sec| |]; cbn [bind] in *; auto. destruct (i <? n); [|exact H].
  destruct (chunk_loop (S f) buf (i * 4096 + 20) (i * 4096 + 4096) (i * 4096) [] s) as [s1| |] eqn:C; cbn [bind] in H.
  - rewrite (chunk_loop_more _ _ _ _ _ _ _ _ C ltac:(discriminate) (S g) ltac:(lia)). cbn [bind]. apply IH; auto. lia.
  - rewrite (chunk_loop_more _ _ _ _ _ _ _ _ C ltac:(discriminate) (S g) ltac:(lia)). exact H.
  - congruence.
Qed.
Lemma decompile_more order buf f r : decompile order f buf = r -> r <> NoFuel -> forall g, (f <= g)%nat -> decompile order g buf = r.
Proof.
  intros H NF g L. unfold decompile in *. destruct (slice buf 4096 (lenN buf)) as [rest| |]; cbn [bind] in *; auto. destruct (get_sector rest) as [sec| |]; cbn [bind] in *; auto.
  destruct (sector_loop f buf (s_next sec + 1) 2 (mkD fmpfile_new [] [])) as [s| |] eqn:C; cbn [bind] in H.
  - now rewrite (sector_loop_more _ _ _ _ _ _ C ltac:(discriminate) g L).
  - now rewrite (sector_loop_more _ _ _ _ _ _ C ltac:(discriminate) g L).
  - congruence.
Qed.
Lemma file_decompiles order fuel buf f : bytes buf -> (forall l, Permutation (order l) l) -> decompile order fuel buf = Ok f -> stored_file buf f.
Proof.
  intros HB PO D. assert (C : AbortSpec.decompilable buf) by (apply (AbortProps.C85_exact order buf HB PO); eauto). split; [exact C|]. split; [eapply C72_decompiled; eauto|].
  destruct (HistoryProps.C83_any_file _ _ _ _ HB D) as (h & F & _ & R). exists h. split; [apply AbortProps.C85_records; auto; destruct C as [C _]; lia|]. split; [exact R|].
  split; [eapply AbortProps.C85_tables; eauto|]. intros k sc K. destruct (StepsProps.C84_any_file _ _ _ _ _ HB PO D F k sc K) as (S1 & _ & S2). auto.
Qed.
Lemma file_fails order fuel buf : bytes buf -> (forall l, Permutation (order l) l) -> decompile order fuel buf = Panic -> ~ AbortSpec.decompilable buf.
Proof.
  intros HB PO D C. apply (AbortProps.C85_exact order buf HB PO) in C as (g & k & C). pose proof (decompile_more _ _ _ _ D ltac:(discriminate) (fuel + k) ltac:(lia)). rewrite C in H by lia. discriminate.
Qed.

(** ** Sessions *)
Section Sessions.
Context (E : fenv) (order : fmpfile -> fmpfile) (fuel : nat) (nt : bool) (segments : list (N * list (N * list N)) -> list (N * list (N * list N))).
Context (any_order : forall f, reordered f (order f)).
Definition known (x : fmpfile) : Prop := (exists code, compile_burn E code = Ok x) \/ (exists buffer, decompile segments fuel buffer = Ok x).

Lemma tested_ends ts fs g reports r : collected ts fs g -> Forall known fs -> tested E order fuel nt g reports r -> r <> NoFuel ->
  tests_end E nt (order g) reports (match r with Ok _ => true | _ => false end).
Proof.
  intros C F T NF. apply tested_end with (fuel := fuel); auto; [|apply (any_order g)]. exact (proj2 (C72_collected E segments fuel ts fs g (order g) C (any_order g) F)).
Qed.
Lemma compiles_session ts done inputs es r : compile_session E order fuel nt ts done inputs es r -> Forall known done -> r <> NoFuel -> compiles E nt ts done inputs es (option_of r).
Proof.
  induction 1 as [done f C|done name code inputs C|done name code inputs H|done name code f g reports r inputs C G N T|done name code f g reports inputs C G N T F|done name code f g reports inputs es last C G N T F S IH];
    intros K NF.
  - now constructor.
  - apply CoText. now apply text_fails.
  - now apply CoName.
  - assert (K' : Forall known (done ++ [f])) by (apply Forall_app; split; [exact K|]; constructor; [left; eauto|constructor]).
    destruct r; [now elim NF|]. cbn [failed option_of] in *. apply (tested_ends ts _ _ _ _ G K') in T; [|discriminate]. eapply CoTests; eauto using text_compiles.
  - assert (K' : Forall known (done ++ [f])) by (apply Forall_app; split; [exact K|]; constructor; [left; eauto|constructor]).
    apply (tested_ends ts _ _ _ _ G K') in T; [|discriminate]. eapply CoLarge; eauto using text_compiles.
  - assert (K' : Forall known (done ++ [f])) by (apply Forall_app; split; [exact K|]; constructor; [left; eauto|constructor]).
    apply (tested_ends ts _ _ _ _ G K') in T; [|discriminate]. eapply CoMore; eauto using text_compiles.
Qed.
Lemma decompiles_session ts done inputs es r : (forall l, Permutation (segments l) l) -> decompile_session E order fuel nt segments ts done inputs es r ->
  Forall known done -> Forall (fun i => bytes (snd i)) inputs -> r <> NoFuel -> decompiles E nt ts done inputs es (option_of r).
Proof.
  intros PO. induction 1 as [done f C|done name buf r inputs C|done name buf f g reports r inputs C G T|done name buf f g reports inputs es last C G T S IH]; intros K B NF.
  - now constructor.
  - destruct r; [now elim NF|]. cbn [failed option_of] in *. apply DcFile. inversion B; subst. eapply file_fails; eauto.
  - assert (K' : Forall known (done ++ [f])) by (apply Forall_app; split; [exact K|]; constructor; [right; eauto|constructor]). inversion B; subst.
    destruct r; [now elim NF|]. cbn [failed option_of] in *. apply (tested_ends ts _ _ _ _ G K') in T; [|discriminate]. eapply DcTests; eauto using file_decompiles.
  - assert (K' : Forall known (done ++ [f])) by (apply Forall_app; split; [exact K|]; constructor; [right; eauto|constructor]). inversion B; subst.
    apply (tested_ends ts _ _ _ _ G K') in T; [|discriminate]. eapply DcMore; eauto using file_decompiles.
Qed.
End Sessions.
