(** Proofs about the program as a whole. *)
From Coq Require Import Ascii String NArith List Bool Lia Arith.
From Verif Require Import Prelude PreludeFacts InstrModel ComponentModel CalcModel DbModel EvalModel VmModel AsmModel AsmSpec AsmLemmas AsmProps DecompModel SchemaModel SchemaSpec SchemaParse SchemaProps MainModel MainSpec DecompMaps.
Import ListNotations.
Local Open Scope N_scope.

Lemma nget_nset {V} (m : list (N * V)) k v k' : nget (nset m k v) k' = if k =? k' then Some v else nget m k'.
Proof.
  unfold nget, nset. induction m as [|[a b] m IH]; cbn [mset mget]; [reflexivity|]. destruct (N.eqb_spec a k) as [->|Hn]; cbn [mget].
  - destruct (N.eqb_spec k k'); reflexivity.
  - destruct (N.eqb_spec a k') as [->|]; [|exact IH]. destruct (N.eqb_spec k k') as [->|]; [now elim Hn|reflexivity].
Qed.
Lemma nget_none {V} (m : list (N * V)) k : nget m k = None <-> ~ In k (keys m).
Proof. rewrite <- nhas_in. unfold nhas, mhas, nget. destruct (mget N.eqb m k); split; congruence. Qed.
Lemma extend_keys {V} (l : list (N * V)) : forall m, NoDup (keys m) -> NoDup (keys (extend m l)).
Proof. unfold extend. induction l as [|e l IH]; intros m H; [exact H|]. cbn [fold_left]. apply IH. now apply nodup_nset. Qed.
Lemma extend_get {V} (l : list (N * V)) : forall m, NoDup (keys l) -> forall k, nget (extend m l) k = match nget l k with Some v => Some v | None => nget m k end.
Proof.
  unfold extend. induction l as [|[a b] l IH]; intros m H k; [reflexivity|]. inversion H as [|? ? H1 H2]; subst. cbn [fold_left fst snd]. rewrite IH by auto. rewrite nget_nset.
  change (nget ((a, b) :: l) k) with (if a =? k then Some b else nget l k). destruct (N.eqb_spec a k) as [->|Hn]; [|reflexivity].
  now rewrite (proj2 (nget_none l k) H1).
Qed.

Lemma latest_snoc {V} (part : fmpfile -> list (N * V)) fs g k v :
  latest part (fs ++ [g]) k v <-> match nget (part g) k with Some w => v = w | None => latest part fs k v end.
Proof.
  split.
  - intros (b & f & a & Q & G & F). destruct (exists_last (l := f :: a)) as (u & x & Qx); [discriminate|]. rewrite Qx, app_assoc in Q. apply app_inj_tail in Q as [Q ->].
    destruct a as [|y a].
    + assert (u = [] /\ f = x) as [-> ->] by (destruct u as [|? [|]]; inversion Qx; auto). now rewrite G.
    + assert (exists u', u = f :: u' /\ y :: a = u' ++ [x]) as (u' & -> & Qa) by (destruct u as [|? u']; inversion Qx; subst; eauto).
      rewrite Qa in F. apply Forall_app in F as [F1 F2]. inversion F2; subst. rewrite H1. exists b, f, u'. auto.
  - destruct (nget (part g) k) as [w|] eqn:G.
    + intros ->. exists fs, g, []. auto.
    + intros (b & f & a & -> & H & F). exists b, f, (a ++ [g]). split; [now rewrite <- app_assoc|]. split; auto. apply Forall_app. auto.
Qed.
Lemma gathered_snoc {V} (part : fmpfile -> list (N * V)) fs f g h : gathered part fs f -> NoDup (keys (part g)) -> part h = extend (part f) (part g) -> gathered part (fs ++ [g]) h.
Proof.
  intros [N1 G] N2 Q. unfold gathered. rewrite Q. split; [now apply extend_keys|]. intros k v. rewrite latest_snoc, extend_get by auto.
  destruct (nget (part g) k) as [w|]; [split; congruence|apply G].
Qed.
Lemma collected_snoc ts fs f g n : collected ts fs f -> keyed g -> collected ts (fs ++ [g]) (absorb (set_name f n) g).
Proof.
  intros (H1 & H2 & H3 & H4 & H5 & H6 & H7 & H8) (K1 & K2 & K3 & K4 & K5 & K6).
  split; [eapply gathered_snoc; eauto|]. split; [eapply gathered_snoc; eauto|]. split; [eapply gathered_snoc; eauto|]. split; [eapply gathered_snoc; eauto|].
  split; [eapply gathered_snoc; eauto|]. split; [eapply gathered_snoc; eauto|]. split; [exact H7|]. cbn. now rewrite H8, map_app, concat_app, <- app_assoc; cbn; rewrite app_nil_r.
Qed.
Lemma gathered_same {V} (part : fmpfile -> list (N * V)) fs f h : part h = part f -> gathered part fs f -> gathered part fs h.
Proof. intros Q [A B]. split; now rewrite Q. Qed.
Lemma collected_name ts fs f n : collected ts fs f -> collected ts fs (set_name f n).
Proof. intros H. exact H. Qed.
Lemma nothing_latest {V} (part : fmpfile -> list (N * V)) k v : ~ latest part [] k v.
Proof. intros ([|? ?] & ? & ? & Q & _); discriminate. Qed.
Lemma collected_start ts f : f = put_tests fmpfile_new (concat (map f_tests ts)) -> collected ts [] f.
Proof.
  intros ->. assert (G : forall V (part : fmpfile -> list (N * V)) f, part f = [] -> gathered part [] f).
  { intros V part f Q. split; rewrite Q; [constructor|]. intros k v. split; [discriminate|intros H; now apply nothing_latest in H]. }
  repeat (split; [apply G; reflexivity|]). split; [reflexivity|]. cbn. now rewrite app_nil_r.
Qed.

Lemma holds_keyed cs f : holds cs f -> keyed f.
Proof. intros (_ & L & _ & (H1 & _) & (H2 & _) & (H3 & _) & (H4 & _) & (H5 & _) & _). unfold keyed. rewrite L. cbn. repeat split; auto. constructor. Qed.

Lemma and_then_ok {A B} (x : ran A) (k : A -> ran B) es b : and_then x k = (es, Ok b) <-> exists a e1 e2, x = (e1, Ok a) /\ k a = (e2, Ok b) /\ es = e1 ++ e2.
Proof.
  unfold and_then. destruct x as [e1 [a| |]]; cbn [fst snd].
  - destruct (k a) as [e2 r] eqn:K. cbn [fst snd]. split.
    + intros H. inversion H; subst. eauto 10.
    + intros (a' & f1 & f2 & H1 & H2 & ->). inversion H1; subst. rewrite K in H2. now inversion H2; subst.
  - split; [discriminate|intros (? & ? & ? & H & _); discriminate].
  - split; [discriminate|intros (? & ? & ? & H & _); discriminate].
Qed.
Lemma lift_ok {A} (x : outcome A) es a : lift x = (es, Ok a) <-> es = [] /\ x = Ok a.
Proof. unfold lift. split; [intros H; now inversion H|intros [-> ->]; reflexivity]. Qed.

Lemma strip_ok suf s n : strip_suffix suf s = Some n <-> s = n ++ suf.
Proof.
  unfold strip_suffix. split.
  - destruct (Nat.leb_spec (length suf) (length s)) as [L|L]; [|discriminate]. cbn [andb]. destruct (str_eqb_spec (skipn (length s - length suf) s) suf) as [Q|Q]; [|discriminate].
    intros H. inversion H as [H1]. rewrite <- (firstn_skipn (length s - length suf) s) at 1. now rewrite Q.
  - intros ->. rewrite app_length. replace (length suf <=? length n + length suf)%nat with true by (symmetry; apply Nat.leb_le; lia). cbn [andb].
    replace (length n + length suf - length suf)%nat with (length n) by lia. rewrite skipn_app, skipn_all, Nat.sub_diag, firstn_app, firstn_all, Nat.sub_diag. cbn [skipn firstn app].
    rewrite str_eqb_refl, app_nil_r. reflexivity.
Qed.

Section S.
Context (E : fenv) (order : fmpfile -> fmpfile) (segment_order : list (N * list (N * list N)) -> list (N * list (N * list N))) (fuel : nat) (no_testing : bool).

Lemma compiled_holds code f : compile_burn E code = Ok f -> exists cs, holds cs f.
Proof.
  unfold compile_burn. intros H. destruct (tokenize E code) as [ts| |]; try discriminate. cbn [bind] in H. destruct (parse_program E ts) as [[g|e]| |] eqn:P; try discriminate.
  inversion H; subst. destruct (parse_exact E ts f P) as (cs & _ & Hd). eauto.
Qed.
Lemma tests_read tests : forall f g, test_files E tests f = Ok g -> exists ts, Forall2 (fun i t => compile_burn E (snd i) = Ok t) tests ts /\ g = put_tests f (f_tests f ++ concat (map f_tests ts)).
Proof.
  induction tests as [|i tests IH]; intros f g H; cbn [test_files] in H.
  - inversion H; subst. exists []. split; [constructor|]. cbn. rewrite app_nil_r. now destruct g.
  - destruct (compile_burn E (snd i)) as [t| |] eqn:C; try discriminate. cbn [bind] in H. destruct (IH _ _ H) as (ts & F & ->). exists (t :: ts). split; [constructor; auto|].
    cbn. now rewrite <- app_assoc.
Qed.
Lemma tests_end tests : forall f, (exists g, test_files E tests f = Ok g) \/ (test_files E tests f = Panic /\ exists i, In i tests /\ compile_burn E (snd i) = Panic).
Proof.
  induction tests as [|i tests IH]; intros f; cbn [test_files]; [left; eauto|]. destruct (C53_ends E (snd i)) as [H|(t & H)]; rewrite H; cbn [bind].
  - right. split; auto. exists i. split; auto. now left.
  - destruct (IH (put_tests f (f_tests f ++ f_tests t))) as [H1|(H1 & j & H2 & H3)]; [left; auto|right]. split; auto. exists j. split; auto. now right.
Qed.
Lemma shows_cons r rs : shows (r :: rs) = ERunning (fst r) :: EReport (fst r) (snd r) :: shows rs.
Proof. reflexivity. Qed.
Lemma print_exact g : forall ts s es r, print_tests E fuel g ts s = (es, r) ->
  match r with
  | Ok s' => exists rs s1, run_tests_loop E g fuel ts s = Ok (rs, s1) /\ s' = with_db s1 (clear_records (vm_db s1)) /\ es = shows rs
  | _ => exists before t after rs s1, ts = before ++ t :: after /\ run_tests_loop E g fuel before s = Ok (rs, s1) /\
           run_test E g fuel (load_test s1 t) = match r with NoFuel => NoFuel | _ => Panic end /\ es = shows rs ++ [ERunning (te_name t)]
  end.
Proof.
  induction ts as [|t ts IH]; intros s es r H; cbn [print_tests] in H.
  - inversion H; subst. exists [], s. auto.
  - unfold and_then, say, lift in H. cbn [fst snd app] in H. destruct (run_test E g fuel (load_test s t)) as [s1| |] eqn:R; cbn [fst snd] in H.
    + destruct (print_tests E fuel g ts s1) as [es1 r1] eqn:Q. cbn [fst snd app] in H. inversion H; subst. specialize (IH s1 es1 r Q). cbn [run_tests_loop]. rewrite ?R. cbn [bind]. destruct r as [s'| |].
      * destruct IH as (rs & s2 & H1 & -> & ->). exists ((te_name t, vm_pass s1) :: rs), s2. rewrite H1. auto.
      * destruct IH as (b & u & a & rs & s2 & -> & H1 & H2 & ->). exists (t :: b), u, a, ((te_name t, vm_pass s1) :: rs), s2. cbn [run_tests_loop]. rewrite R. cbn [bind]. rewrite H1. auto.
      * destruct IH as (b & u & a & rs & s2 & -> & H1 & H2 & ->). exists (t :: b), u, a, ((te_name t, vm_pass s1) :: rs), s2. cbn [run_tests_loop]. rewrite R. cbn [bind]. rewrite H1. auto.
    + inversion H; subst. exists [], t, ts, [], s. auto.
    + inversion H; subst. exists [], t, ts, [], s. auto.
Qed.
Lemma testing_exact f es r : testing E order fuel no_testing f = (es, r) -> tested E order fuel no_testing f es r.
Proof.
  unfold testing. destruct no_testing eqn:NT; cbn [negb andb].
  - intros H. inversion H; subst. apply TsNone. auto.
  - destruct (f_tests f) as [|t l] eqn:T.
    + intros H. inversion H; subst. apply TsNone. auto.
    + assert (T' : f_tests f <> []) by congruence. unfold and_then, lift. cbn [fst snd]. destruct (generate_test_environment (order f) vm_new) as [s| |] eqn:G; cbn [fst snd app].
      * destruct (print_tests E fuel (order f) (f_tests (order f)) s) as [es1 r1] eqn:P. apply print_exact in P. cbn [fst snd]. destruct r1 as [s'| |]; intros H; inversion H; subst.
        -- destruct P as (rs & s1 & P & -> & ->). rewrite app_nil_r. eapply (TsRun _ _ _ _ _ s rs); auto. unfold run_tests_with_cleanup, run_tests. rewrite P. reflexivity.
        -- destruct P as (b & u & a & rs & s1 & P1 & P2 & P3 & ->). eapply (TsFail _ _ _ _ _ s b u a rs s1 false); eauto.
        -- destruct P as (b & u & a & rs & s1 & P1 & P2 & P3 & ->). eapply (TsFail _ _ _ _ _ s b u a rs s1 true); eauto.
      * intros H. inversion H; subst. now apply (TsNoEnvironment _ _ _ _ _ false).
      * intros H. inversion H; subst. now apply (TsNoEnvironment _ _ _ _ _ true).
Qed.
Lemma compile_inputs ts inputs : forall done file es last, collected ts done file -> for_inputs (compile_one E order fuel no_testing) inputs file = (es, last) ->
  compile_session E order fuel no_testing ts done inputs es last.
Proof.
  induction inputs as [|[name code] inputs IH]; intros done file es last C H; cbn [for_inputs] in H.
  - inversion H; subst. now constructor.
  - unfold compile_one at 1 in H. cbn [fst snd] in H. destruct (C53_ends E code) as [Hc|(f & Hc)]; rewrite Hc in H.
    { inversion H; subst. now apply CsCode. }
    destruct (strip_suffix (lit ".burn") name) as [n|] eqn:S.
    2:{ inversion H; subst. apply CsName. intros n ->. assert (S' : strip_suffix (lit ".burn") (n ++ lit ".burn") = Some n) by now apply strip_ok. congruence. }
    apply strip_ok in S as ->. unfold lift, unwrap in H. unfold and_then at 2 3 in H. cbn [fst snd] in H. cbv zeta in H. unfold say in H. unfold and_then at 2 in H. cbn [fst snd] in H.
    destruct (compiled_holds code f Hc) as (cs & Hd). pose proof (collected_snoc ts done file f n C (holds_keyed cs f Hd)) as C'. set (g := absorb (set_name file n) f) in *.
    assert (Ng : f_name g = n) by reflexivity. clearbody g.
    destruct (testing E order fuel no_testing g) as [rs r] eqn:T. apply testing_exact in T. unfold and_then at 2 in H. cbn [fst snd] in H. destruct r as [[]| |].
    + unfold and_then at 2 in H. cbn [fst snd] in H. destruct (assembled_image (order g)) as [A1 A2].
      assert (D : fits (order g) \/ ~ fits (order g)).
      { destruct (assemble (order g)) as [b| |] eqn:Q.
        - left. now apply assemble_inv in Q as [Q _].
        - right. intros F. now specialize (A1 F).
        - right. intros F. now specialize (A1 F). }
      destruct D as [D|D].
      * rewrite (A1 D) in H. cbn [snd] in H. unfold and_then at 2 in H. cbn [fst snd] in H. unfold and_then in H. cbn [fst snd] in H.
        destruct (for_inputs (compile_one E order fuel no_testing) inputs g) as [e2 r2] eqn:K. cbn [fst snd] in H. inversion H; subst. cbn [app]. rewrite <- app_assoc. cbn [app].
        eapply CsMore; eauto.
      * rewrite (A2 D) in H. cbn in H. inversion H; subst. rewrite app_nil_r. eapply CsLarge; eauto.
    + cbn in H. inversion H; subst. eapply (CsTests _ _ _ _ _ _ _ _ _ _ _ false); eauto.
    + cbn in H. inversion H; subst. eapply (CsTests _ _ _ _ _ _ _ _ _ _ _ true); eauto.
Qed.
Lemma decompile_inputs ts inputs : forall done file es last, collected ts done file -> for_inputs (decompile_one E order segment_order fuel no_testing) inputs file = (es, last) ->
  decompile_session E order fuel no_testing segment_order ts done inputs es last.
Proof.
  induction inputs as [|[name code] inputs IH]; intros done file es last C H; cbn [for_inputs] in H.
  - inversion H; subst. now constructor.
  - unfold decompile_one at 1 in H. cbn [fst snd] in H. destruct (decompile segment_order fuel code) as [f| |] eqn:K1.
    + assert (C' : collected ts (done ++ [f]) (absorb file f)).
      { pose proof (collected_snoc ts done file f (f_name file) C (proj1 (fine_keyed _ (decompiled_fine _ _ _ _ K1)))) as C'. now destruct file. }
      unfold lift, say in H. unfold and_then at 2 3 in H. cbn [fst snd] in H. cbv zeta in H. set (g := absorb file f) in *. clearbody g.
      destruct (testing E order fuel no_testing g) as [rs r] eqn:T. apply testing_exact in T. unfold and_then at 2 in H. cbn [fst snd] in H. destruct r as [[]| |].
      * unfold and_then in H. cbn [fst snd] in H. destruct (for_inputs (decompile_one E order segment_order fuel no_testing) inputs g) as [e2 r2] eqn:K. cbn [fst snd] in H. inversion H; subst.
        cbn [app]. rewrite app_nil_r. eapply DsMore; eauto.
      * cbn in H. inversion H; subst. eapply (DsTests _ _ _ _ _ _ _ _ _ _ _ _ false); eauto.
      * cbn in H. inversion H; subst. eapply (DsTests _ _ _ _ _ _ _ _ _ _ _ _ true); eauto.
    + inversion H; subst. now apply (DsFail _ _ _ _ _ _ _ _ _ false).
    + inversion H; subst. now apply (DsFail _ _ _ _ _ _ _ _ _ true).
Qed.
End S.
