(** Everything the program shows: proofs. *)
From Coq Require Import Ascii String NArith List Bool Lia Arith Permutation.
From Verif Require HistorySpec AbortSpec AbortProps ReportSpec ReportProps SourceSpec SourceProps HaltSpec TraceSpec TraceProps.
From Verif Require Import Prelude PreludeFacts InstrModel ComponentModel CalcModel DbModel DbGenSpec EvalModel VmModel VmSpec VmTestSpec VmTextSpec VmText AsmModel AsmSpec AsmLemmas AsmProps DecompModel SchemaModel
  SchemaSpec SchemaProps RunsSpec Runs DecompMaps MainModel MainSpec MainProofs MainProps SessionSpec Session.
From Verif Require Import GripeModel SourceModel PrintModel PrintSpec Print PrintProps TalkModel TalkSpec TalkRun TraceModel ReportModel WholeModel WholeSpec.
Import ListNotations.
Local Open Scope N_scope.

Section P.
Context (E : fenv).

(** ** The events of C71 among what is shown *)
Definition event_of (x : shown E) : list MainModel.event :=
  match x with
  | WFile f => [EInspect f]
  | WTests x => reports (of_runner E x)
  | WWritten n c => [EWritten n c]
  | WComplaint _ | WAssembler _ | WDecompiler _ => []
  end.
Definition seen {A} (x : showing E A) : ran A := (flat_map event_of (fst x), snd x).
Lemma seen_and {A B} (x : showing E A) (k : A -> showing E B) : seen (and_show E x k) = and_then (seen x) (fun a => seen (k a)).
Proof. unfold seen, and_show, and_then. destruct x as [l [a| |]]; cbn [fst snd]; [|reflexivity|reflexivity]. now rewrite flat_map_app. Qed.
Lemma and_then_ext {A B} (x y : ran A) (k h : A -> ran B) : x = y -> (forall a, k a = h a) -> and_then x k = and_then y h.
Proof. intros -> H. unfold and_then. destruct (snd y); [now rewrite H|reflexivity|reflexivity]. Qed.
Lemma seen_hidden {A} (x : outcome A) : seen (hidden E x) = lift x.
Proof. reflexivity. Qed.
Lemma seen_nothing {L A} (c : L -> shown E) (x : list L * outcome A) : (forall l, event_of (c l) = []) -> seen (through E c x) = lift (snd x).
Proof. intros H. unfold seen, through, lift. cbn [fst snd]. f_equal. induction (fst x) as [|y l IH]; [reflexivity|]. cbn [map flat_map]. now rewrite H, IH. Qed.
Lemma seen_tests l : flat_map event_of (map WTests l) = reports (flat_map (of_runner E) l).
Proof. induction l as [|x l IH]; [reflexivity|]. cbn [map flat_map event_of]. rewrite IH. unfold reports. now rewrite flat_map_app. Qed.
Lemma seen_testing order fuel nt f : seen (testing_shown E order fuel nt f) = testing E order fuel nt f.
Proof.
  unfold testing_shown, testing. destruct (negb nt && _); [|reflexivity]. rewrite seen_and. apply and_then_ext; [reflexivity|]. intros s. unfold seen, through, and_show, and_then, hidden, lift. cbn [fst snd].
  destruct (C91_events E fuel (order f) (f_tests (order f)) s) as (A & B & _). destruct (tests_runner E (order f) fuel (f_tests (order f)) s) as [C D].
  rewrite B, A, <- C, <- D. destruct (snd (tests_spoken E (order f) fuel (f_tests (order f)) s)); cbn [bind fst snd]; rewrite ?app_nil_r, seen_tests; reflexivity.
Qed.
Lemma seen_compile order fuel nt f i : seen (compile_one_shown E order fuel nt f i) = compile_one E order fuel nt f i.
Proof.
  unfold compile_one_shown, compile_one. rewrite seen_and, seen_nothing, SourceProps.C97_same by reflexivity. apply and_then_ext; [reflexivity|]. intros tmp. rewrite seen_and. apply and_then_ext; [reflexivity|]. intros n.
  cbv zeta. rewrite seen_and. apply and_then_ext; [reflexivity|]. intros _. rewrite seen_and, seen_testing. apply and_then_ext; [reflexivity|]. intros _.
  rewrite seen_and, seen_nothing, TraceProps.C98_same by reflexivity. apply and_then_ext; [reflexivity|]. intros b. rewrite seen_and. apply and_then_ext; reflexivity.
Qed.
Lemma seen_decompile order so fuel nt f i : seen (decompile_one_shown E order so fuel nt f i) = decompile_one E order so fuel nt f i.
Proof.
  unfold decompile_one_shown, decompile_one. rewrite seen_and, seen_nothing, ReportProps.C99_same by reflexivity. apply and_then_ext; [reflexivity|]. intros tmp. rewrite seen_and. apply and_then_ext; [reflexivity|]. intros _.
  cbv zeta. rewrite seen_and, seen_testing. apply and_then_ext; reflexivity.
Qed.
Lemma seen_inputs body body' inputs : (forall f i, seen (body f i) = body' f i) -> forall f, seen (inputs_shown E body inputs f) = for_inputs body' inputs f.
Proof. intros H. induction inputs as [|i inputs IH]; intros f; [reflexivity|]. cbn [inputs_shown for_inputs]. rewrite seen_and, H. apply and_then_ext; [reflexivity|exact IH]. Qed.
Lemma seen_files tests : forall f, seen (test_files_shown E tests f) = lift (test_files E tests f).
Proof.
  induction tests as [|i tests IH]; intros f; [reflexivity|]. cbn [test_files_shown test_files]. rewrite seen_and, seen_nothing, SourceProps.C97_same by reflexivity. unfold and_then, lift. cbn [fst snd].
  destruct (compile_burn E (snd i)); cbn [bind]; [|reflexivity|reflexivity]. rewrite IH. reflexivity.
Qed.
Lemma seen_whole body body' tests inputs : (forall f i, seen (body f i) = body' f i) ->
  seen (and_show E (test_files_shown E tests fmpfile_new) (fun f => inputs_shown E body inputs f)) = and_then (lift (test_files E tests fmpfile_new)) (for_inputs body' inputs).
Proof. intros H. rewrite seen_and, seen_files. apply and_then_ext; [reflexivity|]. intros f. now apply seen_inputs. Qed.

(** ** The tests *)
Lemma tests_stuck file fuel ts s ls : tests_spoken E file fuel ts s = (ls, Panic) ->
  exists before t after l1 s1 l2, ts = before ++ t :: after /\ tests_speak E file before s l1 s1 /\ stuck_speaks E file (begun s1 t) l2 /\ ls = l1 ++ OfRunner E (LRunning (te_name t)) :: l2.
Proof. intros H. apply tests_stuck_exact. now exists fuel. Qed.
Lemma testing_shows order fuel nt f l r : testing_shown E order fuel nt f = (l, r) -> maps_ok (order f) -> f_tests (order f) = f_tests f -> r <> NoFuel ->
  exists ls, l = map WTests ls /\ tests_shown E nt (order f) ls (match r with Ok _ => true | _ => false end).
Proof.
  intros H M Q NF. unfold testing_shown in H. destruct nt eqn:NT; cbn [negb andb] in H; [injection H as <- <-; exists []; split; [reflexivity|]; apply ThNone; auto|].
  destruct (f_tests f) as [|t0 l0] eqn:T; [injection H as <- <-; exists []; split; [reflexivity|]; apply ThNone; auto|]. assert (T' : f_tests (order f) <> []) by (rewrite Q; discriminate). clear T.
  destruct (environment (order f) M) as [E1 E2]. destruct (fit_dec (order f)) as [F|F].
  - destruct (E1 F) as (s & G & S0). rewrite G in H. unfold and_show, hidden, through in H. cbn [fst snd app] in H.
    destruct (tests_spoken E (order f) fuel (f_tests (order f)) s) as [ls [s'| |]] eqn:R; cbn [fst snd] in H; injection H as <- <-.
    + exists ls. split; [apply app_nil_r|]. eapply ThRun; eauto. eapply tests_speak_ok; eauto.
    + exists ls. split; [reflexivity|]. apply tests_stuck in R as (b & t & a & l1 & s1 & l2 & P & A & B & ->). eapply ThBreaksOff; eauto.
    + now elim NF.
  - rewrite (E2 F) in H. injection H as <- <-. exists []. split; [reflexivity|]. apply ThNoDatabase; auto.
Qed.

(** ** Texts and files *)
Lemma text_shows code g f : source_told E code = (g, Ok f) -> schema_says E code f g.
Proof. intros H. now apply SourceProps.C97_lines in H. Qed.
Lemma no_text_shows code g : source_told E code = (g, Panic) -> HaltSpec.schema_breaks E code g.
Proof. apply SourceProps.C97_breaks. Qed.
Lemma source_ends code g r : source_told E code = (g, r) -> r = Panic \/ exists f, r = Ok f.
Proof. intros H. destruct (C53_ends E code) as [K|(f & K)]; rewrite <- SourceProps.C97_same, H in K; cbn in K; subst; eauto. Qed.
Lemma file_shows so fuel buf l f : bytes buf -> (forall l, Permutation (so l) l) -> decompile_reported so fuel buf = (l, Ok f) -> file_says buf f l.
Proof.
  intros B PO H. split; [apply (file_decompiles so fuel); auto; rewrite <- ReportProps.C99_same, H; reflexivity|]. destruct (ReportProps.C99_lines _ _ _ _ _ B H) as (h & F & T & _). eauto.
Qed.
Lemma no_file_shows so fuel buf l : bytes buf -> (forall l, Permutation (so l) l) -> decompile_reported so fuel buf = (l, Panic) -> no_file_says buf l.
Proof.
  intros B PO H. split; [apply (file_fails so fuel); auto; rewrite <- ReportProps.C99_same, H; reflexivity|]. destruct (ReportProps.C99_begins _ _ _ _ _ B H) as (h & l1 & m & w & A & Q & T & W & _). exists h, l1, m, w. auto.
Qed.

(** ** Sessions *)
Section Sessions.
Context (order : fmpfile -> fmpfile) (fuel : nat) (nt : bool) (so : list (N * list (N * list N)) -> list (N * list (N * list N))).
Context (any_order : forall f, reordered f (order f)).
Local Notation known := (known E fuel so).

Lemma testing_known ts fs g l r : collected ts fs g -> Forall known fs -> testing_shown E order fuel nt g = (l, r) -> r <> NoFuel ->
  exists ls, l = map WTests ls /\ tests_shown E nt (order g) ls (match r with Ok _ => true | _ => false end).
Proof. intros C F T NF. eapply testing_shows; eauto; [|apply (any_order g)]. exact (proj2 (C72_collected E so fuel ts fs g (order g) C (any_order g) F)). Qed.

Lemma compile_shows ts inputs : forall done file es r, collected ts done file -> Forall known done -> inputs_shown E (compile_one_shown E order fuel nt) inputs file = (es, r) -> r <> NoFuel ->
  compiles_showing E nt ts done inputs es (option_of r).
Proof.
  induction inputs as [|[name code] inputs IH]; intros done file es r C K H NF; cbn [inputs_shown] in H.
  - injection H as <- <-. now constructor.
  - unfold compile_one_shown at 1 in H. cbn [fst snd] in H. destruct (source_told E code) as [cs o] eqn:S. destruct (source_ends _ _ _ S) as [->|(f & ->)].
    { unfold and_show, through in H. cbn [fst snd] in H. injection H as <- <-. apply CwText. now apply no_text_shows. }
    destruct (MainModel.strip_suffix (lit ".burn") name) as [n|] eqn:Sx.
    2:{ unfold and_show, through, hidden, unwrap in H. cbn [fst snd] in H. injection H as <- <-. rewrite app_nil_r. apply (CwName _ _ _ _ _ _ _ f); [|now apply text_shows].
        intros n ->. assert (S' : MainModel.strip_suffix (lit ".burn") (n ++ lit ".burn") = Some n) by now apply strip_ok. congruence. }
    apply strip_ok in Sx as ->. assert (Hc : compile_burn E code = Ok f) by (rewrite <- SourceProps.C97_same, S; reflexivity). destruct (compiled_holds E code f Hc) as (cc & Hd).
    pose proof (collected_snoc ts done file f n C (holds_keyed cc f Hd)) as C'. assert (K' : Forall known (done ++ [f])) by (apply Forall_app; split; [exact K|]; constructor; [left; eauto|constructor]).
    unfold unwrap in H. unfold and_show, through, hidden, puts in H. cbn [fst snd app] in H. set (g := absorb (set_name file n) f) in *. assert (Ng : f_name g = n) by reflexivity. clearbody g.
    pose proof (text_shows _ _ _ S) as TS. destruct (testing_shown E order fuel nt g) as [l t] eqn:T. destruct t as [[]| |]; cbn [fst snd app] in H.
    + destruct (testing_known _ _ _ _ _ C' K' T) as (ls & -> & TH); [discriminate|]. cbn iota in TH.
      destruct (assemble_noted (order g)) as [ns o] eqn:A. pose proof (TraceProps.C98_same (order g)) as AS. rewrite A in AS. cbn [snd] in AS. destruct o as [b| |]; cbn [fst snd app] in H.
      * apply TraceProps.C98_lines in A as (F & Qb & Qn). destruct (inputs_shown E (compile_one_shown E order fuel nt) inputs g) as [e2 r2] eqn:R. cbn [fst snd] in H. injection H as <- <-.
        rewrite <- !app_assoc. cbn [app]. rewrite <- !app_assoc. cbn [app]. rewrite Ng, Qb, Qn. eapply CwMore; eauto.
      * injection H as <- <-. eapply CwLarge; eauto. now apply TraceProps.C98_breaks.
      * now injection H as <- <-.
    + destruct (testing_known _ _ _ _ _ C' K' T) as (ls & -> & TH); [discriminate|]. injection H as <- <-. eapply CwTests; eauto.
    + now injection H as <- <-.
Qed.
Lemma decompile_shows ts inputs : (forall l, Permutation (so l) l) -> forall done file es r, collected ts done file -> Forall known done -> Forall (fun i => bytes (snd i)) inputs ->
  inputs_shown E (decompile_one_shown E order so fuel nt) inputs file = (es, r) -> r <> NoFuel -> decompiles_showing E nt ts done inputs es (option_of r).
Proof.
  intros PO. induction inputs as [|[name buf] inputs IH]; intros done file es r C K B H NF; cbn [inputs_shown] in H.
  - injection H as <- <-. now constructor.
  - inversion B as [|? ? B1 B2]; subst. cbn [snd] in B1. unfold decompile_one_shown at 1 in H. cbn [fst snd] in H. destruct (decompile_reported so fuel buf) as [l o] eqn:D.
    unfold and_show, through, hidden, puts in H. cbn [fst snd app] in H. destruct o as [f| |]; cbn [fst snd] in H.
    + assert (Hc : decompile so fuel buf = Ok f) by (rewrite <- ReportProps.C99_same, D; reflexivity).
      assert (C' : collected ts (done ++ [f]) (absorb file f)).
      { pose proof (collected_snoc ts done file f (f_name file) C (proj1 (fine_keyed _ (decompiled_fine _ _ _ _ Hc)))) as C'. now destruct file. }
      assert (K' : Forall known (done ++ [f])) by (apply Forall_app; split; [exact K|]; constructor; [right; eauto|constructor]).
      pose proof (file_shows _ _ _ _ _ B1 PO D) as FS. set (g := absorb file f) in *. clearbody g. destruct (testing_shown E order fuel nt g) as [t u] eqn:T. destruct u as [[]| |]; cbn [fst snd app] in H.
      * destruct (testing_known _ _ _ _ _ C' K' T) as (ls & -> & TH); [discriminate|]. destruct (inputs_shown E (decompile_one_shown E order so fuel nt) inputs g) as [e2 r2] eqn:R. cbn [fst snd] in H. injection H as <- <-.
        rewrite app_nil_r, <- !app_assoc. cbn [app]. eapply DwMore; eauto.
      * destruct (testing_known _ _ _ _ _ C' K' T) as (ls & -> & TH); [discriminate|]. injection H as <- <-. eapply DwTests; eauto.
      * now injection H as <- <-.
    + injection H as <- <-. apply DwFile. eapply no_file_shows; eauto.
    + now injection H as <- <-.
Qed.
End Sessions.

Lemma files_show tests : forall f0 es r, test_files_shown E tests f0 = (es, r) ->
  (r = Panic /\ exists before i after tgs g, tests = before ++ i :: after /\ Forall2 (fun j tg => schema_says E (snd j) (fst tg) (snd tg)) before tgs /\ HaltSpec.schema_breaks E (snd i) g /\
     es = map WComplaint (concat (map snd tgs) ++ g)) \/
  (exists tgs, r = Ok (put_tests f0 (f_tests f0 ++ concat (map f_tests (map fst tgs)))) /\ Forall2 (fun j tg => schema_says E (snd j) (fst tg) (snd tg)) tests tgs /\
     es = map WComplaint (concat (map snd tgs))).
Proof.
  induction tests as [|i tests IH]; intros f0 es r H; cbn [test_files_shown] in H.
  - injection H as <- <-. right. exists []. cbn. rewrite app_nil_r. split; [now destruct f0|]. split; [constructor|reflexivity].
  - destruct (source_told E (snd i)) as [g o] eqn:S. unfold and_show, through in H. cbn [fst snd] in H. destruct (source_ends _ _ _ S) as [->|(t & ->)].
    + injection H as <- <-. left. split; [reflexivity|]. exists [], i, tests, [], g. split; [reflexivity|]. split; [constructor|]. split; [now apply no_text_shows|reflexivity].
    + destruct (test_files_shown E tests (put_tests f0 (f_tests f0 ++ f_tests t))) as [e2 r2] eqn:R. cbn [fst snd] in H. injection H as <- <-. apply text_shows in S.
      destruct (IH _ _ _ R) as [(-> & b & j & a & tgs & g2 & -> & F & N & ->)|(tgs & -> & F & ->)].
      * left. split; [reflexivity|]. exists (i :: b), j, a, ((t, g) :: tgs), g2. split; [reflexivity|]. split; [now constructor|]. split; [exact N|]. cbn [map concat fst snd]. rewrite <- map_app, app_assoc. reflexivity.
      * right. exists ((t, g) :: tgs). split; [cbn [map concat fst snd]; unfold put_tests; cbn; now rewrite <- app_assoc|]. split; [now constructor|]. cbn [map concat fst snd]. now rewrite <- map_app.
Qed.
End P.
