(** Proofs about the program with the files it reads and writes; the theorems are in StoreProps.v. *)
From Coq Require Import Ascii String NArith Arith List Bool Lia Permutation.
From Verif Require AbortSpec.
From Verif Require Import Prelude PreludeFacts Utf8 Utf8Facts ComponentModel CalcModel DbModel EvalModel VmModel DecompModel AsmModel SchemaModel SchemaFuel SchemaProps JsonModel JsonSpec Json AsmSpec VmTextSpec RunsSpec MainModel MainSpec MainProofs MainProps
  SessionSpec Session FilesModel FilesSpec Files PieceSpec Pieces Unicode StoreModel StoreSpec.
Import ListNotations.
Local Open Scope N_scope.

(** ** Names *)
Lemma components_slash a : forall b cur, components (a ++ 47 :: b) cur = components a cur ++ components b [].
Proof. induction a as [|c a IH]; intros b cur; [reflexivity|]. cbn [app components]. destruct (c =? 47); [cbn [app]; now rewrite IH|apply IH]. Qed.
Lemma components_plain a : forall cur, ~ In 47 a -> components a cur = [cur ++ a].
Proof.
  induction a as [|c a IH]; intros cur H; [cbn; now rewrite app_nil_r|]. cbn [components]. destruct (N.eqb_spec c 47) as [->|]; [destruct H; now left|].
  rewrite IH by (intros K; apply H; now right). now rewrite <- app_assoc.
Qed.
Fixpoint joined (cs : list (list N)) : list N := match cs with [] => [] | [c] => c | c :: cs => c ++ 47 :: joined cs end.
Lemma components_some s : forall cur, exists c l, components s cur = c :: l.
Proof. induction s as [|c s IH]; intros cur; cbn [components]; [eauto|]. destruct (c =? 47); [eauto|apply IH]. Qed.
Lemma joined_components s : forall cur, joined (components s cur) = cur ++ s.
Proof.
  induction s as [|c s IH]; intros cur; [cbn; now rewrite app_nil_r|]. cbn [components]. destruct (N.eqb_spec c 47) as [->|].
  - specialize (IH []). destruct (components_some s []) as (x & l & Q). rewrite Q in *. cbn [app] in IH. rewrite <- IH. reflexivity.
  - rewrite IH, <- app_assoc. reflexivity.
Qed.
Lemma joined_mid a : forall n b, joined (a ++ n :: b) = concat (map (fun c => c ++ [47]) a) ++ n ++ concat (map (cons 47) b).
Proof.
  induction a as [|c a IH]; intros n b.
  - cbn [app map concat]. revert n. induction b as [|m b IH]; intros n; cbn [joined map concat]; [now rewrite app_nil_r|]. f_equal. cbn [app]. f_equal. apply IH.
  - cbn [app map concat]. destruct (a ++ n :: b) eqn:Q; [destruct a; discriminate|]. change (joined (c :: l :: l0)) with (c ++ 47 :: joined (l :: l0)). rewrite <- Q, IH, <- !app_assoc. reflexivity.
Qed.
Lemma no_slashes s : forall cur, ~ In 47 cur -> Forall (fun c => ~ In 47 c) (components s cur).
Proof.
  induction s as [|c s IH]; intros cur H; cbn [components]; [repeat constructor; exact H|]. destruct (N.eqb_spec c 47).
  - constructor; [exact H|apply IH; intros []].
  - apply IH. rewrite in_app_iff. intros [K|[K|[]]]; auto.
Qed.
Lemma filter_last {A} (f : A -> bool) l n r : rev (filter f l) = n :: r -> exists a b, l = a ++ n :: b /\ filter f b = [] /\ f n = true.
Proof.
  revert n r. induction l as [|x l IH] using rev_ind; intros n r H; [discriminate|]. rewrite filter_app, rev_app_distr in H. cbn [filter] in H. destruct (f x) eqn:F.
  - cbn [rev app] in H. injection H as -> H. exists l, []. auto.
  - cbn [rev app] in H. destruct (IH _ _ H) as (a & b & -> & K & Fn). exists a, (b ++ [x]). rewrite <- app_assoc. split; [reflexivity|]. rewrite filter_app, K. cbn. now rewrite F.
Qed.
Lemma counts_spec c : counts c = true <-> c <> [] /\ c <> lit ".".
Proof. unfold counts. destruct (str_eqb_spec c []), (str_eqb_spec c (lit ".")); cbn; intuition congruence. Qed.
Lemma idle_none t : idle t -> filter counts (tl (components t [])) = [] /\ (t = [] \/ exists u, t = 47 :: u).
Proof.
  induction 1 as [|t H [IH1 IH2]|t H [IH1 IH2] T]; [split; [reflexivity|now left]| |].
  - split; [|right; eauto]. cbn [components tl]. destruct IH2 as [->|(u & ->)]; [reflexivity|]. cbn [components] in *. exact IH1.
  - split; [|right; eauto]. destruct IH2 as [->|(u & ->)]; [reflexivity|]. exact IH1.
Qed.
Lemma idle_of b : Forall (fun c => ~ In 47 c) b -> filter counts b = [] -> idle (concat (map (cons 47) b)).
Proof.
  induction b as [|c b IH]; intros F H; [constructor|]. inversion F as [|? ? _ F']; subst. cbn [filter map concat] in *. destruct (counts c) eqn:C; [discriminate|].
  assert (K : c = [] \/ c = lit ".").
  { destruct c as [|x c]; [now left|]. right. destruct (str_eqb_spec (x :: c) (lit ".")) as [->|NE]; [reflexivity|]. assert (X : counts (x :: c) = true) by (apply counts_spec; split; [discriminate|exact NE]). congruence. }
  destruct K as [->| ->]; cbn [app lit]; [constructor; auto|]. apply IdDot; [auto|]. destruct b as [|m b]; reflexivity.
Qed.
Lemma name_exact p n : file_name p = Some n <-> base_name p n.
Proof.
  split.
  - unfold file_name. destruct (rev (filter counts (components p []))) as [|c r] eqn:R; [discriminate|]. destruct (str_eqb_spec c (lit "..")) as [|NE]; [discriminate|]. intros [= <-].
    destruct (filter_last _ _ _ _ R) as (a & b & Q & F & Fn). pose proof (no_slashes p [] (fun x => x)) as NS. pose proof (joined_components p []) as J. cbn [app] in J.
    rewrite Q in NS. rewrite Q, joined_mid in J. apply Forall_app in NS as [NS1 NS2]. inversion NS2 as [|? ? NSc NSb]; subst. apply counts_spec in Fn as [N1 N2].
    exists (concat (map (fun c => c ++ [47]) a)), (concat (map (cons 47) b)). split; [reflexivity|]. split; [|split; [now apply idle_of|auto]].
    destruct a as [|x a _] using rev_ind; [now left|]. right. rewrite map_app, concat_app. cbn [map concat]. rewrite app_nil_r, app_assoc. eauto.
  - intros (dir & t & -> & D & I & N1 & N2 & N3 & NS). unfold file_name. destruct (idle_none t I) as [F T].
    assert (K : filter counts (components (n ++ t) []) = [n]).
    { assert (C : counts n = true) by (apply counts_spec; auto). destruct T as [->|(u & ->)].
      - rewrite app_nil_r, components_plain by exact NS. cbn [app filter]. now rewrite C.
      - rewrite components_slash, components_plain by exact NS. cbn [components tl] in F. cbn [app filter]. rewrite C. f_equal. exact F. }
    assert (L : exists l, filter counts (components (dir ++ n ++ t) []) = l ++ [n]).
    { destruct D as [->|(q & ->)]; [exists []; exact K|]. exists (filter counts (components q [])). rewrite <- app_assoc. cbn [app]. rewrite components_slash, filter_app, K. reflexivity. }
    destruct L as (l & ->). rewrite rev_app_distr. cbn [rev app]. destruct (str_eqb_spec n (lit "..")); [contradiction|reflexivity].
Qed.
Lemma name_none p : file_name p = None <-> forall n, ~ base_name p n.
Proof.
  split; [intros H n K; apply name_exact in K; congruence|]. intros H. destruct (file_name p) as [n|] eqn:Q; [|reflexivity]. apply name_exact in Q. now elim (H n).
Qed.

(** ** Reading and writing *)
Section Store.
Context (E : fenv) (place : list N -> option N) (accepts : N -> bool) (order : fmpfile -> fmpfile) (segments : list (N * list (N * list N)) -> list (N * list (N * list N)))
  (fuel : nat) (nt : bool).
Context (any_order : forall f, reordered f (order f)).
Local Notation act := StoreModel.act.
Local Notation text_at := (text_at place).
Local Notation bytes_at := (bytes_at place).
Local Notation open_to := (open_to place accepts).
Local Notation stores := (stores place accepts).
Local Notation performs := (performs place accepts).
Local Notation compile_at := (compile_at E place accepts order fuel nt).
Local Notation decompile_at := (decompile_at E place accepts order segments fuel nt).
Local Notation compile_one := (compile_one E order fuel nt).
Local Notation decompile_one := (decompile_one E order segments fuel nt).

Lemma does_do {A B} (x : outcome A) (k : A -> act B) d : and_do (does (lift x)) k d = match x with Ok a => k a d | Panic => (d, ([], Panic)) | NoFuel => (d, ([], NoFuel)) end.
Proof. unfold and_do, does, lift. destruct x; try reflexivity. cbn [app]. destruct (k a d) as [d2 [e2 r2]]. reflexivity. Qed.
Lemma contents_some d p c : contents place d p = Some c <-> bytes_at d p c.
Proof. unfold contents, StoreSpec.bytes_at. destruct (place p) as [i|]; [|split; [discriminate|intros (i & K & _); discriminate]]. split; [eauto|intros (j & [= <-] & K); exact K]. Qed.
Lemma read_bytes {A} d p (k : list N -> act A) : (exists c, bytes_at d p c /\ and_do (read_file place p) k d = k c d) \/ ((forall c, ~ bytes_at d p c) /\ and_do (read_file place p) k d = (d, ([], Panic))).
Proof.
  unfold read_file, and_do, lift. destruct (contents place d p) as [c|] eqn:Q; cbn [unwrap].
  - left. exists c. split; [now apply contents_some|]. cbn [app]. destruct (k c d) as [d2 [e2 r2]]. reflexivity.
  - right. split; [|reflexivity]. intros c K. apply contents_some in K. congruence.
Qed.
Lemma do_assoc {A B C} (x : act A) (k : A -> act B) (h : B -> act C) d : and_do (and_do x k) h d = and_do x (fun a => and_do (k a) h) d.
Proof.
  unfold and_do. destruct (x d) as [d1 [es [a| |]]]; try reflexivity. destruct (k a d1) as [d2 [e2 [b| |]]]; cbn [fst snd]; try reflexivity. destruct (h b d2) as [d3 [e3 r3]]. cbn [fst snd]. now rewrite app_assoc.
Qed.
Lemma read_texts {A} d p (k : list N -> act A) : (exists s, text_at d p s /\ and_do (read_text place p) k d = k s d) \/ ((forall s, ~ text_at d p s) /\ and_do (read_text place p) k d = (d, ([], Panic))).
Proof.
  unfold read_text. rewrite do_assoc. destruct (read_bytes d p (fun a => and_do (does (lift (unwrap (from_utf8 a)))) k)) as [(c & B & ->)|(N & ->)].
  - rewrite does_do. destruct (from_utf8 c) as [s|] eqn:U; cbn [unwrap].
    + left. exists s. split; [|reflexivity]. apply utf8_from_utf8 in U as [U1 U2]. split; [exact U2|]. now rewrite U1.
    + right. split; [|reflexivity]. intros s [S K]. apply contents_some in K. apply contents_some in B. rewrite K in B. injection B as <-. rewrite from_utf8_utf8 in U by exact S. discriminate.
  - right. split; [|reflexivity]. intros s [_ K]. now apply N in K.
Qed.
Lemma text_one d p s s' : text_at d p s -> text_at d p s' -> s' = s.
Proof. intros [S K] [S' K']. apply contents_some in K, K'. apply utf8_inj; auto. congruence. Qed.
Lemma bytes_one d p s s' : bytes_at d p s -> bytes_at d p s' -> s' = s.
Proof. intros K K'. apply contents_some in K, K'. congruence. Qed.
Lemma put_some d p c d' : put place accepts d p c = Some d' -> stores d p c d' /\ open_to p.
Proof.
  unfold put, StoreSpec.stores, StoreSpec.open_to. destruct (place p) as [i|] eqn:P; [|discriminate]. destruct (accepts i) eqn:A; [|discriminate]. intros [= <-]. split; [|eauto].
  exists i. split; [reflexivity|]. split; [exact A|]. split; [rewrite nget_nset, N.eqb_refl; reflexivity|]. intros j J. rewrite nget_nset. destruct (N.eqb_spec i j); [congruence|reflexivity].
Qed.
Lemma put_none d p c : put place accepts d p c = None <-> ~ open_to p.
Proof.
  unfold put, StoreSpec.open_to. destruct (place p) as [i|] eqn:P; [|split; [intros _ (j & K & _); discriminate|reflexivity]].
  destruct (accepts i) eqn:A; split; try discriminate; [intros K; elim K; eauto|intros _ (j & [= <-] & K); congruence|reflexivity].
Qed.
Lemma save_do {A} p c e (k : unit -> act A) d : (open_to p /\ exists d1, put place accepts d p c = Some d1 /\ stores d p c d1 /\
    and_do (save place accepts p c e) k d = (fst (k tt d1), (e :: fst (snd (k tt d1)), snd (snd (k tt d1))))) \/ (~ open_to p /\ and_do (save place accepts p c e) k d = (d, ([], Panic))).
Proof.
  unfold save, and_do. destruct (put place accepts d p c) as [d1|] eqn:P.
  - left. destruct (put_some _ _ _ _ P) as [S O]. split; [exact O|]. exists d1. auto.
  - right. split; [now apply put_none in P|reflexivity].
Qed.
Lemma performs_app inspect d es d1 : performs inspect d es d1 -> forall es' d2, performs inspect d1 es' d2 -> performs inspect d (es ++ es') d2.
Proof. induction 1; intros; cbn [app]; [assumption|constructor; auto|constructor; auto|econstructor; eauto|econstructor; eauto]. Qed.

(** Tests write nothing. *)
Lemma tests_silent file : forall ts s e, In e (fst (print_tests E fuel file ts s)) -> (exists t, e = ERunning t) \/ exists t b, e = EReport t b.
Proof.
  induction ts as [|t ts IH]; intros s e H; [destruct H|]. cbn [print_tests] in H. unfold and_then, say, lift in H. cbn [fst snd app] in H.
  destruct (run_test E file fuel (load_test s t)) as [s1| |]; cbn [fst snd app] in H; destruct H as [<-|H]; eauto; try contradiction. destruct H as [<-|H]; [right; eauto|]. now apply IH in H.
Qed.
Lemma testing_silent file e : In e (fst (testing E order fuel nt file)) -> (exists t, e = ERunning t) \/ exists t b, e = EReport t b.
Proof.
  unfold testing. destruct (negb nt && _); [|intros []]. unfold and_then, lift. cbn [fst snd]. destruct (generate_test_environment _ _) as [s| |]; cbn [fst snd app]; [|intros []|intros []].
  destruct (print_tests E fuel (order file) (f_tests (order file)) s) as [es [r| |]] eqn:Q; cbn [fst snd]; rewrite ?app_nil_r; intros H; apply (tests_silent (order file) (f_tests (order file)) s); rewrite Q; exact H.
Qed.
Lemma silent_performs inspect d es : (forall e, In e es -> (exists t, e = ERunning t) \/ exists t b, e = EReport t b) -> performs inspect d es d.
Proof. induction es as [|e es IH]; intros H; [constructor|]. destruct (H e (or_introl eq_refl)) as [(t & ->)|(t & b & ->)]; constructor; apply IH; intros; apply H; now right. Qed.

Lemma inspect_shows g : unicode_file g -> shows_schema g (utf8 (inspect_text (order g))).
Proof. apply order_shows, any_order. Qed.

(** ** One input *)
Lemma does_ran {A B} (x : ran A) (k : A -> act B) d : and_do (does x) k d =
  match snd x with Ok a => (fst (k a d), (fst x ++ fst (snd (k a d)), snd (snd (k a d)))) | Panic => (d, (fst x, Panic)) | NoFuel => (d, (fst x, NoFuel)) end.
Proof. destruct x as [es [a| |]]; reflexivity. Qed.
Lemma one_eq file base code tmp n g : compile_burn E code = Ok tmp -> MainModel.strip_suffix (lit ".burn") base = Some n -> absorb (set_name file n) tmp = g ->
  compile_one file (base, code) = match testing E order fuel nt g with
    | (rs, Ok _) => match assemble (order g) with
      | Ok buf => (EInspect g :: rs ++ [EWritten (f_name g ++ lit ".fmp12") buf], Ok g) | Panic => (EInspect g :: rs, Panic) | NoFuel => (EInspect g :: rs, NoFuel) end
    | (rs, Panic) => (EInspect g :: rs, Panic)
    | (rs, NoFuel) => (EInspect g :: rs, NoFuel)
    end.
Proof.
  intros C S <-. unfold MainModel.compile_one, and_then, lift, say. cbn [fst snd]. rewrite C, S. cbn [unwrap fst snd]. cbv zeta. cbn [fst snd].
  destruct (testing E order fuel nt (absorb (set_name file n) tmp)) as [rs [u| |]]; cbn [fst snd app]; try reflexivity.
  destruct (assemble (order (absorb (set_name file n) tmp))); cbn [fst snd app]; rewrite ?app_nil_r; reflexivity.
Qed.
Lemma compile_at_cases file p d :
  ((forall code, ~ text_at d p code) /\ compile_at file p d = (d, ([], Panic))) \/
  exists code, text_at d p code /\
    (((forall n, ~ base_name p n) /\ compile_at file p d = (d, ([], Panic))) \/
     exists base, base_name p base /\
     ((~ open_to test_compile /\ (exists f n, compile_burn E code = Ok f /\ base = n ++ lit ".burn") /\ compile_at file p d = (d, ([], Panic))) \/
      (exists es d' o c g, compile_at file p d = (d', (es, Panic)) /\ compile_one file (base, code) = (es ++ [EWritten o c], Ok g) /\ performs test_compile d es d' /\ ~ open_to o) \/
      (exists d', compile_at file p d = (d', compile_one file (base, code)) /\ performs test_compile d (fst (compile_one file (base, code))) d'))).
Proof.
  unfold StoreModel.compile_at. match goal with |- context [and_do (read_text place p) ?k d] => destruct (read_texts d p k) as [(code & T & ->)|(N & ->)] end; [|now left].
  right. exists code. split; [exact T|]. rewrite does_do.
  destruct (compile_burn E code) as [tmp| |] eqn:C; [| |now elim (compile_fuel E code)].
  2:{ unfold MainModel.compile_one; cbn [fst snd]; rewrite C. destruct (file_name p) as [base|] eqn:B; [|left; split; [now apply name_none|reflexivity]]. right. exists base. split; [now apply name_exact|]. right. right. exists d. split; [reflexivity|constructor]. }
  rewrite does_do. destruct (file_name p) as [base|] eqn:B; cbn [unwrap]; [|left; split; [now apply name_none|reflexivity]]. right. exists base. split; [now apply name_exact|].
  rewrite does_do. destruct (MainModel.strip_suffix (lit ".burn") base) as [n|] eqn:S; cbn [unwrap].
  2:{ unfold MainModel.compile_one; cbn [fst snd]; rewrite C. unfold lift at 1 4. unfold and_then at 1 3. cbn [fst snd]. rewrite S. right. right. exists d. split; [reflexivity|constructor]. }
  rewrite (one_eq file base code tmp n _ C S eq_refl). cbv zeta. set (g := absorb (set_name file n) tmp).
  match goal with |- context [and_do (save place accepts ?o ?c ?e) ?k d] => destruct (save_do o c e k d) as [(O & d1 & _ & S1 & ->)|(O & ->)] end.
  2:{ left. split; [exact O|]. split; [|reflexivity]. exists tmp, n. split; [reflexivity|]. now apply strip_ok. }
  right. destruct (testing E order fuel nt g) as [rs r] eqn:TE. pose proof (fun e => testing_silent g e) as TS. rewrite TE in TS. cbn [fst] in TS.
  assert (PI : forall es d', performs test_compile d1 es d' -> performs test_compile d (EInspect g :: es) d') by (intros es d' K; econstructor; [apply inspect_shows|exact S1|exact K]).
  assert (PT : performs test_compile d1 rs d1) by now apply silent_performs.
  rewrite !does_ran. cbn [fst snd]. destruct r as [[]| |]; cbn [fst snd].
  2,3: right; exists d1; split; [reflexivity|]; apply PI; exact PT.
  unfold lift. cbn [fst snd]. destruct (assemble (order g)) as [buf| |] eqn:A; cbn [fst snd].
  2,3: right; exists d1; rewrite app_nil_r; split; [reflexivity|]; apply PI; exact PT.
  match goal with |- context [and_do (save place accepts ?o ?c ?e) ?k d1] => destruct (save_do o c e k d1) as [(O2 & d2 & _ & S2 & ->)|(O2 & ->)] end.
  - right. exists d2. split; [reflexivity|]. apply PI. eapply performs_app; [exact PT|]. econstructor; [exact S2|constructor].
  - left. exists (EInspect g :: rs), d1, (f_name g ++ lit ".fmp12"), buf, g. cbn [fst snd]. rewrite app_nil_r. split; [reflexivity|]. split; [reflexivity|]. split; [apply PI; exact PT|exact O2].
Qed.
Lemma one_back file base buf : decompile_one file (base, buf) =
  match decompile segments fuel buf with
  | Ok tmp => match testing E order fuel nt (absorb file tmp) with
    | (rs, Ok _) => (EInspect tmp :: rs, Ok (absorb file tmp)) | (rs, Panic) => (EInspect tmp :: rs, Panic) | (rs, NoFuel) => (EInspect tmp :: rs, NoFuel) end
  | Panic => ([], Panic)
  | NoFuel => ([], NoFuel)
  end.
Proof.
  unfold MainModel.decompile_one, and_then, lift, say. cbn [fst snd]. destruct (decompile segments fuel buf) as [tmp| |]; cbn [fst snd]; try reflexivity.
  destruct (testing E order fuel nt (absorb file tmp)) as [rs [u| |]]; cbn [fst snd app]; rewrite ?app_nil_r; reflexivity.
Qed.
Lemma copied header p d : (exists buf e0 d0, bytes_at d p buf /\ copies place accepts header d buf e0 d0 /\ bytes_at d0 p buf /\
    (if header then copy_header place accepts p else does (lift (Ok tt))) d = (d0, (e0, Ok tt))) \/
  ((forall buf, ~ bytes_at d p buf) /\ (if header then copy_header place accepts p else does (lift (Ok tt))) d = (d, ([], if header then Panic else Ok tt))).
Proof.
  destruct header.
  - unfold copy_header. match goal with |- context [and_do (read_file place p) ?k d] => destruct (read_bytes d p k) as [(buf & B & ->)|(N & ->)] end; [|right; auto].
    left. exists buf. unfold save_or_not. destruct (put place accepts d (lit "header.log") buf) as [d1|] eqn:P.
    + exists [EWritten (lit "header.log") buf], d1. destruct (put_some _ _ _ _ P) as [S O]. split; [exact B|]. split; [left; auto|]. split; [|reflexivity].
      destruct B as (i & Pi & Ni). exists i. split; [exact Pi|]. destruct S as (j & Pj & Aj & Nj & K). destruct (N.eq_dec i j) as [->|NE]; [exact Nj|rewrite K; auto].
    + exists [], d. split; [exact B|]. split; [right; split; [right; now apply put_none in P|auto]|]. split; [exact B|reflexivity].
  - destruct (contents place d p) as [buf|] eqn:C.
    + left. exists buf, [], d. apply contents_some in C. split; [exact C|]. split; [right; auto|]. split; [exact C|reflexivity].
    + right. split; [|reflexivity]. intros buf K. apply contents_some in K. congruence.
Qed.
Definition all_bytes (d : store) : Prop := forall i c, nget d i = Some c -> bytes c.
Lemma stores_bytes d p c d' : stores d p c d' -> bytes c -> all_bytes d -> all_bytes d'.
Proof. intros (i & _ & _ & N & K) B A j x H. destruct (N.eq_dec j i) as [->|NE]; [congruence|]. rewrite K in H by exact NE. eapply A; eauto. Qed.
Lemma copies_bytes header d p buf e0 d0 : bytes_at d p buf -> copies place accepts header d buf e0 d0 -> all_bytes d -> all_bytes d0.
Proof. intros (i & _ & Ni) [(_ & _ & _ & S)|(_ & _ & ->)] A; [|exact A]. eapply stores_bytes; eauto. Qed.
Lemma decompile_at_cases header file p d :
  ((forall buf, ~ bytes_at d p buf) /\ decompile_at header file p d = (d, ([], Panic))) \/
  exists buf e0 d0, bytes_at d p buf /\ copies place accepts header d buf e0 d0 /\
    ((~ open_to test_decompile /\ (exists f, decompile segments fuel buf = Ok f) /\ decompile_at header file p d = (d0, (e0, Panic))) \/
     (exists d', decompile_at header file p d = (d', (e0 ++ fst (decompile_one file (p, buf)), snd (decompile_one file (p, buf)))) /\ performs test_decompile d0 (fst (decompile_one file (p, buf))) d' /\
       ((forall l, Permutation (segments l) l) -> all_bytes d -> all_bytes d'))).
Proof.
  unfold StoreModel.decompile_at. unfold and_do at 1 6 11. destruct (copied header p d) as [(buf & e0 & d0 & B & C & B0 & ->)|(N & ->)].
  2:{ left. split; [exact N|]. destruct header; [reflexivity|]. match goal with |- context [and_do (read_file place p) ?k d] => destruct (read_bytes d p k) as [(buf & B & _)|(_ & ->)] end; [now apply N in B|reflexivity]. }
  right. exists buf, e0, d0. split; [exact B|]. split; [exact C|].
  match goal with |- context [and_do (read_file place p) ?k d0] => destruct (read_bytes d0 p k) as [(buf' & B' & ->)|(X & _)] end; [|now apply X in B0].
  rewrite (bytes_one _ _ _ _ B0 B') in *. clear B'. rewrite does_do, one_back. destruct (decompile segments fuel buf) as [tmp| |] eqn:D; cbn [fst snd].
  2,3: right; exists d0; split; [now rewrite !app_nil_r|]; split; [constructor|intros _; exact (copies_bytes _ _ _ _ _ _ B C)].
  match goal with |- context [and_do (save place accepts ?o ?c ?e) ?k d0] => destruct (save_do o c e k d0) as [(O & d1 & _ & S1 & ->)|(O & ->)] end.
  2:{ left. split; [exact O|]. cbn [fst snd]. rewrite app_nil_r. eauto. }
  right. cbv zeta. destruct (testing E order fuel nt (absorb file tmp)) as [rs r] eqn:TE. pose proof (fun e => testing_silent (absorb file tmp) e) as TS. rewrite TE in TS. cbn [fst] in TS.
  assert (PI : forall es d', performs test_decompile d1 es d' -> performs test_decompile d0 (EInspect tmp :: es) d') by (intros es d' K; econstructor; [apply inspect_shows|exact S1|exact K]).
  rewrite !does_ran. cbn [fst snd]. exists d1. destruct r as [[]| |]; cbn [does lift fst snd]; rewrite ?app_nil_r; (split; [reflexivity|]; split; [apply PI; now apply silent_performs|]);
    (intros PO A; apply (stores_bytes _ _ _ _ S1); [|exact (copies_bytes _ _ _ _ _ _ B C A)]; apply utf8_bytes, inspect_str, (unicode_reordered tmp); [apply any_order|];
     destruct B as (i & _ & Ni); apply (stored_unicode buf); [exact (A _ _ Ni)|]; exact (file_decompiles _ _ _ _ (A _ _ Ni) PO D)).
Qed.

(** ** Sessions *)
Local Notation known := (known E fuel segments).
Lemma single ts done file base code es r : collected ts done file -> Forall known done -> compile_one file (base, code) = (es, r) -> r <> NoFuel -> compiles E nt ts done [(base, code)] es (option_of r).
Proof.
  intros C K H NF. apply (compiles_session E order fuel nt segments any_order); auto. apply (compile_inputs E order fuel nt ts _ done file); auto. cbn [for_inputs]. rewrite H.
  unfold and_then, lift. cbn [fst snd]. destruct r; cbn [fst snd]; rewrite ?app_nil_r; reflexivity.
Qed.
Lemma single_back ts done file p buf es r : (forall l, Permutation (segments l) l) -> collected ts done file -> Forall known done -> bytes buf -> decompile_one file (p, buf) = (es, r) -> r <> NoFuel ->
  decompiles E nt ts done [(p, buf)] es (option_of r).
Proof.
  intros PO C K B H NF. apply (decompiles_session E order fuel nt segments any_order); auto. apply (decompile_inputs E order segments fuel nt ts _ done file); auto. cbn [for_inputs]. rewrite H.
  unfold and_then, lift. cbn [fst snd]. destruct r; cbn [fst snd]; rewrite ?app_nil_r; reflexivity.
Qed.
Lemma compiled_one ts done file base code es g : collected ts done file -> compile_one file (base, code) = (es, Ok g) -> exists f, compile_burn E code = Ok f /\ collected ts (done ++ [f]) g.
Proof.
  intros C H. assert (S : for_inputs compile_one [(base, code)] file = (es, Ok g)).
  { cbn [for_inputs]. rewrite H. unfold and_then, lift. cbn [fst snd]. now rewrite app_nil_r. }
  apply (compile_inputs E order fuel nt ts _ done file) in S; [|exact C]. clear - S. remember [(base, code)] as l eqn:L. remember (Ok g) as o eqn:Q.
  destruct S as [| | |done n c f h rs rr inputs CB CO N TE|done n c f h rs inputs CB CO N TE F|done n c f h rs inputs es2 la CB CO N TE F S]; try discriminate; [destruct rr; discriminate Q|].
  injection L as _ -> ->. inversion S; subst. match goal with H : Ok _ = Ok _ |- _ => injection H as -> | _ => idtac end. eauto.
Qed.
Lemma decompiled_one ts done file p buf es g : collected ts done file -> decompile_one file (p, buf) = (es, Ok g) -> exists f, decompile segments fuel buf = Ok f /\ collected ts (done ++ [f]) g.
Proof.
  intros C H. assert (S : for_inputs decompile_one [(p, buf)] file = (es, Ok g)).
  { cbn [for_inputs]. rewrite H. unfold and_then, lift. cbn [fst snd]. now rewrite app_nil_r. }
  apply (decompile_inputs E order segments fuel nt ts _ done file) in S; [|exact C]. clear - S. remember [(p, buf)] as l eqn:L. remember (Ok g) as o eqn:Q.
  destruct S as [|done n c rr inputs CB|done n c f h rs rr inputs CB CO TE|done n c f h rs inputs es2 la CB CO TE S]; try discriminate; try (destruct rr; discriminate Q).
  injection L as _ -> ->. inversion S; subst. match goal with H : Ok _ = Ok _ |- _ => injection H as -> | _ => idtac end. eauto.
Qed.
Lemma compile_paths ts paths : forall done file d d' es r, collected ts done file -> Forall known done -> for_paths compile_at paths file d = (d', (es, r)) -> r <> NoFuel ->
  compiles_at E nt place accepts ts done paths d es d' (option_of r).
Proof.
  induction paths as [|p ps IH]; intros done file d d' es r C K H NF; cbn [for_paths] in H; [injection H as <- <- <-; now constructor|].
  unfold and_do in H. destruct (compile_at_cases file p d) as [(N & Q)|(code & T & [(N & Q)|(base & B & [(O & (f & n & CB & ->) & Q)|[(es1 & d1 & o & c & g & Q & One & P & O)|(d1 & Q & P)]])])]; rewrite Q in H; cbn [fst snd] in H.
  - injection H as <- <- <-. now apply CaUnread.
  - injection H as <- <- <-. now apply CaNoName.
  - injection H as <- <- <-. exact (CaNoInspect _ _ _ _ ts done p ps d code n f T (text_compiles _ _ _ CB) B O).
  - injection H as <- <- <-. apply (single ts done file base code _ _ C K) in One; [|discriminate]. eapply CaNoOutput; eauto.
  - destruct (compile_one file (base, code)) as [es1 r1] eqn:One. cbn [fst snd] in *. pose proof One as One'. destruct r1 as [g| |].
    + apply (single ts done file base code _ _ C K) in One'; [|discriminate]. destruct (compiled_one _ _ _ _ _ _ _ C One) as (f & CB & C').
      destruct (for_paths compile_at ps g d1) as [d2 [e2 r2]] eqn:R. cbn [fst snd] in H. injection H as <- <- <-.
      refine (CaMore _ _ _ _ ts done p ps d code base f es1 g d1 e2 d2 (option_of r2) T B (text_compiles _ _ _ CB) One' P (IH _ _ _ _ _ _ C' _ R NF)).
      apply Forall_app. split; [exact K|]. constructor; [left; eauto|constructor].
    + injection H as <- <- <-. apply (single ts done file base code _ _ C K) in One'; [|discriminate]. eapply CaBreaks; eauto.
    + injection H as _ _ <-. now elim NF.
Qed.
Lemma decompile_paths header ts paths : (forall l, Permutation (segments l) l) -> forall done file d d' es r, all_bytes d -> collected ts done file -> Forall known done ->
  for_paths (decompile_at header) paths file d = (d', (es, r)) -> r <> NoFuel -> decompiles_at E nt place accepts header ts done paths d es d' (option_of r).
Proof.
  intros PO. induction paths as [|p ps IH]; intros done file d d' es r A C K H NF; cbn [for_paths] in H; [injection H as <- <- <-; now constructor|].
  unfold and_do in H. destruct (decompile_at_cases header file p d) as [(N & Q)|(buf & e0 & d0 & B & CP & [(O & (f & D) & Q)|(d1 & Q & P & A1)])]; rewrite Q in H; cbn [fst snd] in H.
  - injection H as <- <- <-. now apply DaUnread.
  - injection H as <- <- <-. assert (BB : bytes buf) by (destruct B as (i & _ & Ni); eapply A; eauto).
    exact (DaNoInspect _ _ _ _ header ts done p ps d buf f e0 d0 B CP (file_decompiles _ _ _ _ BB PO D) O).
  - assert (BB : bytes buf) by (destruct B as (i & _ & Ni); eapply A; eauto). destruct (decompile_one file (p, buf)) as [es1 r1] eqn:One. cbn [fst snd] in *. pose proof One as One'. destruct r1 as [g| |].
    + apply (single_back ts done file p buf _ _ PO C K BB) in One'; [|discriminate]. destruct (decompiled_one _ _ _ _ _ _ _ C One) as (f & D & C').
      destruct (for_paths (decompile_at header) ps g d1) as [d2 [e2 r2]] eqn:R. cbn [fst snd] in H. injection H as <- <- <-. rewrite <- app_assoc.
      refine (DaMore _ _ _ _ header ts done p ps d buf f e0 d0 es1 g d1 e2 d2 (option_of r2) B CP (file_decompiles _ _ _ _ BB PO D) One' P (IH _ _ _ _ _ _ (A1 PO A) C' _ R NF)).
      apply Forall_app. split; [exact K|]. constructor; [right; eauto|constructor].
    + injection H as <- <- <-. apply (single_back ts done file p buf _ _ PO C K BB) in One'; [|discriminate]. exact (DaBreaks _ _ _ _ header ts done p ps d buf e0 d0 es1 d1 B CP One' P).
    + injection H as _ _ <-. now elim NF.
Qed.

(** ** The files of tests *)
Lemma test_paths paths : forall file d, (exists ts, Forall2 (fun p t => exists code, text_at d p code /\ compile_burn E code = Ok t) paths ts /\
    for_paths (tests_at E place) paths file d = (d, ([], Ok (put_tests file (f_tests file ++ concat (map f_tests ts)))))) \/
  ((exists p, In p paths /\ forall code f, text_at d p code -> compile_burn E code <> Ok f) /\ for_paths (tests_at E place) paths file d = (d, ([], Panic))).
Proof.
  induction paths as [|p ps IH]; intros file d; cbn [for_paths].
  - left. exists []. split; [constructor|]. cbn. rewrite app_nil_r. now destruct file.
  - assert (Q : tests_at E place file p d = match contents place d p with Some c => match from_utf8 c with Some s => (d, ([], match compile_burn E s with Ok tmp => Ok (put_tests file (f_tests file ++ f_tests tmp)) | _ => Panic end)) | None => (d, ([], Panic)) end | None => (d, ([], Panic)) end).
    { unfold tests_at, read_text, read_file, and_do, does, lift. destruct (contents place d p) as [c|]; [|reflexivity]. cbn [unwrap fst snd app]. destruct (from_utf8 c) as [s|]; [|reflexivity].
      cbn [unwrap fst snd app]. pose proof (compile_fuel E s). destruct (compile_burn E s); try reflexivity. contradiction. }
    unfold and_do at 1 2. rewrite Q. clear Q. destruct (contents place d p) as [c|] eqn:CN.
    2:{ right. split; [|reflexivity]. exists p. split; [now left|]. intros code f [_ X] _. apply contents_some in X. congruence. }
    destruct (from_utf8 c) as [s|] eqn:U.
    2:{ right. split; [|reflexivity]. exists p. split; [now left|]. intros code f [S X] _. apply contents_some in X. assert (Y : c = utf8 code) by congruence. rewrite Y, from_utf8_utf8 in U by exact S. discriminate. }
    apply utf8_from_utf8 in U as [<- U2]. assert (T : text_at d p s) by (split; [exact U2|now apply contents_some]). pose proof (compile_fuel E s) as NF. destruct (compile_burn E s) as [tmp| |] eqn:CB; [| |contradiction].
    + cbn [fst snd app]. destruct (IH (put_tests file (f_tests file ++ f_tests tmp)) d) as [(ts & F & R)|((q & I & X) & R)]; rewrite R; cbn [fst snd].
      * left. exists (tmp :: ts). split; [constructor; eauto|]. cbn [map concat]. rewrite app_assoc. reflexivity.
      * right. split; [exists q; split; [now right|exact X]|reflexivity].
    + right. split; [|reflexivity]. exists p. split; [now left|]. intros c f T' CB'. rewrite (text_one _ _ _ _ T T') in CB'. congruence.
Qed.

(** ** What changes *)
Lemma performs_same inspect d es d' : performs inspect d es d' -> forall i, place inspect <> Some i -> (forall o c, In (EWritten o c) es -> place o <> Some i) -> nget d' i = nget d i.
Proof.
  induction 1 as [d|d t es d' P IH|d t b es d' P IH|d g c d1 es d' _ S P IH|d o c d1 es d' S P IH]; intros i NI NW; [reflexivity| | | |].
  - apply IH; [exact NI|]. intros o c K. apply (NW o c). now right.
  - apply IH; [exact NI|]. intros o c K. apply (NW o c). now right.
  - rewrite IH; [|exact NI|intros o c' K; apply (NW o c'); now right]. destruct S as (j & Pj & _ & _ & K). apply K. congruence.
  - rewrite IH; [|exact NI|intros o' c' K; apply (NW o' c'); now right]. destruct S as (j & Pj & _ & _ & K). apply K. intros ->. apply (NW o c); [now left|exact Pj].
Qed.
Lemma performs_split inspect es1 : forall es2 d d', performs inspect d (es1 ++ es2) d' -> exists d1, performs inspect d es1 d1 /\ performs inspect d1 es2 d'.
Proof.
  induction es1 as [|e es1 IH]; intros es2 d d' H; [exists d; split; [constructor|exact H]|]. cbn [app] in H. inversion H; subst;
    match goal with K : performs _ _ (es1 ++ es2) d' |- _ => destruct (IH _ _ _ K) as (d2 & A & B) end; exists d2; (split; [|exact B]); econstructor; eauto.
Qed.
Lemma compiles_performs ts done ps d es d' last : compiles_at E nt place accepts ts done ps d es d' last -> performs test_compile d es d'.
Proof. induction 1; auto; try constructor. eapply performs_app; eauto. Qed.
Lemma copies_performs inspect header d buf e0 d0 : copies place accepts header d buf e0 d0 -> performs inspect d e0 d0.
Proof. intros [(_ & _ & -> & S)|(_ & -> & ->)]; [econstructor; [exact S|constructor]|constructor]. Qed.
Lemma decompiles_performs header ts done ps d es d' last : decompiles_at E nt place accepts header ts done ps d es d' last -> performs test_decompile d es d'.
Proof. induction 1; auto; try constructor; eauto using performs_app, copies_performs. Qed.
Lemma compiles_written ts done ps d es d' last : compiles_at E nt place accepts ts done ps d es d' last ->
  forall o c, In (EWritten o c) es -> exists p n, In p ps /\ base_name p (n ++ lit ".burn") /\ o = n ++ lit ".fmp12".
Proof.
  assert (K : forall ts done p n code es last, compiles E nt ts done [(n, code)] es last -> base_name p n -> forall o c, In (EWritten o c) es -> exists m, base_name p (m ++ lit ".burn") /\ o = m ++ lit ".fmp12").
  { intros ts' done' p n code es' last' H B o c I. destruct (compiled_written _ _ _ _ _ _ _ H _ _ I) as (m & x & [Q|[]] & ->). injection Q as -> ->. exists m. auto. }
  induction 1 as [| | | |done p ps d code n es d' T B C P|done p ps d code n es o' c' g d' T B C P O|done p ps d code n f es g d1 es' d' last T B SC C P R IH]; intros o c I; try contradiction.
  - destruct (K _ _ _ _ _ _ _ C B _ _ I) as (m & M & ->). exists p, m. split; [now left|auto].
  - destruct (K _ _ _ _ _ _ _ C B o c) as (m & M & ->); [apply in_or_app; now left|]. exists p, m. split; [now left|auto].
  - apply in_app_or in I as [I|I].
    + destruct (K _ _ _ _ _ _ _ C B _ _ I) as (m & M & ->). exists p, m. split; [now left|auto].
    + destruct (IH _ _ I) as (q & m & Q & M & ->). exists q, m. split; [now right|auto].
Qed.
Lemma decompiles_written header ts done ps d es d' last : decompiles_at E nt place accepts header ts done ps d es d' last -> forall o c, In (EWritten o c) es -> header = true /\ o = header_log.
Proof.
  assert (K : forall d0 b e0 d1, copies place accepts header d0 b e0 d1 -> forall o c, In (EWritten o c) e0 -> header = true /\ o = header_log).
  { intros d0 b e0 d1 [(H & _ & -> & _)|(_ & -> & _)] o c I; [|destruct I]. destruct I as [I|[]]. injection I as <- _. auto. }
  assert (L : forall ts done i es last, decompiles E nt ts done i es last -> forall o c, ~ In (EWritten o c) es).
  { intros ts' done' i es' last' H o c. exact (proj1 (decompiled_all _ _ _ _ _ _ _ H) o c). }
  induction 1 as [| |done p ps d buf f e0 d0 B C S O|done p ps d buf e0 d0 es d' B C D P|done p ps d buf f e0 d0 es g d1 es' d' last B C S D P R IH]; intros o c I; try contradiction.
  - eauto.
  - apply in_app_or in I as [I|I]; [eauto|]. now apply L with (o := o) (c := c) in D.
  - apply in_app_or in I as [I|I]; [eauto|]. apply in_app_or in I as [I|I]; [now apply L with (o := o) (c := c) in D|eauto].
Qed.

(** ** Inputs that are kept apart from what is written *)
Lemma one_writes file base code o c : In (EWritten o c) (fst (compile_one file (base, code))) -> exists n, base = n ++ lit ".burn" /\ o = n ++ lit ".fmp12".
Proof.
  destruct (compile_burn E code) as [tmp| |] eqn:C.
  2,3: unfold MainModel.compile_one; cbn [fst snd]; rewrite C; intros [].
  destruct (MainModel.strip_suffix (lit ".burn") base) as [n|] eqn:S.
  2:{ unfold MainModel.compile_one, and_then, lift; cbn [fst snd]; rewrite C, S; intros []. }
  rewrite (one_eq file base code tmp n _ C S eq_refl). pose proof (fun e => testing_silent (absorb (set_name file n) tmp) e) as TS. destruct (testing E order fuel nt (absorb (set_name file n) tmp)) as [rs r].
  cbn [fst] in TS. intros I. exists n. split; [now apply strip_ok|]. destruct r as [u| |]; [destruct (assemble _) as [buf| |]|..]; cbn [fst] in I; (destruct I as [I|I]; [discriminate|]).
  - apply in_app_or in I as [I|[I|[]]]; [destruct (TS _ I) as [(t & X)|(t & b & X)]; discriminate X|]. injection I as <- _. reflexivity.
  - destruct (TS _ I) as [(t & X)|(t & b & X)]; discriminate X.
  - destruct (TS _ I) as [(t & X)|(t & b & X)]; discriminate X.
  - destruct (TS _ I) as [(t & X)|(t & b & X)]; discriminate X.
  - destruct (TS _ I) as [(t & X)|(t & b & X)]; discriminate X.
Qed.
Lemma at_same d d' p c : (forall i, place p = Some i -> nget d' i = nget d i) -> bytes_at d p c -> bytes_at d' p c.
Proof. intros H (i & P & N). exists i. split; [exact P|]. now rewrite H. Qed.
Lemma compile_given paths : forall ins file d, Forall2 (fun p i => base_name p (fst i) /\ text_at d p (snd i)) paths ins -> open_to test_compile ->
  (forall n c, In (n ++ lit ".burn", c) ins -> open_to (n ++ lit ".fmp12")) ->
  (forall p, In p paths -> place p <> place test_compile /\ forall n c, In (n ++ lit ".burn", c) ins -> place p <> place (n ++ lit ".fmp12")) ->
  exists d', for_paths compile_at paths file d = (d', for_inputs compile_one ins file) /\ performs test_compile d (fst (for_inputs compile_one ins file)) d'.
Proof.
  induction paths as [|p ps IH]; intros ins file d F O OW SEP; inversion F as [|? [base code] ? ins' [B T] F']; subst; cbn [for_paths for_inputs]; [exists d; split; [reflexivity|constructor]|]. cbn [fst snd] in B, T.
  destruct (compile_at_cases file p d) as [(N & _)|(code' & T' & [(N & _)|(base' & B' & [(NO & _)|[(es1 & d1 & o & c & g & Q & One & P & NO)|(d1 & Q & P)]])])].
  - now apply N in T.
  - now apply N in B.
  - contradiction.
  - rewrite (text_one _ _ _ _ T T') in *. apply name_exact in B, B'. assert (base' = base) as -> by congruence. destruct (one_writes file base code o c) as (n & -> & ->); [rewrite One; apply in_or_app; right; now left|].
    elim NO. apply (OW n code). now left.
  - rewrite (text_one _ _ _ _ T T') in *. apply name_exact in B, B'. assert (base' = base) as -> by congruence.
    assert (SAME : forall q, In q ps -> forall i, place q = Some i -> nget d1 i = nget d i).
    { intros q Iq i Pi. apply (performs_same _ _ _ _ P).
      - intros X. destruct (SEP q (or_intror Iq)) as [S1 _]. congruence.
      - intros o c I X. destruct (one_writes _ _ _ _ _ I) as (n & -> & ->). destruct (SEP q (or_intror Iq)) as [_ S2]. apply (S2 n code); [now left|congruence]. }
    unfold and_do, and_then. rewrite Q. destruct (compile_one file (base, code)) as [es1 r1]. cbn [fst snd] in *. destruct r1 as [g| |]; [|exists d1; auto|exists d1; auto].
    destruct (IH ins' g d1) as (d2 & R & P2).
    + clear - F' SAME. induction F' as [|q i qs is' [X Y] F' IHF]; constructor.
      * split; [exact X|]. destruct Y as [Y1 Y2]. split; [exact Y1|]. eapply at_same; [|exact Y2]. apply SAME. now left.
      * apply IHF. intros q' Iq. apply SAME. now right.
    + exact O.
    + intros n c I. apply (OW n c). now right.
    + intros q Iq. destruct (SEP q (or_intror Iq)) as [S1 S2]. split; [exact S1|]. intros n c I. apply (S2 n c). now right.
    + rewrite R. cbn [fst snd]. destruct (for_inputs compile_one ins' g) as [e2 r2]. cbn [fst snd] in *. exists d2. split; [reflexivity|]. eapply performs_app; eauto.
Qed.
Lemma decompile_given header paths : forall ins file d, Forall2 (fun p i => bytes_at d p (snd i)) paths ins -> open_to test_decompile -> (header = true -> open_to header_log) ->
  (forall p, In p paths -> place p <> place test_decompile /\ (header = true -> place p <> place header_log)) ->
  let run := for_inputs (if header then decompile_one_headed E order segments fuel nt else decompile_one) ins file in
  exists d', for_paths (decompile_at header) paths file d = (d', run) /\ performs test_decompile d (fst run) d'.
Proof.
  cbv zeta. induction paths as [|p ps IH]; intros ins file d F O OH SEP; inversion F as [|? [base buf] ? ins' B F']; subst; cbn [for_paths for_inputs]; [exists d; split; [reflexivity|constructor]|]. cbn [fst snd] in B.
  destruct (decompile_at_cases header file p d) as [(N & _)|(buf' & e0 & d0 & B' & CP & [(NO & _)|(d1 & Q & P & _)])]; [now apply N in B|contradiction|]. rewrite (bytes_one _ _ _ _ B B') in *.
  assert (Hd : (if header then decompile_one_headed E order segments fuel nt else decompile_one) file (base, buf) = (e0 ++ fst (decompile_one file (p, buf)), snd (decompile_one file (p, buf)))).
  { destruct CP as [(-> & _ & -> & _)|(X & -> & _)].
    - unfold decompile_one_headed. rewrite !one_back. unfold and_then, say. cbn [fst snd]. destruct (decompile segments fuel buf) as [tmp| |]; reflexivity.
    - destruct header; [destruct X as [X|X]; [discriminate|elim X; auto]|]. rewrite !one_back. destruct (decompile segments fuel buf) as [tmp| |]; try reflexivity. destruct (testing _ _ _ _ _) as [rs [u| |]]; reflexivity. }
  assert (PF : performs test_decompile d (e0 ++ fst (decompile_one file (p, buf))) d1) by (eapply performs_app; [eapply copies_performs; eauto|exact P]).
  assert (W : forall o c, In (EWritten o c) (e0 ++ fst (decompile_one file (p, buf))) -> header = true /\ o = header_log).
  { intros o c I. apply in_app_or in I as [I|I].
    - destruct CP as [(-> & _ & -> & _)|(_ & -> & _)]; [|destruct I]. destruct I as [I|[]]. injection I as <- _. auto.
    - exfalso. rewrite one_back in I. pose proof (fun f e => testing_silent f e) as TS. destruct (decompile segments fuel buf) as [tmp| |]; try contradiction. specialize (TS (absorb file tmp)).
      destruct (testing _ _ _ _ _) as [rs r]. assert (J : In (EWritten o c) (EInspect tmp :: rs)) by (destruct r; exact I). destruct J as [J|J]; [discriminate|]. destruct (TS _ J) as [(t & X)|(t & b & X)]; discriminate X. }
  assert (SAME : forall q, In q ps -> forall i, place q = Some i -> nget d1 i = nget d i).
  { intros q Iq i Pi. destruct (SEP q (or_intror Iq)) as [S1 S2]. apply (performs_same _ _ _ _ PF); [congruence|]. intros o c I X. destruct (W _ _ I) as [Hh ->]. apply S2 in Hh. congruence. }
  unfold and_do, and_then. rewrite Q, Hd. destruct (decompile_one file (p, buf)) as [es1 r1]. cbn [fst snd] in *. destruct r1 as [g| |]; [|exists d1; auto|exists d1; auto].
  destruct (IH ins' g d1) as (d2 & R & P2); auto.
  - clear - F' SAME. induction F' as [|q i qs is' Y F' IHF]; constructor.
    + eapply at_same; [|exact Y]. apply SAME. now left.
    + apply IHF. intros q' Iq. apply SAME. now right.
  - intros q Iq. apply SEP. now right.
  - rewrite R. cbn [fst snd]. destruct (for_inputs _ ins' g) as [e2 r2]. cbn [fst snd] in *. exists d2. split; [reflexivity|]. eapply performs_app; eauto.
Qed.
Lemma tests_given paths : forall tins file d, Forall2 (fun p i => text_at d p (snd i)) paths tins -> for_paths (tests_at E place) paths file d = (d, ([], test_files E tins file)).
Proof.
  induction paths as [|p ps IH]; intros tins file d F; inversion F as [|? [n code] ? tins' T F']; subst; [reflexivity|]. cbn [for_paths test_files]. cbn [snd] in *.
  assert (Q : tests_at E place file p d = (d, ([], match compile_burn E code with Ok tmp => Ok (put_tests file (f_tests file ++ f_tests tmp)) | Panic => Panic | NoFuel => NoFuel end))).
  { unfold tests_at. match goal with |- context [and_do (read_text place p) ?k] => destruct (read_texts d p k) as [(code' & T' & ->)|(N & _)] end; [|now apply N in T].
    rewrite (text_one _ _ _ _ T T') in *. rewrite does_do. destruct (compile_burn E code); reflexivity. }
  unfold and_do. rewrite Q. destruct (compile_burn E code) as [tmp| |]; cbn [bind]; try reflexivity. rewrite (IH tins' _ _ F'). reflexivity.
Qed.
Lemma paths_app body a : forall b file d, for_paths body (a ++ b) file d = and_do (for_paths body a file) (for_paths body b) d.
Proof.
  induction a as [|p a IH]; intros b file d; cbn [app for_paths]; [rewrite does_do; reflexivity|]. rewrite do_assoc. unfold and_do at 1 2.
  destruct (body file p d) as [d1 [es [g| |]]]; try reflexivity. rewrite IH. reflexivity.
Qed.
End Store.
