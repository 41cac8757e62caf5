(** The steps of scripts in whole files. *)
From Coq Require Import Ascii String NArith Arith List Bool Lia Permutation Sorting.Sorted.
From Verif Require Import Prelude PreludeFacts Utf8 EncodingModel ChunkModel InstrModel ComponentModel DecompModel DecompSpec DecompCalcSpec
  DecompScriptSpec DecompScript HistorySpec History History2 History3 StepsSpec Steps Steps2.
Import ListNotations.
Local Open Scope N_scope.

Lemma segments_frame path ch s s' : dispatch path ch s = Ok s' ->
  d_segments s' = d_segments s \/ exists x, step_place_of path = SSegment x /\ arm_segment x ch s = Ok s'.
Proof.
  assert (A1 : DecompScript.keeps s (arm_relation ch s)) by (unfold arm_relation; cbv zeta; keep).
  assert (A2 : DecompScript.keeps s (arm_occurrence ch s)) by (unfold arm_occurrence; cbv zeta; keep).
  assert (A3 : forall x, DecompScript.keeps s (arm_relation_fields x ch s)) by (intros; unfold arm_relation_fields; cbv zeta; keep).
  assert (A4 : forall x, DecompScript.keeps s (arm_layout x ch s)) by (intros; unfold arm_layout; cbv zeta; keep).
  assert (A5 : forall x y, DecompScript.keeps s (arm_field x y ch s)) by (intros; unfold arm_field; cbv zeta; keep).
  assert (A6 : forall x, DecompScript.keeps s (arm_table x ch s)) by (intros; unfold arm_table; cbv zeta; keep).
  assert (A8 : forall x y, DecompScript.keeps s (arm_step_value x y ch s)) by (intros; unfold arm_step_value; cbv zeta; keep).
  assert (A9 : forall x y, DecompScript.keeps s (arm_step_name x y ch s)) by (intros; unfold arm_step_name; cbv zeta; keep).
  assert (A10 : forall x y, DecompScript.keeps s (arm_step_calc x y ch s)).
  { intros. unfold arm_step_calc. intros s1 H.
    match type of H with bind ?X _ = _ => assert (K : DecompScript.keeps s X) by keep; destruct X as [s2| |]; try discriminate end.
    cbn [bind] in H. destruct (nget _ x); try discriminate. injection H as <-. now apply K. }
  assert (A11 : forall x, DecompScript.keeps s (arm_script x ch s)).
  { intros. unfold arm_script. destruct (ctype ch); try apply keep_ok.
    all: match goal with |- DecompScript.keeps _ (if ?c then _ else _) => destruct c end; [apply keep_bind; intros; now apply keep_steps|].
    all: repeat (match goal with |- DecompScript.keeps _ (match ?x with _ => _ end) => destruct x end; try apply keep_ok).
    all: apply keep_bind; intros; now apply keep_steps. }
  assert (A12 : forall y, DecompScript.keeps s (arm_script_name y ch s)) by (intros; unfold arm_script_name; cbv zeta; keep).
  assert (A13 : DecompScript.keeps s (arm_source_name ch s)) by (unfold arm_source_name; keep).
  assert (A14 : forall x, DecompScript.keeps s (arm_source x ch s)) by (intros; unfold arm_source; cbv zeta; keep).
  intros D. unfold dispatch in D.
  repeat match type of D with
         | arm_relation _ _ = _ => left; now apply A1 in D
         | arm_occurrence _ _ = _ => left; now apply A2 in D
         | arm_relation_fields _ _ _ = _ => left; now apply A3 in D
         | arm_layout _ _ _ = _ => left; now apply A4 in D
         | arm_field _ _ _ _ = _ => left; now apply A5 in D
         | arm_table _ _ _ = _ => left; now apply A6 in D
         | arm_segment _ _ _ = _ => right; eexists; split; [reflexivity|exact D]
         | arm_step_value _ _ _ _ = _ => left; now apply A8 in D
         | arm_step_name _ _ _ _ = _ => left; now apply A9 in D
         | arm_step_calc _ _ _ _ = _ => left; now apply A10 in D
         | arm_script _ _ _ = _ => left; now apply A11 in D
         | arm_script_name _ _ _ = _ => left; now apply A12 in D
         | arm_source_name _ _ = _ => left; now apply A13 in D
         | arm_source _ _ _ = _ => left; now apply A14 in D
         | Ok _ = _ => left; injection D as <-; reflexivity
         | match ?x with _ => _ end = _ => destruct x
         end.
Qed.

Definition segs_known (h : history) (s : dstate) : Prop := forall k,
  match nget (d_segments s) k with
  | None => flat_map (arrival k) h = []
  | Some segs => forall i, nget segs i = last_arrival (flat_map (arrival k) h) i
  end.

Lemma last_arrival_snoc l n d i : last_arrival (l ++ [(n, d)]) i = if n =? i then Some d else last_arrival l i.
Proof.
  unfold last_arrival. rewrite filter_app, rev_app_distr. cbn [filter fst]. destruct (n =? i); reflexivity.
Qed.

Lemma segs_step h s path ch s' : dispatch path ch s = Ok s' -> good_segs (d_segments s) -> segs_known h s -> segs_known (h ++ [(path, ch)]) s'.
Proof.
  intros D [G1 G2] S k. specialize (S k). rewrite flat_map_app. cbn [flat_map]. rewrite app_nil_r.
  destruct (step_place_of path) as [x| | | | |] eqn:P.
  2-6: (assert (A : arrival k (path, ch) = []) by (unfold arrival, step_here; cbn [fst]; now rewrite P));
       rewrite A, app_nil_r; destruct (segments_frame _ _ _ _ D) as [E|(x & Q & _)]; [now rewrite E|congruence].
  rewrite <- dispatch_step, P in D. cbn [step_arm] in D.
  assert (A : arrival k (path, ch) = match ctype ch, csegment ch, cdata ch with DataSegment, Some n, Some d => if x =? k then [(n, d)] else [] | _, _, _ => [] end)
    by (unfold arrival, step_here; cbn [fst snd]; now rewrite P).
  rewrite A. unfold arm_segment in D. destruct (ctype ch); try (injection D as <-; rewrite app_nil_r; exact S).
  - destruct (csegment ch) as [n|]; [|discriminate]. cbn [unwrap bind] in D. destruct (nget (d_segments s) x) as [segs|] eqn:E; [|discriminate].
    cbn [unwrap bind] in D. destruct (cdata ch) as [d|]; [|discriminate]. cbn [unwrap bind] in D. injection D as <-. cbn [d_segments].
    rewrite nget_nset. destruct (N.eqb_spec x k) as [<-|]; [|rewrite app_nil_r; exact S]. rewrite E in S. intros i.
    rewrite last_arrival_snoc, bget_bset; [now rewrite S|].
    apply (mget_In N.eqb N.eqb_spec) in E. rewrite Forall_forall in G2. exact (G2 _ E).
  - rewrite app_nil_r. destruct (nhas (d_segments s) x) eqn:E; injection D as <-; [exact S|]. cbn [d_segments].
    rewrite nget_nset. destruct (N.eqb_spec x k) as [<-|]; [|exact S]. unfold nhas, mhas in E. change (mget N.eqb) with (@nget (list (N * list N))) in E.
    destruct (nget (d_segments s) x); [discriminate|]. rewrite S. reflexivity.
Qed.

Lemma good_step path ch s s' : dispatch path ch s = Ok s' -> good_segs (d_segments s) -> good_segs (d_segments s').
Proof. intros D G. apply dispatch_keeps in D as [->|(x & D)]; auto. eapply arm_segment_good; eauto. Qed.

Lemma contributes_ext n1 n2 k e l l' : (forall j, n1 j = n2 j) -> contributes n1 k e l l' -> contributes n2 k e l l'.
Proof.
  intros E. unfold contributes. destruct (step_here e); auto. destruct (_ && _); auto.
  intros (d & sts & C & S & R). exists d, sts. split; [exact C|]. split; [|exact R]. eapply steps_in_ext; eauto.
Qed.

Record so_far (h : history) (s : dstate) : Prop := {
  sf_steps : forall k, in_place k h (stp s k);
  sf_names : forall k, names_of (nam s) k = script_name_of k h;
  sf_good : good_segs (d_segments s);
  sf_segs : segs_known h s;
  sf_args : forall k sc, nget (nam s) k = Some sc -> sc_args sc = [] /\ sc_account sc = [] /\ sc_user sc = [];
}.

Definition bare (m : list (N * script)) : Prop := forall k sc, nget m k = Some sc -> sc_args sc = [] /\ sc_account sc = [] /\ sc_user sc = [].
Lemma bare_mod s sid g s' : mod_steps s sid g = Ok s' -> bare (nam s) -> bare (nam s').
Proof.
  rewrite mod_steps_ok. unfold nam, bare. destruct (nget (f_scripts (d_file s)) sid) as [sc0|] eqn:E; [|discriminate].
  destruct (g (sc_steps sc0)); try discriminate. cbn [bind]. intros [= <-] B k sc. cbn [with_file set_scripts d_file f_scripts]. rewrite nget_nset.
  destruct (sid =? k); [|apply B]. intros [= <-]. exact (B _ _ E).
Qed.
Lemma bare_loop l : forall m sid ins s s', steps_loop l m sid ins s = Ok s' -> bare (nam s) -> bare (nam s').
Proof.
  induction l as [|b l IH]; intros m sid ins s s' H B; cbn [steps_loop] in H; [now injection H as <-|].
  destruct (m <=? lenN b); [|eapply IH; eauto]. destruct (decode_step _ b) as [[st|]| |]; try discriminate; cbn [bind] in H; [|eapply IH; eauto].
  destruct (mod_steps s sid _) as [s1| |] eqn:M; try discriminate. cbn [bind] in H. eapply IH; eauto. eapply bare_mod; eauto.
Qed.
Lemma bare_step path ch s s' : dispatch path ch s = Ok s' -> bare (nam s) -> bare (nam s').
Proof.
  intros D B. destruct (step_place_of path) as [x|x i|x i|x i|x|] eqn:P.
  6: { destruct (place_of path) eqn:Q.
    10: { assert (E : dispatch path ch s = Ok s).
      { revert P Q. unfold dispatch, step_place_of, place_of.
        repeat match goal with |- context [match ?x with _ => _ end] => is_var x; destruct x end; try discriminate; reflexivity. }
      rewrite E in D. now injection D as <-. }
    all: rewrite <- dispatch_place, Q in D; cbn [at_arm] in D.
    7: { unfold arm_script_name in D.
      repeat match type of D with match ?x with _ => _ end = _ => destruct x eqn:? end; try (injection D as <-; exact B).
      - cbv zeta in D. injection D as <-. intros j sc. unfold nam. cbn [d_file with_file set_scripts f_scripts]. rewrite nget_nset.
        destruct (k =? j); [|apply B]. intros [= <-]. cbn. eapply B; eauto.
      - destruct (cdata ch); [|discriminate]. cbn [unwrap bind] in D. injection D as <-. intros j sc. unfold nam. cbn [d_file with_file set_scripts f_scripts].
        rewrite nget_nset. destruct (k =? j); [|apply B]. intros [= <-]. cbn. auto. }
    all: enough (E : nam s' = nam s) by (now rewrite E);
      revert D; match goal with |- ?x = Ok _ -> _ => assert (K : History.keeps nam s x); [|exact (K s')] end;
      unfold arm_relation, arm_occurrence, arm_relation_fields, arm_layout, arm_field, arm_table, arm_source_name, arm_source; cbv zeta; kp. }
  all: rewrite <- dispatch_step, P in D; cbn [step_arm] in D.
  - assert (E : nam s' = nam s) by (revert D; assert (K : History.keeps nam s (arm_segment x ch s)); [unfold arm_segment; kp|exact (K s')]). now rewrite E.
  - rewrite value_arm_eq in D. destruct (has_key _ _); [eapply bare_mod; eauto|now injection D as <-].
  - rewrite name_arm_eq in D. destruct (has_key _ _); [eapply bare_mod; eauto|now injection D as <-].
  - apply calc_arm_inv in D. destruct (has_key _ _); [|now subst]. destruct D as (d & c & _ & _ & D). eapply bare_mod; eauto.
  - apply script_arm_inv in D. destruct (_ && _); [|now subst]. destruct D as (d & _ & D). eapply bare_loop; eauto.
Qed.

Lemma so_far_run h : forall g s s', run_history h s = Ok s' -> so_far g s -> so_far (g ++ h) s'.
Proof.
  induction h as [|[p ch] h IH]; intros g s s' H F; cbn [run_history] in H; [injection H as <-; now rewrite app_nil_r|].
  destruct (dispatch p ch s) as [s1| |] eqn:D; try discriminate. cbn [bind] in H.
  assert (Q : so_far ((g ++ [(p, ch)]) ++ h) s'); [|rewrite <- app_assoc in Q; exact Q]. apply IH with (s := s1); [exact H|].
  destruct F as [F1 F2 F3 F4 F5]. constructor.
  - intros k. eapply IpNext; [apply F1|]. eapply contributes_ext; [exact F2|]. now apply record_step.
  - intros k. exact (script_step g s p ch s1 D F2 k).
  - eapply good_step; eauto.
  - eapply segs_step; eauto.
  - eapply bare_step; eauto.
Qed.

Lemma build_inv l : forall s s', NoDup (keys l) -> build_scripts l s = Ok s' ->
  (forall k, match nget l k with
    | None => stp s' k = stp s k
    | Some segs => exists sts, decode_list (nam s) 28 (chunks 28 (concat (map snd segs))) = Ok sts /\ stp s' k = stp s k ++ sts
    end) /\ (bare (nam s) -> bare (nam s')).
Proof.
  induction l as [|[sid segs] l IH]; intros s s' ND H; cbn [build_scripts] in H; [injection H as <-; split; [reflexivity|auto]|].
  destruct (build_script sid segs s) as [s1| |] eqn:E; try discriminate. cbn [bind] in H. inversion ND as [|? ? N1 N2]; subst.
  unfold build_script in E. pose proof (bare_loop _ _ _ _ _ _ E) as BB. apply steps_loop_inv in E as (sts & D & P & O & Nm).
  apply put_append in P. destruct (IH _ _ N2 H) as [I1 I2]. split; [|tauto]. intros k. specialize (I1 k).
  unfold nget. cbn [mget]. change (mget N.eqb l k) with (nget l k). destruct (N.eqb_spec sid k) as [<-|K].
  - exists sts. split; [exact D|]. rewrite <- P. destruct (nget l sid) eqn:G; [|exact I1]. exfalso. apply N1. apply (mget_In N.eqb N.eqb_spec) in G. now apply (in_map fst) in G.
  - destruct (nget l k) as [segs'|].
    + destruct I1 as (sts' & D' & ->). exists sts'. rewrite (decode_list_names _ (nam s)) in D' by exact Nm. rewrite O by auto. auto.
    + rewrite I1. apply O. auto.
Qed.

Lemma so_far_start : so_far [] (mkD fmpfile_new [] []).
Proof.
  constructor.
  - intros k. constructor.
  - intros k. reflexivity.
  - split; constructor.
  - intros k. reflexivity.
  - intros k sc H. discriminate.
Qed.

Theorem decompile_steps order fuel buf f : bytes buf -> (forall l, Permutation (order l) l) -> decompile order fuel buf = Ok f ->
  exists h, file_history buf 2 h /\ (forall k sc, nget (f_scripts f) k = Some sc ->
    steps_of k h (sc_steps sc) /\ sc_args sc = [] /\ sc_account sc = [] /\ sc_user sc = []) /\ forall k, exists l, in_place k h l.
Proof.
  intros HB PO H. rewrite (order_irrelevant order (fun l => l)) in H by auto. unfold decompile in H.
  destruct (slice buf 4096 (lenN buf)) as [rest| |]; try discriminate. cbn [bind] in H.
  destruct (get_sector rest) as [first| |]; try discriminate. cbn [bind] in H.
  destruct (sector_loop _ _ _ _ _) as [s| |] eqn:L; try discriminate. cbn [bind] in H.
  destruct (build_scripts _ s) as [s1| |] eqn:B; try discriminate. cbn [bind] in H. injection H as <-.
  apply sector_loop_history in L as (h & F & R); [|exact HB]. exists h. split; [exact F|].
  pose proof (so_far_run h [] _ _ R so_far_start) as [F1 F2 F3 F4 F5]. cbn [app] in *.
  destruct (build_inv _ _ _ (proj1 F3) B) as [I1 I2]. split; [|intros k; exists (stp s k); apply F1].
  intros k sc E. split; [|exact (I2 F5 k sc E)].
  specialize (I1 k). specialize (F4 k). assert (ES : stp s1 k = sc_steps sc) by (unfold stp, nam; now rewrite E). rewrite ES in I1.
  destruct (nget (d_segments s) k) as [segs|] eqn:G.
  - destruct I1 as (sts & D & E1). exists (stp s k), (concat (map snd segs)), sts. split; [apply F1|]. split.
    + exists segs. split; [|auto]. destruct F3 as [_ F3]. rewrite Forall_forall in F3. apply (mget_In N.eqb N.eqb_spec) in G. exact (F3 _ G).
    + split; [|exact E1]. eapply steps_in_ext; [exact F2|]. now apply code_steps.
  - exists (stp s k), [], []. split; [apply F1|]. split.
    + exists []. split; [constructor|]. split; [|reflexivity]. intros i. rewrite F4. reflexivity.
    + split; [|now rewrite app_nil_r]. exists [], []. split; [constructor|]. split; [constructor|reflexivity].
Qed.

(** ** The steps are determined *)
Lemma calc_says_det d c c' : calc_says d c -> calc_says d c' -> c = c'.
Proof. intros H H'. apply calc_exact in H, H'. congruence. Qed.
Lemma adds_calc_det e ts ts' : adds_calc e ts -> adds_calc e ts' -> ts = ts'.
Proof. intros (d & c & D & C & ->) (d' & c' & D' & C' & ->). rewrite D in D'. injection D' as <-. now rewrite (calc_says_det _ _ _ C C'). Qed.

Lemma contributes_det names k e l l1 l2 : contributes names k e l l1 -> contributes names k e l l2 -> l1 = l2.
Proof.
  unfold contributes. destruct (step_here e); try congruence; destruct (_ && _); try congruence.
  - apply given_det. intros op ts ts'. unfold adds_value. destruct (instr_eqb op ISetVariable); [congruence|]. destruct (instr_eqb op IExitScript); [apply adds_calc_det|congruence].
  - apply given_det. unfold adds_name. congruence.
  - apply given_det. intros _. apply adds_calc_det.
  - intros (d & sts & C & S & R) (d' & sts' & C' & S' & R'). rewrite C in C'. injection C' as <-. rewrite (steps_in_det _ _ _ _ _ S S') in R.
    destruct (segment_4 e); [exact (inserted_det _ _ _ R _ R')|congruence].
Qed.
Lemma in_place_det k h l : in_place k h l -> forall l', in_place k h l' -> l = l'.
Proof.
  induction 1 as [|h e l0 l I IH C]; intros l' H'.
  - inversion H' as [|h e l0 l1 I C E]; [reflexivity|]. destruct h; discriminate.
  - inversion H' as [E|h' e' l0' l1 I' C' E]; [destruct h; discriminate|]. apply app_inj_tail in E as [-> ->]. rewrite (IH _ I') in C. eapply contributes_det; eauto.
Qed.
Lemma increasing_inj {V} (a : list (N * V)) : forall b, increasing (map fst a) -> increasing (map fst b) -> (forall i, nget a i = nget b i) -> a = b.
Proof.
  unfold increasing. induction a as [|[k v] a IH]; intros b A B E.
  - destruct b as [|[k v] b]; [reflexivity|]. specialize (E k). unfold nget in E. cbn [mget] in E. rewrite N.eqb_refl in E. discriminate.
  - destruct b as [|[k' v'] b]; [specialize (E k); unfold nget in E; cbn [mget] in E; rewrite N.eqb_refl in E; discriminate|].
    cbn [map fst] in A, B. inversion A as [|? ? A1 A2]; subst. inversion B as [|? ? B1 B2]; subst.
    assert (NI : forall (x : N) (l : list (N * V)), Forall (N.lt x) (map fst l) -> forall i, i <= x -> nget l i = None).
    { intros x l F i L. induction l as [|[y w] l IHl]; [reflexivity|]. inversion F; subst. unfold nget. cbn [mget fst] in *. destruct (N.eqb_spec y i); [lia|]. apply IHl; auto. }
    assert (K : k = k').
    { destruct (N.lt_trichotomy k k') as [L|[L|L]]; auto.
      - specialize (E k). unfold nget in E. cbn [mget] in E. rewrite N.eqb_refl, (proj2 (N.eqb_neq k' k)) in E by lia.
        change (mget N.eqb b k) with (nget b k) in E. rewrite (NI k' b B2) in E by lia. discriminate.
      - specialize (E k'). unfold nget in E. cbn [mget] in E. rewrite N.eqb_refl, (proj2 (N.eqb_neq k k')) in E by lia.
        change (mget N.eqb a k') with (nget a k') in E. rewrite (NI k a A2) in E by lia. discriminate. }
    subst k'. assert (V' : v = v') by (specialize (E k); unfold nget in E; cbn [mget] in E; rewrite N.eqb_refl in E; congruence). subst v'.
    f_equal. apply IH; auto. intros i. destruct (N.le_gt_cases i k) as [L|L]; [rewrite (NI k a), (NI k b) by auto; reflexivity|].
    specialize (E i). unfold nget in E. cbn [mget] in E. rewrite (proj2 (N.eqb_neq k i)) in E by lia. exact E.
Qed.
Theorem steps_of_det k h l l' : steps_of k h l -> steps_of k h l' -> l = l'.
Proof.
  intros (l1 & d & l2 & I & (segs & A & B & ->) & S & ->) (l1' & d' & l2' & I' & (segs' & A' & B' & ->) & S' & ->).
  assert (E : segs = segs') by (apply increasing_inj; auto; intros i; now rewrite B, B'). subst segs'.
  rewrite (in_place_det _ _ _ I _ I'), (steps_in_det _ _ _ _ _ S S'). reflexivity.
Qed.

(** ** Records on the way *)
Lemma in_place_split k h2 : forall h1 e l, in_place k (h1 ++ e :: h2) l ->
  exists l1 l2, in_place k h1 l1 /\ contributes (fun j => script_name_of j h1) k e l1 l2.
Proof.
  induction h2 as [|x h2 IH] using rev_ind; intros h1 e l H.
  - inversion H as [E|h e' l0 l1 I C E]; [destruct h1; discriminate|]. apply app_inj_tail in E as [-> ->]. eauto.
  - rewrite app_comm_cons, app_assoc in H. inversion H as [E|h e' l0 l1 I C E]; [destruct (h1 ++ e :: h2); discriminate|].
    apply app_inj_tail in E as [-> ->]. exact (IH _ _ _ I).
Qed.

Lemma cut_last d bs : cut d bs -> lenN d mod 28 <> 0 -> exists b, In b bs /\ lenN b = lenN d mod 28.
Proof.
  induction 1 as [|d N L|b d bs L C IH]; intros M; [contradiction|exists d; split; [left; reflexivity|now rewrite N.mod_small]|].
  rewrite lenN_app, L in *. rewrite <- N.add_mod_idemp_l, N.mod_same, N.add_0_l in * by discriminate.
  destruct (IH M) as (b' & I & E). exists b'. split; [now right|exact E].
Qed.
Lemma no_21 names d sts : steps_in names 21 d sts -> lenN d mod 28 <> 21.
Proof.
  intros (bs & os & C & F & _) M. destruct (cut_last _ _ C) as (b & I & E); [rewrite M; discriminate|]. rewrite M in E.
  assert (I' : In b (filter (fun b => 21 <=? lenN b) bs)) by (apply filter_In; split; [exact I|rewrite E; reflexivity]).
  clear C I. induction F as [|b' o bs' os' R F IH]; [destruct I'|]. destruct I' as [->|I']; [|now apply IH].
  destruct R as (op & R & _). assert (N : nthN b 21 = None) by (apply nthN_None; rewrite E; reflexivity). congruence.
Qed.

(** ** Only the own directories and the script names matter *)
Lemma names_any_of k e : names_script k e = true -> names_any e = true.
Proof. unfold names_any, names_script. destruct (at_place e); try discriminate. intros H. apply andb_true_iff in H as [H ->]. apply andb_true_iff in H as [_ ->]. now rewrite N.eqb_refl. Qed.
Lemma name_matters k j h : script_name_of j (filter (step_matters k) h) = script_name_of j h.
Proof.
  unfold script_name_of. rewrite existsb_filter, last_of_filter; [reflexivity|..].
  - intros e H. destruct (names_script j e) eqn:N; [|reflexivity]. apply names_any_of in N. unfold step_matters in H. rewrite N, orb_true_r in H. discriminate.
  - intros e H. unfold step_matters. rewrite (names_any_of _ _ H). apply orb_true_r.
Qed.
Lemma contributes_foreign names k e l l' : step_own k e = false -> contributes names k e l l' -> l' = l.
Proof. unfold step_own, contributes. destruct (step_here e); auto; intros ->; auto. Qed.
Lemma in_place_matters k h : forall l, in_place k h l -> in_place k (filter (step_matters k) h) l.
Proof.
  induction h as [|e h IH] using rev_ind; intros l H; [exact H|]. inversion H as [E|h0 e0 l0 l1 I C E]; [destruct h; discriminate|].
  apply app_inj_tail in E as [-> ->]. rewrite filter_app. cbn [filter]. destruct (step_matters k e) eqn:M.
  - apply IpNext with (l := l0); [now apply IH|]. eapply contributes_ext; [|exact C]. intros j. symmetry. apply name_matters.
  - rewrite app_nil_r. unfold step_matters in M. apply orb_false_iff in M as [M _]. rewrite (contributes_foreign _ _ _ _ _ M C). now apply IH.
Qed.
Lemma arrivals_matter k h : flat_map (arrival k) (filter (step_matters k) h) = flat_map (arrival k) h.
Proof.
  induction h as [|e h IH]; [reflexivity|]. cbn [filter flat_map]. destruct (step_matters k e) eqn:M; cbn [flat_map]; rewrite IH; [reflexivity|].
  assert (A : arrival k e = []); [|now rewrite A]. unfold step_matters, step_own in M. apply orb_false_iff in M as [M _].
  unfold arrival. destruct (step_here e); auto. rewrite M. destruct (ctype (snd e)), (csegment (snd e)), (cdata (snd e)); reflexivity.
Qed.
Lemma steps_matter k h l : steps_of k h l -> steps_of k (filter (step_matters k) h) l.
Proof.
  intros (l1 & d & l2 & I & (segs & A & B & E) & S & ->). exists l1, d, l2. split; [now apply in_place_matters|]. split.
  - exists segs. split; [exact A|]. split; [|exact E]. intros i. now rewrite B, arrivals_matter.
  - split; [|reflexivity]. eapply steps_in_ext; [|exact S]. intros j. symmetry. apply name_matters.
Qed.
