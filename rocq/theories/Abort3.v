(** Which records about steps stop the decompiler. *)
From Coq Require Import NArith Arith List Bool Lia Permutation.
From Verif Require Import Prelude PreludeFacts Utf8 EncodingModel EncodingSpec CharConvModel ChunkModel InstrModel ComponentModel DecompModel DecompSpec
  DecompCalcSpec DecompCalc DecompScriptSpec DecompScript DecompChain HistorySpec History History2 History3 StepsSpec Steps Steps2 Steps3 AbortSpec Abort Abort2.
Import ListNotations.
Local Open Scope N_scope.

Definition has_script (s : dstate) (k : N) : Prop := nget (nam s) k <> None.

Lemma mod_good s sid g : good (mod_steps s sid g) <-> has_script s sid /\ good (g (stp s sid)).
Proof.
  unfold has_script, stp, mod_steps. change (f_scripts (d_file s)) with (nam s). destruct (nget (nam s) sid) as [sc|]; cbn [unwrap bind].
  - destruct (g (sc_steps sc)) as [l| |]; cbn [bind].
    + split; [intros _; split; [discriminate|apply good_ok]|intros _; apply good_ok].
    + split; [intros H; now apply good_panic in H|]. intros [_ (a & H)]. discriminate.
    + split; [intros (a & H); discriminate|]. intros [_ (a & H)]. discriminate.
  - apply good_panic_iff. intros [H _]. congruence.
Qed.

Lemma push_good i g l : good (push_switch l i g) <->
  exists pre st post, l = pre ++ st :: post /\ step_index st = i /\ Forall (fun x => step_index x <> i) pre /\ good (g st).
Proof.
  split.
  - intros (l' & H). apply push_inv in H as (pre & st & post & st' & E & I & F & G & _). exists pre, st, post. repeat split; auto. now exists st'.
  - intros (pre & st & post & -> & I & F & (st' & G)). induction F as [|x pre N F IH]; cbn [app push_switch].
    + rewrite (proj2 (N.eqb_eq _ _) I), G. apply good_ok.
    + rewrite (proj2 (N.eqb_neq _ _) N). destruct IH as (r & ->). apply good_ok.
Qed.

(** A parameter fits when [adds] has something to add to the first step of its index. *)
Lemma param_good s x i g (adds : instruction -> list (list N) -> Prop) :
  (forall st, step_index st = i -> (good (g st) <-> exists ts, adds (opcode st) ts)) ->
  (good (mod_steps s x (fun steps => push_switch steps i g)) <-> exists l', given i adds (stp s x) l').
Proof.
  intros G. rewrite mod_good, push_good. split.
  - intros (_ & pre & st & post & E & I & F & H). apply G in H as (ts & A); [|exact I].
    exists (pre ++ mkStep (opcode st) i (switches st ++ ts) :: post), pre, st, post, ts. auto.
  - intros (l' & pre & st & post & ts & E & I & F & A & _). split.
    + unfold has_script. unfold stp in E. destruct (nget (nam s) x); [discriminate|]. destruct pre; discriminate.
    + exists pre, st, post. repeat split; auto. apply G; eauto.
Qed.

Lemma put_append_good sts : forall l, put_all (fun steps st => Ok (steps ++ [st])) l sts = Ok (l ++ sts).
Proof. induction sts as [|st sts IH]; intros l; cbn [put_all bind]; [now rewrite app_nil_r|]. rewrite IH, <- app_assoc. reflexivity. Qed.
Lemma vec_insert_app {A} (a b : list A) x : vec_insert (a ++ b) (lenN a) x = Ok (a ++ x :: b).
Proof.
  unfold vec_insert. rewrite lenN_app. destruct (N.leb_spec (lenN a) (lenN a + lenN b)); [|lia]. f_equal. unfold lenN. rewrite Nat2N.id.
  rewrite firstn_app, firstn_all, Nat.sub_diag, skipn_app, skipn_all, Nat.sub_diag. cbn [firstn skipn app]. now rewrite app_nil_r.
Qed.
Lemma put_insert_good sts l l' : inserted sts l l' -> put_all (fun steps st => vec_insert steps (step_index st) st) l sts = Ok l'.
Proof.
  induction 1 as [l|st sts a b l L I IH]; [reflexivity|]. cbn [put_all]. rewrite <- L, vec_insert_app. exact IH.
Qed.

Lemma reads_decode sc m l os : Forall2 (reads_as (names_of sc)) (filter (fun b => m <=? lenN b) l) os -> decode_list sc m l = Ok (present os).
Proof.
  revert os. induction l as [|b l IH]; intros os F; cbn [decode_list filter] in *; [inversion F; reflexivity|].
  destruct (m <=? lenN b); [|now apply IH]. inversion F as [|? o ? os' R F']; subst. apply decode_reads in R. rewrite R. cbn [bind]. rewrite (IH _ F'). cbn [bind].
  destruct o; reflexivity.
Qed.
Lemma steps_code sc m d sts : steps_in (names_of sc) m d sts -> decode_list sc m (chunks 28 d) = Ok sts.
Proof.
  intros (bs & os & C & F & ->). rewrite (cut_det _ _ C _ (cut_chunks d)) in F. now apply reads_decode.
Qed.

Lemma steps_loop_good l : forall m sid ins s sts l', decode_list (nam s) m l = Ok sts -> (sts <> [] -> has_script s sid) ->
  put_all ins (stp s sid) sts = Ok l' -> good (steps_loop l m sid ins s).
Proof.
  induction l as [|b l IH]; intros m sid ins s sts l' D S P; cbn [steps_loop decode_list] in *; [apply good_ok|].
  destruct (m <=? lenN b); [|eapply IH; eauto]. change (f_scripts (d_file s)) with (nam s).
  destruct (decode_step (nam s) b) as [[st|]| |]; try discriminate; cbn [bind] in *.
  - destruct (decode_list (nam s) m l) as [r| |] eqn:DL; try discriminate. cbn [bind] in D. injection D as <-. cbn [put_all] in P.
    destruct (ins (stp s sid) st) as [l1| |] eqn:IN; try discriminate. cbn [bind] in P.
    assert (G : good (mod_steps s sid (fun steps => ins steps st))) by (apply mod_good; split; [apply S; discriminate|now exists l1]).
    destruct G as (s1 & M). rewrite M. cbn [bind]. pose proof (mod_inv _ _ _ _ M) as (M1 & _ & M3). rewrite IN in M1. injection M1 as M1.
    apply IH with (sts := r) (l' := l'); [now rewrite (decode_list_names _ (nam s)) by exact M3| |now rewrite <- M1].
    intros _. specialize (S ltac:(discriminate)). specialize (M3 sid). unfold has_script, names_of in *. destruct (nget (nam s1) sid); [discriminate|]. destruct (nget (nam s) sid); [discriminate|]. congruence.
  - destruct (decode_list (nam s) m l) as [r| |] eqn:DL; try discriminate. cbn [bind] in D. injection D as <-. eapply IH; eauto.
Qed.

Lemma loop_script l : forall m sid ins s s', steps_loop l m sid ins s = Ok s' -> forall sts, decode_list (nam s) m l = Ok sts -> sts <> [] -> has_script s sid.
Proof.
  induction l as [|b l IH]; intros m sid ins s s' H sts D N; cbn [steps_loop decode_list] in *; [injection D as <-; now contradiction N|].
  destruct (m <=? lenN b); [|eapply IH; eauto]. change (f_scripts (d_file s)) with (nam s) in H.
  destruct (decode_step (nam s) b) as [[st|]| |]; try discriminate; cbn [bind] in *.
  - destruct (mod_steps s sid _) as [s1| |] eqn:M; try discriminate. assert (G : good (mod_steps s sid (fun steps => ins steps st))) by (now exists s1). apply mod_good in G. apply G.
  - destruct (decode_list (nam s) m l) as [r| |] eqn:DL; try discriminate. cbn [bind] in D. injection D as <-. eapply IH; eauto.
Qed.

(** ** The arms *)
Lemma named_iff h s k : so_far h s -> (has_script s k <-> script_name_of k h <> None).
Proof. intros F. rewrite <- (sf_names _ _ F). unfold has_script, names_of. destruct (nget (nam s) k); cbn [option_map]; split; congruence. Qed.

Lemma fits_iff h s k e : so_far h s -> (step_fits k h e <->
  exists l', contributes (names_of (nam s)) k e (stp s k) l' /\ (l' <> stp s k -> has_script s k)).
Proof.
  intros F. pose proof (sf_names _ _ F) as FN. unfold step_fits. split.
  - intros (l & l' & I & C & N). assert (E : l = stp s k) by exact (in_place_det _ _ _ I _ (sf_steps _ _ F k)). subst l. exists l'. split; [|intros X; apply (named_iff h s k F); auto].
    eapply contributes_ext; [|exact C]. intros j. symmetry. apply FN.
  - intros (l' & C & N). exists (stp s k), l'. split; [apply (sf_steps _ _ F)|]. split; [|intros X; apply (named_iff h s k F); auto].
    eapply contributes_ext; [|exact C]. exact FN.
Qed.

Lemma same_fits (s : dstate) (k : N) : exists l', l' = stp s k /\ (l' <> stp s k -> has_script s k).
Proof. exists (stp s k). split; [reflexivity|]. intros H. now contradiction H. Qed.

(** Something given to a step: then there is the script. *)
Lemma given_script s k i adds l' : given i adds (stp s k) l' -> has_script s k.
Proof.
  intros (pre & st & post & ts & E & _). unfold has_script. unfold stp in E. destruct (nget (nam s) k); [discriminate|]. destruct pre; discriminate.
Qed.

Lemma value_fits k i path ch s : step_place_of path = SValue k i ->
  (good (arm_step_value k i ch s) <-> exists l', contributes (names_of (nam s)) k (path, ch) (stp s k) l' /\ (l' <> stp s k -> has_script s k)).
Proof.
  intros P. rewrite value_arm_eq. unfold contributes, step_here. cbn [fst]. rewrite P, N.eqb_refl, !(key_path _ path). cbn [andb].
  destruct (has_key 5 ([], ch)); [|apply good_ok_iff, same_fits].
  rewrite (param_good s k i _ (adds_value (path, ch))).
  - split; [intros (l' & G); exists l'; split; [exact G|]; intros _; eapply given_script; eauto|]. intros (l' & G & _). eauto.
  - intros st I. unfold adds_value. destruct (instr_eqb (opcode st) ISetVariable); [apply good_ok_iff; eauto|].
    destruct (instr_eqb (opcode st) IExitScript); [|apply good_ok_iff; eauto]. unfold adds_calc. cbn [snd]. split.
    + intros (st' & H). destruct (cdata ch) as [d|]; [|discriminate]. cbn [unwrap bind] in H. destruct (decompile_calculation d) as [c| |] eqn:C; try discriminate.
      exists [c], d, c. split; [reflexivity|]. split; [now apply calc_exact|reflexivity].
    + intros (ts & d & c & -> & C & ->). cbn [unwrap bind]. apply calc_exact in C. rewrite C. apply good_ok.
Qed.
Lemma name_fits k i path ch s : step_place_of path = SName k i ->
  (good (arm_step_name k i ch s) <-> exists l', contributes (names_of (nam s)) k (path, ch) (stp s k) l' /\ (l' <> stp s k -> has_script s k)).
Proof.
  intros P. rewrite name_arm_eq. unfold contributes, step_here. cbn [fst]. rewrite P, N.eqb_refl, !(key_path _ path). cbn [andb].
  destruct (has_key 1 ([], ch)); [|apply good_ok_iff, same_fits].
  rewrite (param_good s k i _ (adds_name (path, ch))).
  - split; [intros (l' & G); exists l'; split; [exact G|]; intros _; eapply given_script; eauto|]. intros (l' & G & _). eauto.
  - intros st I. unfold adds_name. destruct (instr_eqb (opcode st) ISetVariable); apply good_ok_iff; eauto.
Qed.

Lemma calc_arm_eq x i ch s : arm_step_calc x i ch s =
  (s <- (if has_key 5 ([], ch) then d <- unwrap (cdata ch) ;; c <- decompile_calculation d ;;
      mod_steps s x (fun steps => push_switch steps i (fun st => Ok (add_switch c st))) else Ok s) ;;
   _ <- unwrap (nget (nam s) x) ;; Ok s).
Proof.
  unfold arm_step_calc, has_key, nam. cbn [snd]. destruct (cref ch) as [[|[[p|[p|p|]|]|p|]]|]; reflexivity.
Qed.
Lemma calc_fits k i path ch s : step_place_of path = SCalc k i ->
  (good (arm_step_calc k i ch s) <->
   (exists l', contributes (names_of (nam s)) k (path, ch) (stp s k) l' /\ (l' <> stp s k -> has_script s k)) /\ has_script s k).
Proof.
  intros P. rewrite calc_arm_eq. unfold contributes, step_here. cbn [fst]. rewrite P, N.eqb_refl, !(key_path _ path). cbn [andb].
  destruct (has_key 5 ([], ch)).
  - assert (Q : good (d <- unwrap (cdata ch) ;; c <- decompile_calculation d ;; mod_steps s k (fun steps => push_switch steps i (fun st => Ok (add_switch c st)))) <->
      exists l', given i (fun _ => adds_calc (path, ch)) (stp s k) l').
    { unfold adds_calc. cbn [snd]. destruct (cdata ch) as [d|]; cbn [unwrap bind].
      - destruct (decompile_calculation d) as [c| |] eqn:C; cbn [bind].
        + apply param_good. intros st I. apply good_ok_iff. exists [c], d, c. split; [reflexivity|]. split; [now apply calc_exact|reflexivity].
        + apply good_panic_iff. intros (l' & pre & st & post & ts & _ & _ & _ & (d' & c & E & CS & _) & _). injection E as <-. apply calc_exact in CS. congruence.
        + now apply nf_calc in C.
      - apply good_panic_iff. intros (l' & pre & st & post & ts & _ & _ & _ & (d' & c & E & CS & _) & _). discriminate. }
    split.
    + intros (s' & H). match type of H with bind ?X _ = _ => destruct X as [s1| |] eqn:E; try discriminate end.
      assert (G : exists l', given i (fun _ => adds_calc (path, ch)) (stp s k) l') by (apply Q; now exists s1).
      destruct G as (l' & G). pose proof (given_script _ _ _ _ _ G) as HS. split; [|exact HS]. exists l'. auto.
    + intros [(l' & G & _) HS]. assert (W : exists l', given i (fun _ => adds_calc (path, ch)) (stp s k) l') by eauto. apply Q in W as (s1 & W). rewrite W. cbn [bind].
      assert (N : has_script s1 k).
      { destruct (cdata ch) as [d|]; [|discriminate]. cbn [unwrap bind] in W. destruct (decompile_calculation d); try discriminate. cbn [bind] in W.
        apply mod_inv in W as (_ & _ & W). specialize (W k). unfold has_script, names_of in *. destruct (nget (nam s1) k); [discriminate|]. destruct (nget (nam s) k); [discriminate|congruence]. }
      unfold has_script in N. destruct (nget (nam s1) k); [apply good_ok|congruence].
  - cbn [bind]. unfold has_script at 2. destruct (nget (nam s) k) eqn:E; cbn [unwrap bind].
    + apply good_ok_iff. split; [apply same_fits|discriminate].
    + apply good_panic_iff. intros [_ H]. congruence.
Qed.

Lemma inserted_same sts l l' : inserted sts l l' -> lenN l' = lenN sts + lenN l.
Proof.
  induction 1 as [l|st sts a b l L I IH]; [reflexivity|]. rewrite IH. unfold lenN. rewrite !app_length. cbn [length]. lia.
Qed.

Lemma script_arm_eq x ch s : arm_script x ch s =
  if negb (moves_path ([], ch)) && (segment_4 ([], ch) || has_key 4 ([], ch)) then
    d <- unwrap (cdata ch) ;;
    steps_loop (chunks 28 d) 21 x (if segment_4 ([], ch) then fun steps st => vec_insert steps (step_index st) st else fun steps st => Ok (steps ++ [st])) s
  else Ok s.
Proof.
  unfold arm_script, moves_path, segment_4, has_key. cbn [snd].
  assert (SG : match csegment ch with Some 4 => true | _ => false end = match csegment ch with Some n => n =? 4 | None => false end)
    by (destruct (csegment ch) as [[|[p|[p|[p|p|]|]|]]|]; reflexivity).
  rewrite SG. destruct (match csegment ch with Some n => n =? 4 | None => false end).
  - destruct (ctype ch); reflexivity.
  - destruct (ctype ch); try reflexivity; cbn [negb andb orb]; destruct (cref ch) as [[|[p|[p|[p|p|]|]|]]|]; reflexivity.
Qed.
Lemma code_fits k path ch s : step_place_of path = SCode k ->
  (good (arm_script k ch s) <-> exists l', contributes (names_of (nam s)) k (path, ch) (stp s k) l' /\ (l' <> stp s k -> has_script s k)).
Proof.
  intros P. rewrite script_arm_eq. unfold contributes, step_here. cbn [fst]. rewrite P, N.eqb_refl, !(key_path _ path). cbn [andb].
  change (moves_path (path, ch)) with (moves_path ([], ch)). change (segment_4 (path, ch)) with (segment_4 ([], ch)).
  destruct (negb (moves_path ([], ch)) && (segment_4 ([], ch) || has_key 4 ([], ch))); [|apply good_ok_iff, same_fits].
  cbn [snd]. destruct (cdata ch) as [d|]; cbn [unwrap bind].
  - split.
    + intros (s' & H). pose proof (loop_script _ _ _ _ _ _ H) as LS. apply steps_loop_inv in H as (sts & L & A & _). exists (stp s' k). specialize (LS _ L). split.
      * exists d, sts. split; [reflexivity|]. split; [now apply code_steps|]. destruct (segment_4 ([], ch)); [now apply put_insert|now apply put_append].
      * intros N. apply LS. intros ->. cbn [put_all] in A. injection A as A. congruence.
    + intros (l' & (d' & sts & E & S & A) & N). injection E as <-. apply steps_code in S.
      assert (NE : sts <> [] -> has_script s k).
      { intros NS. apply N. intros ->. apply NS. destruct (segment_4 ([], ch)).
        - apply inserted_same in A. destruct sts; [reflexivity|]. unfold lenN in A. cbn [length] in A. lia.
        - rewrite <- (app_nil_r (stp s k)) in A at 1. now apply app_inv_head in A. }
      apply (steps_loop_good _ _ _ _ _ sts l'); auto.
      destruct (segment_4 ([], ch)); [now apply put_insert_good|]. rewrite A. apply put_append_good.
  - apply good_panic_iff. intros (l' & (d' & sts & E & _) & _). discriminate.
Qed.

(** ** Segments *)
Definition opened (h : history) (s : dstate) : Prop := forall k, nhas (d_segments s) k = existsb (opens_segments k) h.

Lemma opened_step h s path ch s' : dispatch path ch s = Ok s' -> opened h s -> opened (h ++ [(path, ch)]) s'.
Proof.
  intros D O k. rewrite existsb_snoc. unfold opens_segments at 2, step_here. cbn [fst].
  destruct (step_place_of path) as [x| | | | |] eqn:P.
  2-6: rewrite orb_false_r; apply segments_frame in D as [->|(y & Q & _)]; [apply O|congruence].
  rewrite <- dispatch_step, P in D. cbn [step_arm] in D. unfold arm_segment in D. unfold enters. cbn [snd].
  destruct (ctype ch); try (injection D as <-; rewrite andb_false_r, orb_false_r; apply O).
  - destruct (csegment ch); [|discriminate]. cbn [unwrap bind] in D. destruct (nget (d_segments s) x) eqn:G; [|discriminate]. cbn [unwrap bind] in D.
    destruct (cdata ch); [|discriminate]. cbn [unwrap bind] in D. injection D as <-. cbn [d_segments]. rewrite andb_false_r, orb_false_r, <- O, !nhas_get, nget_nset.
    destruct (N.eqb_spec x k) as [<-|]; [now rewrite G|reflexivity].
  - rewrite andb_true_r. destruct (nhas (d_segments s) x) eqn:G.
    + injection D as <-. rewrite <- O. destruct (N.eqb_spec x k) as [<-|]; [rewrite G; reflexivity|now rewrite orb_false_r].
    + injection D as <-. cbn [d_segments]. rewrite <- O, !nhas_get, nget_nset. destruct (N.eqb_spec x k) as [<-|]; [now rewrite orb_true_r|now rewrite orb_false_r].
Qed.

Lemma segment_fits h k path ch s : opened h s -> (good (arm_segment k ch s) <->
  (in_segment (path, ch) = true -> csegment ch <> None /\ has_data (path, ch) /\ existsb (opens_segments k) h = true)).
Proof.
  intros O. unfold arm_segment, in_segment, has_data. cbn [snd]. rewrite <- O.
  destruct (ctype ch); try (apply good_ok_iff; discriminate).
  - rewrite nhas_get. destruct (csegment ch); cbn [unwrap bind]; [|apply good_panic_iff; intros H; destruct (H eq_refl); congruence].
    destruct (nget (d_segments s) k); cbn [unwrap bind]; [|apply good_panic_iff; intros H; destruct (H eq_refl) as (_ & _ & H'); discriminate].
    destruct (cdata ch); cbn [unwrap bind]; [apply good_ok_iff; intros _; repeat split; discriminate|]. apply good_panic_iff. intros H. destruct (H eq_refl) as (_ & H' & _). congruence.
  - destruct (nhas (d_segments s) k); apply good_ok_iff; discriminate.
Qed.

(** ** Any record *)
Record all_facts (h : history) (s : dstate) : Prop := {
  af_known : all_known h s;
  af_tables : exact_tables h s;
  af_steps : so_far h s;
  af_opened : opened h s;
}.

Lemma places_apart path : place_of path <> PElsewhere -> step_place_of path = SOther.
Proof.
  unfold place_of, step_place_of.
  repeat match goal with |- context [match ?x with _ => _ end] => is_var x; destruct x end; try reflexivity; intros H; now contradiction H.
Qed.
Lemma nowhere path ch s : place_of path = PElsewhere -> step_place_of path = SOther -> dispatch path ch s = Ok s.
Proof.
  unfold dispatch, step_place_of, place_of.
  repeat match goal with |- context [match ?x with _ => _ end] => is_var x; destruct x end; try discriminate; reflexivity.
Qed.
Lemma place_dec path : {place_of path = PElsewhere} + {place_of path <> PElsewhere}.
Proof. destruct (place_of path); auto; right; discriminate. Qed.

Theorem record_fits h path ch s : all_facts h s -> of_bytes (path, ch) -> (good (dispatch path ch s) <-> record_ok h (path, ch)).
Proof.
  intros [K T F O] B. unfold record_ok. destruct (place_dec path) as [P|P].
  - assert (SO : schema_ok h (path, ch)) by (unfold schema_ok, at_place; cbn [fst]; now rewrite P).
    assert (Q : good (dispatch path ch s) <-> steps_ok h (path, ch)); [|tauto].
    unfold steps_ok, step_here. cbn [fst snd]. destruct (step_place_of path) as [k|k i|k i|k i|k|] eqn:S.
    6: rewrite nowhere by assumption; now apply good_ok_iff.
    all: rewrite <- dispatch_step, S; cbn [step_arm].
    + now apply segment_fits.
    + rewrite (fits_iff h s) by exact F. now apply (value_fits k i).
    + rewrite (fits_iff h s) by exact F. now apply (name_fits k i).
    + rewrite (fits_iff h s), <- (named_iff h s) by exact F. now apply (calc_fits k i).
    + rewrite (fits_iff h s) by exact F. now apply (code_fits k).
  - assert (SO : steps_ok h (path, ch)) by (unfold steps_ok, step_here; cbn [fst]; now rewrite places_apart).
    rewrite (schema_arm h) by assumption. tauto.
Qed.

Lemma so_far_step h s path ch s' : dispatch path ch s = Ok s' -> so_far h s -> so_far (h ++ [(path, ch)]) s'.
Proof. intros D. apply (so_far_run [(path, ch)]). cbn [run_history]. rewrite D. reflexivity. Qed.

Lemma facts_step h s path ch s' : dispatch path ch s = Ok s' -> all_facts h s -> all_facts (h ++ [(path, ch)]) s'.
Proof.
  intros D [K T F O]. constructor; [eapply known_step|eapply exact_step|eapply so_far_step|eapply opened_step]; eauto.
Qed.
Lemma facts_start : all_facts [] (mkD fmpfile_new [] []).
Proof. constructor; [apply known_start|apply exact_start|apply so_far_start|intros k; reflexivity]. Qed.

Lemma run_fits h : forall g s, all_facts g s -> Forall of_bytes h ->
  (good (run_history h s) <-> forall h1 e h2, h = h1 ++ e :: h2 -> record_ok (g ++ h1) e) /\
  forall s', run_history h s = Ok s' -> all_facts (g ++ h) s'.
Proof.
  induction h as [|[p ch] h IH]; intros g s A B.
  - cbn [run_history]. split; [apply good_ok_iff; intros [|e1 h1] e h2 H; discriminate|]. intros s' [= <-]. now rewrite app_nil_r.
  - inversion B as [|? ? B1 B2]; subst. cbn [run_history]. pose proof (record_fits g p ch s A B1) as RF.
    destruct (dispatch p ch s) as [s1| |] eqn:D; cbn [bind].
    + destruct (IH (g ++ [(p, ch)]) s1) as [I1 I2]; [now apply facts_step with (s := s)|exact B2|]. split.
      * rewrite I1. split; intros H.
        -- intros [|e1 h1] e h2 E; cbn [app] in E.
           ++ injection E as <- <-. rewrite app_nil_r. apply RF. apply good_ok.
           ++ injection E as <- E. specialize (H _ _ _ E). rewrite <- app_assoc in H. exact H.
        -- intros h1 e h2 E. rewrite <- app_assoc. apply (H ((p, ch) :: h1) e h2). rewrite E. reflexivity.
      * intros s' R. specialize (I2 s' R). rewrite <- app_assoc in I2. exact I2.
    + split; [|discriminate]. apply good_panic_iff. intros H. apply (@good_panic dstate). apply RF. specialize (H [] (p, ch) h eq_refl). now rewrite app_nil_r in H.
    + now apply nf_arms in D.
Qed.
