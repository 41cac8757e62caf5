(** The steps of scripts, record by record. *)
From Coq Require Import Ascii String NArith Arith List Bool Lia Permutation Sorting.Sorted.
From Verif Require Import Prelude PreludeFacts Utf8 EncodingModel ChunkModel InstrModel ComponentModel DecompModel DecompSpec DecompCalcSpec
  DecompScriptSpec DecompScript HistorySpec History History2 History3 StepsSpec Steps.
Import ListNotations.
Local Open Scope N_scope.

(** The steps of a script so far. *)
Definition stp (s : dstate) (k : N) : list step := match nget (nam s) k with Some sc => sc_steps sc | None => [] end.

Lemma mod_inv s sid g s' : mod_steps s sid g = Ok s' ->
  g (stp s sid) = Ok (stp s' sid) /\ (forall k, k <> sid -> stp s' k = stp s k) /\ (forall k, names_of (nam s') k = names_of (nam s) k).
Proof.
  rewrite mod_steps_ok. unfold stp, nam. destruct (nget (f_scripts (d_file s)) sid) as [sc|] eqn:E; [|discriminate].
  destruct (g (sc_steps sc)) as [l| |] eqn:G; try discriminate. cbn [bind]. intros [= <-]. cbn [with_file set_scripts d_file f_scripts].
  rewrite nget_nset, N.eqb_refl. split; [reflexivity|]. split.
  - intros k K. rewrite nget_nset, (proj2 (N.eqb_neq sid k)) by auto. reflexivity.
  - intros k. unfold names_of. rewrite nget_nset. destruct (N.eqb_spec sid k) as [<-|]; [|reflexivity]. rewrite E. reflexivity.
Qed.

Fixpoint put_all (ins : list step -> step -> outcome (list step)) (l : list step) (sts : list step) : outcome (list step) :=
  match sts with [] => Ok l | st :: r => l' <- ins l st ;; put_all ins l' r end.

Lemma steps_loop_inv l : forall m sid ins s s', steps_loop l m sid ins s = Ok s' ->
  exists sts, decode_list (nam s) m l = Ok sts /\ put_all ins (stp s sid) sts = Ok (stp s' sid) /\
    (forall k, k <> sid -> stp s' k = stp s k) /\ (forall k, names_of (nam s') k = names_of (nam s) k).
Proof.
  induction l as [|b l IH]; intros m sid ins s s' H; cbn [steps_loop decode_list] in *.
  - injection H as <-. exists []. repeat split; auto.
  - destruct (m <=? lenN b); [|now apply IH]. change (f_scripts (d_file s)) with (nam s) in H.
    destruct (decode_step (nam s) b) as [[st|]| |]; try discriminate; cbn [bind] in *.
    + destruct (mod_steps s sid _) as [s1| |] eqn:M; try discriminate. cbn [bind] in H.
      apply mod_inv in M as (M1 & M2 & M3). destruct (IH _ _ _ _ _ H) as (sts & D & P & O & Nm). exists (st :: sts).
      rewrite (decode_list_names _ (nam s)) in D by exact M3. rewrite D. cbn [bind put_all]. rewrite M1. cbn [bind].
      split; [reflexivity|]. split; [exact P|]. split; [intros k K; rewrite O, M2 by auto; reflexivity|]. intros k. now rewrite Nm, M3.
    + destruct (IH _ _ _ _ _ H) as (sts & D & P). exists sts. rewrite D. auto.
Qed.

Lemma put_append l : forall sts l', put_all (fun steps st => Ok (steps ++ [st])) l sts = Ok l' -> l' = l ++ sts.
Proof.
  intros sts. revert l. induction sts as [|st sts IH]; intros l l' H; cbn [put_all bind] in H; [injection H as <-; now rewrite app_nil_r|].
  apply IH in H. now rewrite H, <- app_assoc.
Qed.
Lemma put_insert sts : forall l l', put_all (fun steps st => vec_insert steps (step_index st) st) l sts = Ok l' -> inserted sts l l'.
Proof.
  induction sts as [|st sts IH]; intros l l' H; cbn [put_all] in H; [injection H as <-; constructor|].
  destruct (vec_insert _ _ _) as [l1| |] eqn:V; try discriminate. cbn [bind] in H. apply vec_insert_inv in V as (a & b & -> & L & ->).
  apply InsOne; auto.
Qed.

(** ** One record *)
Lemma key_0 k (P : Prop) ch : match cref ch with Some k => k | None => 0 end = k -> k <> 0 -> cref ch = Some k.
Proof. destruct (cref ch); intros H N; congruence. Qed.

Definition step_arm (p : step_place) (ch : chunk) (s : dstate) (other : outcome dstate) : outcome dstate :=
  match p with
  | SSegment x => arm_segment x ch s
  | SValue x i => arm_step_value x i ch s
  | SName x i => arm_step_name x i ch s
  | SCalc x i => arm_step_calc x i ch s
  | SCode x => arm_script x ch s
  | SOther => other
  end.
Lemma dispatch_step path ch s : step_arm (step_place_of path) ch s (dispatch path ch s) = dispatch path ch s.
Proof.
  unfold dispatch, step_place_of.
  repeat match goal with |- context [match ?x with _ => _ end] => is_var x; destruct x end; try reflexivity.
Qed.

Definition all_same (s s' : dstate) : Prop := forall k, stp s' k = stp s k.
Lemma same_nam s s' : nam s' = nam s -> all_same s s'.
Proof. intros E k. unfold stp. now rewrite E. Qed.

(** Records elsewhere leave the steps alone. *)
Lemma other_same path ch s s' : step_place_of path = SOther -> dispatch path ch s = Ok s' -> all_same s s'.
Proof.
  intros P D. destruct (place_of path) eqn:Q.
  10: { assert (E : dispatch path ch s = Ok s).
    { revert P Q. unfold dispatch, step_place_of, place_of.
      repeat match goal with |- context [match ?x with _ => _ end] => is_var x; destruct x end; try discriminate; reflexivity. }
    rewrite E in D. injection D as <-. intros k. reflexivity. }
  all: rewrite <- dispatch_place, Q in D; cbn [at_arm] in D.
  7: { unfold arm_script_name in D. intros j. unfold stp, nam.
    repeat match type of D with match ?x with _ => _ end = _ => destruct x eqn:? end; try (injection D as <-; reflexivity).
    - cbv zeta in D. injection D as <-. cbn [d_file with_file set_scripts f_scripts]. rewrite nget_nset. destruct (N.eqb_spec k j) as [<-|]; [|reflexivity].
      match goal with G : nget _ k = _ |- _ => now rewrite G end.
    - destruct (cdata ch); [|discriminate]. cbn [unwrap bind] in D. injection D as <-. cbn [d_file with_file set_scripts f_scripts].
      rewrite nget_nset. destruct (N.eqb_spec k j) as [<-|]; [|reflexivity]. match goal with G : nget _ k = _ |- _ => now rewrite G end. }
  all: apply same_nam; revert D; match goal with |- ?x = Ok _ -> _ => assert (K : keeps nam s x); [|exact (K s')] end;
    unfold arm_relation, arm_occurrence, arm_relation_fields, arm_layout, arm_field, arm_table, arm_source_name, arm_source; cbv zeta; kp.
Qed.

Lemma contributes_other names k e l : step_here e = SOther \/ (exists x, step_here e = SSegment x) -> contributes names k e l l.
Proof. unfold contributes. intros [->|(x & ->)]; reflexivity. Qed.

(** A parameter for another script, or under another key, changes nothing. *)
Lemma param_step s s' x i k g adds (b : bool) :
  (if b then mod_steps s x (fun steps => push_switch steps i g) = Ok s' else s' = s) ->
  (forall st st', step_index st = i -> g st = Ok st' -> exists ts, (adds : instruction -> list (list N) -> Prop) (opcode st) ts /\ st' = mkStep (opcode st) i (switches st ++ ts)) ->
  if (x =? k) && b then given i adds (stp s k) (stp s' k) else stp s' k = stp s k.
Proof.
  intros H G. destruct b; [|subst s'; rewrite andb_false_r; reflexivity]. rewrite andb_true_r.
  apply mod_inv in H as (H1 & H2 & _). destruct (N.eqb_spec x k) as [<-|K]; [|apply H2; auto].
  apply push_inv in H1 as (pre & st & post & st' & E & I & F & P & E'). destruct (G _ _ I P) as (ts & A & W). exists pre, st, post, ts. subst st'. auto.
Qed.

Lemma instr_dec a b : instr_eqb a b = true -> a = b.
Proof. unfold instr_eqb. destruct a, b; try discriminate; reflexivity. Qed.

Lemma add_switch_is t st i : step_index st = i -> add_switch t st = mkStep (opcode st) i (switches st ++ [t]).
Proof. intros <-. reflexivity. Qed.
Lemma same_is st i : step_index st = i -> st = mkStep (opcode st) i (switches st ++ []).
Proof. intros <-. rewrite app_nil_r. destruct st; reflexivity. Qed.

Lemma value_arm_eq x i ch s : arm_step_value x i ch s =
  if has_key 5 ([], ch) then mod_steps s x (fun steps => push_switch steps i (fun st =>
      if instr_eqb (opcode st) ISetVariable then Ok (add_switch (text_of ([], ch)) st)
      else if instr_eqb (opcode st) IExitScript then d <- unwrap (cdata ch) ;; c <- decompile_calculation d ;; Ok (add_switch c st)
      else Ok st)) else Ok s.
Proof.
  unfold arm_step_value, has_key, text_of. cbn [snd]. cbv zeta. destruct (cref ch) as [[|[[p|[p|p|]|]|p|]]|]; reflexivity.
Qed.
Lemma name_arm_eq x i ch s : arm_step_name x i ch s =
  if has_key 1 ([], ch) then mod_steps s x (fun steps => push_switch steps i (fun st =>
      if instr_eqb (opcode st) ISetVariable then Ok (add_switch (text_of ([], ch)) st) else Ok st)) else Ok s.
Proof.
  unfold arm_step_name, has_key, text_of. cbn [snd]. cbv zeta. destruct (cref ch) as [[|[p|p|]]|]; reflexivity.
Qed.
Lemma calc_arm_inv x i ch s s' : arm_step_calc x i ch s = Ok s' ->
  if has_key 5 ([], ch) then exists d c, cdata ch = Some d /\ decompile_calculation d = Ok c /\
    mod_steps s x (fun steps => push_switch steps i (fun st => Ok (add_switch c st))) = Ok s' else s' = s.
Proof.
  unfold arm_step_calc. intros H.
  match type of H with bind ?X _ = _ => destruct X as [s2| |] eqn:E; try discriminate end. cbn [bind] in H.
  destruct (nget _ x); try discriminate. cbn [unwrap bind] in H. injection H as <-.
  unfold has_key. cbn [snd]. destruct (cref ch) as [[|[[p|[p|p|]|]|p|]]|]; cbn [N.eqb Pos.eqb]; try (injection E as <-; reflexivity).
  destruct (cdata ch) as [d|]; [|discriminate]. cbn [unwrap bind] in E. destruct (decompile_calculation d) as [c| |] eqn:C; try discriminate. eauto.
Qed.

Lemma key_path k p ch : has_key k (p, ch) = has_key k ([], ch).
Proof. reflexivity. Qed.

Lemma script_arm_inv x ch s s' : arm_script x ch s = Ok s' ->
  if negb (moves_path ([], ch)) && (segment_4 ([], ch) || has_key 4 ([], ch)) then
    exists d, cdata ch = Some d /\
      steps_loop (chunks 28 d) 21 x (if segment_4 ([], ch) then fun steps st => vec_insert steps (step_index st) st else fun steps st => Ok (steps ++ [st])) s = Ok s'
  else s' = s.
Proof.
  unfold arm_script, moves_path, segment_4, has_key. cbn [snd]. intros H.
  assert (SG : match csegment ch with Some 4 => true | _ => false end = match csegment ch with Some n => n =? 4 | None => false end)
    by (destruct (csegment ch) as [[|[p|[p|[p|p|]|]|]]|]; reflexivity).
  assert (B : (if match csegment ch with Some n => n =? 4 | None => false end
    then d <- unwrap (cdata ch) ;; steps_loop (chunks 28 d) 21 x (fun steps st => vec_insert steps (step_index st) st) s
    else match cref ch with Some 4 => d <- unwrap (cdata ch) ;; steps_loop (chunks 28 d) 21 x (fun steps st => Ok (steps ++ [st])) s | _ => Ok s end) = Ok s' ->
    if match csegment ch with Some n => n =? 4 | None => false end || match cref ch with Some k' => k' =? 4 | None => false end then
    exists d, cdata ch = Some d /\ steps_loop (chunks 28 d) 21 x
      (if match csegment ch with Some n => n =? 4 | None => false end then fun steps st => vec_insert steps (step_index st) st else fun steps st => Ok (steps ++ [st])) s = Ok s'
    else s' = s).
  { destruct (match csegment ch with Some n => n =? 4 | None => false end); cbn [orb].
    - destruct (cdata ch) as [d|]; [|discriminate]. cbn [unwrap bind]. eauto.
    - destruct (cref ch) as [[|[p|[p|[p|p|]|]|]]|]; cbn [N.eqb Pos.eqb]; try (intros [= <-]; reflexivity).
      destruct (cdata ch) as [d|]; [|discriminate]. cbn [unwrap bind]. eauto. }
  rewrite SG in H. destruct (ctype ch); cbn [negb andb]; try (injection H as <-; reflexivity); exact (B H).
Qed.

Lemma record_step path ch s s' k : dispatch path ch s = Ok s' -> contributes (names_of (nam s)) k (path, ch) (stp s k) (stp s' k).
Proof.
  intros D. destruct (step_place_of path) as [x|x i|x i|x i|x|] eqn:P.
  6: { rewrite (other_same _ _ _ _ P D k). apply contributes_other. left. exact P. }
  all: rewrite <- dispatch_step, P in D; cbn [step_arm] in D.
  - assert (E : nam s' = nam s) by (revert D; assert (K : keeps nam s (arm_segment x ch s)); [unfold arm_segment; kp|exact (K s')]).
    rewrite (same_nam _ _ E k). apply contributes_other. right. exists x. exact P.
  - rewrite value_arm_eq in D. unfold contributes, step_here. cbn [fst]. rewrite P, key_path.
    eapply param_step with (b := has_key 5 ([], ch)); [destruct (has_key 5 ([], ch)); [exact D|now injection D]|].
    cbv beta. intros st st' I. unfold adds_value. destruct (instr_eqb (opcode st) ISetVariable).
    + intros [= <-]. exists [text_of ([], ch)]. split; [reflexivity|now apply add_switch_is].
    + destruct (instr_eqb (opcode st) IExitScript).
      * destruct (cdata ch) as [d|] eqn:C; [|discriminate]. cbn [unwrap bind]. destruct (decompile_calculation d) as [c| |] eqn:Q; try discriminate.
        cbn [bind]. intros [= <-]. exists [c]. split; [exists d, c; repeat split; auto; now apply calc_exact|now apply add_switch_is].
      * intros [= <-]. exists []. split; [reflexivity|now apply same_is].
  - rewrite name_arm_eq in D. unfold contributes, step_here. cbn [fst]. rewrite P, key_path.
    eapply param_step with (b := has_key 1 ([], ch)); [destruct (has_key 1 ([], ch)); [exact D|now injection D]|].
    cbv beta. intros st st' I. unfold adds_name. destruct (instr_eqb (opcode st) ISetVariable).
    + intros [= <-]. exists [text_of ([], ch)]. split; [reflexivity|now apply add_switch_is].
    + intros [= <-]. exists []. split; [reflexivity|now apply same_is].
  - apply calc_arm_inv in D. unfold contributes, step_here. cbn [fst]. rewrite P, key_path. destruct (has_key 5 ([], ch)).
    + destruct D as (d & c & C & Q & D).
      apply (param_step s s' x i k _ (fun _ => adds_calc (path, ch)) true D). cbv beta. intros st st' I [= <-].
      exists [c]. split; [exists d, c; repeat split; auto; now apply calc_exact|now apply add_switch_is].
    + subst s'. rewrite andb_false_r. reflexivity.
  - apply script_arm_inv in D. unfold contributes, step_here. cbn [fst]. rewrite P, key_path. rewrite <- andb_assoc.
    change (moves_path (path, ch)) with (moves_path ([], ch)). change (segment_4 (path, ch)) with (segment_4 ([], ch)).
    destruct (negb (moves_path ([], ch)) && (segment_4 ([], ch) || has_key 4 ([], ch))).
    + destruct D as (d & C & D). rewrite andb_true_r. apply steps_loop_inv in D as (sts & L & A & O & _).
      destruct (N.eqb_spec x k) as [<-|K]; [|apply O; auto]. exists d, sts. split; [exact C|]. split; [now apply code_steps|].
      destruct (segment_4 ([], ch)); [now apply put_insert|now apply put_append].
    + subst s'. rewrite andb_false_r. reflexivity.
Qed.
