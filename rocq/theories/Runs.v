(** How the run of a list of tests ends. *)
From Coq Require Import Ascii String NArith List Bool Lia Arith.
From Verif Require Import Prelude PreludeFacts InstrModel ComponentModel CalcModel DbModel EvalModel VmModel VmSpec VmTestSpec VmParts VmSteps VmRun VmBack VmFlat VmTextSpec VmText RunsSpec.
Import ListNotations.
Local Open Scope N_scope.

Lemma load_begun s t : load_test s t = begun s t.
Proof. reflexivity. Qed.

(** ** No step runs out of fuel *)
Lemma bind_fuel {A B} (x : outcome A) (g : A -> outcome B) : x <> NoFuel -> (forall a, x = Ok a -> g a <> NoFuel) -> bind x g <> NoFuel.
Proof. intros H K. destruct x; cbn; auto; discriminate. Qed.
Lemma unwrap_fuel {A} (o : option A) : unwrap o <> NoFuel.
Proof. destruct o; discriminate. Qed.
Lemma at_fuel {A} (l : list A) i : at_ l i <> NoFuel.
Proof. apply unwrap_fuel. Qed.
Lemma subU_fuel a b : subU a b <> NoFuel.
Proof. unfold subU. destruct (b <=? a); discriminate. Qed.
Lemma past_fuel : forall l i, past_end_loop l i <> NoFuel.
Proof. induction l as [|x l IH]; intros i; cbn [past_end_loop]; [discriminate|]. destruct (opcode x); try apply IH; discriminate. Qed.

#[local] Hint Resolve unwrap_fuel at_fuel subU_fuel past_fuel : fuel.
Ltac fuel := repeat first
  [ solve [auto with fuel] | discriminate
  | apply bind_fuel; [|intros ? _]
  | match goal with |- (match ?x with _ => _ end) <> _ => destruct x end
  | match goal with |- (if ?x then _ else _) <> _ => destruct x end ].

Lemma modify_fuel d g : (forall o, g o <> NoFuel) -> modify_current d g <> NoFuel.
Proof. intros H. unfold modify_current, get_current_occurrence. fuel. Qed.
#[local] Hint Resolve modify_fuel : fuel.
Lemma get_records_fuel t : get_records_n t <> NoFuel. Proof. unfold get_records_n. fuel. Qed.
Lemma occurrence_index_fuel d n : occurrence_index d n <> NoFuel. Proof. unfold occurrence_index. fuel. Qed.
Lemma current_table_fuel d : get_current_table d <> NoFuel. Proof. unfold get_current_table, get_current_occurrence. fuel. Qed.
#[local] Hint Resolve get_records_fuel occurrence_index_fuel current_table_fuel : fuel.
Lemma get_occ_fuel d n : get_occurrence_by_name d n <> NoFuel. Proof. unfold get_occurrence_by_name. fuel. Qed.
Lemma current_occ_fuel d : get_current_occurrence d <> NoFuel. Proof. unfold get_current_occurrence. fuel. Qed.
Lemma first_index_fuel fs f : first_index fs f <> NoFuel. Proof. unfold first_index. fuel. Qed.
Lemma first_named_fuel fs f : first_named fs f <> NoFuel. Proof. unfold first_named. fuel. Qed.
#[local] Hint Resolve get_occ_fuel current_occ_fuel first_index_fuel first_named_fuel : fuel.
Lemma current_place_fuel d o f : current_place d o f <> NoFuel. Proof. unfold current_place. fuel. Qed.
Lemma read_place_fuel d p : read_place d p <> NoFuel. Proof. unfold read_place. fuel. Qed.
Lemma write_place_fuel d p v : write_place d p v <> NoFuel. Proof. unfold write_place. fuel. Qed.
Lemma create_fuel d : create_record d <> NoFuel. Proof. unfold create_record. fuel. Qed.
Lemma reset_fuel d : reset_found_set d <> NoFuel. Proof. unfold reset_found_set. fuel. Qed.
Lemma update_fuel d l : update_found_set d l <> NoFuel. Proof. unfold update_found_set. fuel. Qed.
Lemma vals_fuel d f : get_field_vals_for_current_table d f <> NoFuel. Proof. unfold get_field_vals_for_current_table, get_records_for_current_table. fuel. Qed.
#[local] Hint Resolve current_place_fuel read_place_fuel write_place_fuel create_fuel reset_fuel update_fuel vals_fuel : fuel.
Lemma move_fuel d v : move_record d v <> NoFuel.
Proof. unfold move_record, goto_record, goto_previous_record, goto_next_record, goto_first_record, goto_last_record. fuel; apply modify_fuel; intros o; fuel. Qed.
Lemma matching_fuel d c : matching d c <> NoFuel. Proof. unfold matching. fuel. Qed.
#[local] Hint Resolve move_fuel matching_fuel : fuel.
Lemma matching_any_fuel d : forall cs, matching_any d cs <> NoFuel. Proof. induction cs as [|c cs IH]; cbn [matching_any]; fuel. Qed.
#[local] Hint Resolve matching_any_fuel : fuel.

Section Runs.
Context (E : fenv) (file : fmpfile).

Lemma calc_fuel s a : calc E s a <> NoFuel.
Proof. unfold calc. destruct (eval_calculation E _ _ a); discriminate. Qed.
#[local] Hint Resolve calc_fuel : fuel.
Lemma mut_fuel d a b : get_current_record_by_table_field_mut d a b <> NoFuel.
Proof. unfold get_current_record_by_table_field_mut. fuel. Qed.
Lemma running_fuel s : running file s <> NoFuel.
Proof. unfold running. fuel. Qed.
#[local] Hint Resolve mut_fuel running_fuel : fuel.
Lemma step_fuel s : vm_step E file s <> NoFuel.
Proof. unfold vm_step. cbv zeta. fuel. Qed.

Lemma step_stuck s : vm_step E file s = Panic <-> forall s', ~ moves_to E file s s'.
Proof.
  split.
  - intros H s' M. apply step_exact in M. congruence.
  - intros H. destruct (vm_step E file s) as [s'| |] eqn:Q; [|reflexivity|now elim (step_fuel s)]. elim (H s'). now apply step_exact.
Qed.
Lemma under_way_dec s : under_way s \/ ~ under_way s.
Proof. unfold under_way. destruct (vm_pass s), (vm_ip s); try (right; intros [? ?]; congruence). left. split; congruence. Qed.
Lemma run_under_way fuel s : under_way s -> run_test E file fuel s = match fuel with O => NoFuel | S fuel => s <- vm_step E file s ;; run_test E file fuel s end.
Proof. intros [P I]. destruct fuel; cbn [run_test]; rewrite P; destruct (vm_ip s); congruence. Qed.
Lemma run_not_under_way fuel s : ~ under_way s -> run_test E file fuel s = Ok s.
Proof. intros H. unfold under_way in H. destruct fuel; cbn [run_test]; destruct (vm_pass s), (vm_ip s); try reflexivity; elim H; split; congruence. Qed.

Lemma comes_trans n m s s1 s2 : comes_to E file n s s1 -> comes_to E file m s1 s2 -> comes_to E file (n + m) s s2.
Proof. induction 1 as [s|n s s0 s1 U M C IH]; intros K; [exact K|]. cbn [plus]. econstructor; eauto. Qed.

Theorem run_panic s : (exists fuel, run_test E file fuel s = Panic) <-> gets_stuck E file s.
Proof.
  split.
  - intros (fuel & H). revert s H. induction fuel as [|fuel IH]; intros s H; destruct (under_way_dec s) as [U|U];
      [rewrite run_under_way in H by auto|rewrite run_not_under_way in H by auto|rewrite run_under_way in H by auto|rewrite run_not_under_way in H by auto]; try discriminate.
    destruct (vm_step E file s) as [s1| |] eqn:Q; cbn [bind] in H; try discriminate.
    + destruct (IH s1 H) as (n & s' & C & U' & K). apply step_exact in Q. exists (S n), s'. split; [econstructor; eauto|auto].
    + exists O, s. split; [constructor|]. split; [exact U|]. now apply step_stuck.
  - intros (n & s' & C & U & K). exists (S n). induction C as [s|n s s1 s' U1 M C IH].
    + rewrite run_under_way by auto. apply step_stuck in K. now rewrite K.
    + rewrite run_under_way by auto. apply step_exact in M. rewrite M. cbn [bind]. auto.
Qed.

Theorem run_forever s : (forall fuel, run_test E file fuel s = NoFuel) <-> goes_on_forever E file s.
Proof.
  split.
  - intros H n. revert s H. induction n as [|n IH]; intros s H.
    + exists s. split; [constructor|]. destruct (under_way_dec s) as [U|U]; auto. specialize (H O). rewrite run_not_under_way in H by auto. discriminate.
    + destruct (under_way_dec s) as [U|U]; [|specialize (H O); rewrite run_not_under_way in H by auto; discriminate].
      destruct (vm_step E file s) as [s1| |] eqn:Q.
      * destruct (IH s1) as (s' & C & U').
        { intros fuel. specialize (H (S fuel)). rewrite run_under_way in H by auto. now rewrite Q in H. }
        exists s'. split; [|exact U']. econstructor; eauto. now apply step_exact.
      * specialize (H 1%nat). rewrite run_under_way, Q in H by auto. discriminate.
      * now elim (step_fuel s).
  - intros H fuel. destruct (H fuel) as (s' & C & U). clear H. induction C as [s|n s s1 s' U1 M C IH].
    + now rewrite run_under_way by auto.
    + rewrite run_under_way by auto. apply step_exact in M. rewrite M. cbn [bind]. auto.
Qed.

Lemma panic_more : forall f s, run_test E file f s = Panic -> forall g, (f <= g)%nat -> run_test E file g s = Panic.
Proof.
  induction f as [|f IH]; intros s H g L; destruct (under_way_dec s) as [U|U];
    [rewrite run_under_way in H by auto|rewrite run_not_under_way in H by auto|rewrite run_under_way in H by auto|rewrite run_not_under_way in H by auto]; try discriminate.
  destruct g as [|g]; [lia|]. rewrite run_under_way by auto. destruct (vm_step E file s); cbn [bind] in *; try discriminate; auto. apply IH; auto. lia.
Qed.

Lemma loop_more : forall ts f s r, run_tests_loop E file f ts s = r -> r <> NoFuel -> forall g, (f <= g)%nat -> run_tests_loop E file g ts s = r.
Proof.
  induction ts as [|t ts IH]; intros f s r H K g L; [exact H|]. cbn [run_tests_loop] in *.
  destruct (run_test E file f (load_test s t)) as [s1| |] eqn:Q; cbn [bind] in H.
  - rewrite (run_more E file f _ _ Q g L). cbn [bind]. destruct (run_tests_loop E file f ts s1) as [[rs s2]| |] eqn:Q2; cbn [bind] in H; subst r; try now elim K.
    + now rewrite (IH f s1 _ Q2 ltac:(discriminate) g L).
    + now rewrite (IH f s1 _ Q2 ltac:(discriminate) g L).
  - now rewrite (panic_more f _ Q g L).
  - now subst r.
Qed.

Lemma reports_loop fuel : forall ts s rs s', run_tests_loop E file fuel ts s = Ok (rs, s') -> reported E file ts s rs s'.
Proof.
  induction ts as [|t ts IH]; intros s rs s' H; cbn [run_tests_loop] in H.
  - inversion H; subst. constructor.
  - apply bind_ok in H as (s1 & H1 & H). apply bind_ok in H as ([rs1 s2] & H2 & H). inversion H; subst. rewrite load_begun in H1.
    econstructor; [apply run_exact; eauto|eauto].
Qed.
Lemma reports_exact ts s rs s' : (exists fuel, run_tests_loop E file fuel ts s = Ok (rs, s')) <-> reported E file ts s rs s'.
Proof.
  split; [intros (fuel & H); eapply reports_loop; eauto|]. induction 1 as [s|t ts s s1 rs s' R P (g & IH)]; [exists O; reflexivity|].
  apply run_exact in R as (f & R). exists (f + g)%nat. cbn [run_tests_loop]. rewrite load_begun, (run_more E file f _ _ R) by lia. cbn [bind].
  rewrite (loop_more ts g s1 _ IH) by (try discriminate; lia). reflexivity.
Qed.
Lemma breaks_loop fuel : forall ts s, run_tests_loop E file fuel ts s = Panic -> breaks_off E file ts s.
Proof.
  induction ts as [|t ts IH]; intros s H; cbn [run_tests_loop] in H; [discriminate|]. rewrite load_begun in H.
  destruct (run_test E file fuel (begun s t)) as [s1| |] eqn:Q; cbn [bind] in H; try discriminate.
  - destruct (run_tests_loop E file fuel ts s1) as [[rs s2]| |] eqn:Q2; try discriminate. destruct (IH s1 Q2) as (b & u & a & rs & s2 & -> & R & K).
    exists (t :: b), u, a, ((te_name t, vm_pass s1) :: rs), s2. split; [reflexivity|]. split; [|exact K]. econstructor; eauto. apply run_exact. eauto.
  - exists [], t, ts, [], s. split; [reflexivity|]. split; [constructor|]. apply run_panic. eauto.
Qed.
Lemma breaks_exact ts s : (exists fuel, run_tests_loop E file fuel ts s = Panic) <-> breaks_off E file ts s.
Proof.
  split; [intros (fuel & H); eapply breaks_loop; eauto|]. intros (b & t & a & rs & s1 & -> & R & K). induction R as [s|u ts s s1 rs s' R P IH].
  - apply run_panic in K as (f & K). exists f. cbn [app run_tests_loop]. now rewrite load_begun, K.
  - destruct (IH K) as (g & Q). apply run_exact in R as (f & R). exists (f + g)%nat. cbn [app run_tests_loop]. rewrite load_begun, (run_more E file f _ _ R) by lia.
    cbn [bind]. now rewrite (loop_more (ts ++ t :: a) g s1 _ Q) by (try discriminate; lia).
Qed.
Lemma hangs_loop : forall ts s, hangs E file ts s -> forall fuel, run_tests_loop E file fuel ts s = NoFuel.
Proof.
  intros ts s (b & t & a & rs & s1 & -> & R & K) fuel. induction R as [s|u ts s s1 rs s' R P IH].
  - cbn [app run_tests_loop]. rewrite load_begun. now rewrite (proj2 (run_forever (begun s t)) K fuel).
  - cbn [app run_tests_loop]. rewrite load_begun. apply run_exact in R as (f & R). destruct (run_test E file fuel (begun s u)) as [s2| |] eqn:Q; cbn [bind]; auto.
    + assert (s2 = s1) as ->. { pose proof (run_more E file f _ _ R (f + fuel) ltac:(lia)). pose proof (run_more E file fuel _ _ Q (f + fuel) ltac:(lia)). congruence. }
      now rewrite (IH K).
    + pose proof (run_more E file f _ _ R (f + fuel) ltac:(lia)). pose proof (panic_more fuel _ Q (f + fuel) ltac:(lia)). congruence.
Qed.
Lemma loop_decided fuel ts s : run_tests_loop E file fuel ts s = NoFuel \/ breaks_off E file ts s \/ exists rs s', reported E file ts s rs s'.
Proof.
  destruct (run_tests_loop E file fuel ts s) as [[rs s']| |] eqn:Q; [right; right|right; left|left; reflexivity].
  - exists rs, s'. eapply reports_loop; eauto.
  - eapply breaks_loop; eauto.
Qed.
End Runs.
