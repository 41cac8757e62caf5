(** The effect of one step. *)
From Coq Require Import Ascii String NArith List Bool Sorted Lia Arith.
From Verif Require Import Prelude PreludeFacts StrOrder StrOrderFacts InstrModel ComponentModel CalcModel CalcSpec CalcFacts DbModel DbSpec DbFacts DbProofs
  EvalModel EvalSpec EvalProofs EvalCycle EvalFuel VmModel VmSpec VmParts.
Import ListNotations.
Local Open Scope N_scope.

(** ** Texts *)
Lemma strip_quotes v name : bind (unwrap (strip_prefix v)) (fun v => unwrap (strip_suffix v)) = Ok name <-> v = in_quotes name.
Proof.
  unfold in_quotes. split.
  - intros H. apply bind_ok in H as (w & H1 & H2). destruct v as [|c v]; [discriminate|]. cbn [strip_prefix] in H1.
    destruct (N.eqb_spec c 34); [|discriminate]. inversion H1; subst. f_equal. unfold strip_suffix in H2. destruct w as [|x w]; [discriminate|].
    destruct (N.eqb_spec (last (x :: w) 0) 34); [|discriminate]. cbn [unwrap] in H2. inversion H2.
    rewrite (app_removelast_last (l := x :: w) 0) at 1 by discriminate. congruence.
  - intros ->. cbn [strip_prefix]. change (34 =? 34) with true. cbn [unwrap bind]. unfold strip_suffix.
    destruct (name ++ [34]) as [|x l] eqn:El; [destruct name; discriminate|]. rewrite <- El, last_last, removelast_last. reflexivity.
Qed.
Lemma strip_quotes' v name : bind (unwrap (strip_suffix v)) (fun v => unwrap (strip_prefix v)) = Ok name <-> v = in_quotes name.
Proof.
  unfold in_quotes. split.
  - intros H. apply bind_ok in H as (w & H1 & H2). unfold strip_suffix in H1. destruct v as [|x v]; [discriminate|].
    destruct (N.eqb_spec (last (x :: v) 0) 34) as [L|]; [|discriminate]. cbn [unwrap] in H1. assert (K : removelast (x :: v) = w) by congruence. clear H1.
    pose proof (app_removelast_last (l := x :: v) 0 ltac:(discriminate)) as R. rewrite K, L in R.
    destruct w as [|c w]; [discriminate|]. cbn [strip_prefix] in H2. destruct (N.eqb_spec c 34); [|discriminate]. inversion H2; subst. now rewrite R.
  - intros ->. unfold strip_suffix. change (34 :: name ++ [34]) with ((34 :: name) ++ [34]). rewrite last_last, removelast_last. reflexivity.
Qed.

Lemma usize_spec s n : parse_usize s = Some n <-> unsigned s n.
Proof. unfold parse_usize, unsigned. apply parse_unsigned_spec. Qed.

Lemma move_spec d v d' : move_record d v = Ok d' <-> moves d v d'.
Proof.
  unfold move_record. split.
  - intros H. destruct (parse_usize v) as [n|] eqn:P; [apply usize_spec in P; eapply MvNumber; eauto|].
    assert (NU : forall n, ~ unsigned v n) by (intros n K; apply usize_spec in K; congruence).
    destruct (str_eqb_spec v (34 :: lit "previous" ++ [34])); [subst; now apply MvPrevious|].
    destruct (str_eqb_spec v (34 :: lit "next" ++ [34])); [subst; now apply MvNext|].
    destruct (str_eqb_spec v (34 :: lit "first" ++ [34])); [subst; now apply MvFirst|].
    destruct (str_eqb_spec v (34 :: lit "last" ++ [34])); [subst; now apply MvLast|].
    inversion H; subst. apply MvOther; auto. cbn [map In]. unfold in_quotes. intuition congruence.
  - assert (Q : forall w, parse_usize (in_quotes w) = None).
    { intros w. reflexivity. }
    intros H. inversion H; subst.
    + apply usize_spec in H0. rewrite H0. exact H1.
    + rewrite Q. exact H0.
    + rewrite Q. exact H0.
    + rewrite Q. exact H0.
    + rewrite Q. exact H0.
    + destruct (parse_usize v) as [n|] eqn:P; [exfalso; apply (H0 n); now apply usize_spec|]. cbn [map In] in H1. unfold in_quotes in H1.
      destruct (str_eqb_spec v (34 :: lit "previous" ++ [34])); [exfalso; apply H1; subst; auto|].
      destruct (str_eqb_spec v (34 :: lit "next" ++ [34])); [exfalso; apply H1; subst; auto|].
      destruct (str_eqb_spec v (34 :: lit "first" ++ [34])); [exfalso; apply H1; subst; auto|].
      destruct (str_eqb_spec v (34 :: lit "last" ++ [34])); [exfalso; apply H1; subst; auto 10|]. reflexivity.
Qed.

(** ** The state of the runner *)
Section State.
Context (E : fenv) (file : fmpfile) (maps : layouts) (t : test).

(** The runner at step [k] of the script [name], called from [fr]. *)
Definition state (name : list N) (fr : list (list N * N)) (k : N) (m : mem) (br : bool) (lps : list N) : vm :=
  mkVm ((name, k) :: fr) (m_vars m) (Some t) lps (m_pass m) br (m_find m) (m_db m) maps (m_criteria m).

(** The script that runs. *)
Definition runs (name : list N) (fr : list (list N * N)) (code : list step) : Prop :=
  match fr with
  | [] => sc_steps (te_script t) = code
  | _ => exists sc, find_script file name = Some sc /\ sc_steps sc = code
  end.

Lemma running_state name fr code k m br lps : runs name fr code ->
  exists sc, running file (state name fr k m br lps) = Ok sc /\ sc_steps sc = code.
Proof.
  unfold runs, running, state. cbn. destruct fr as [|f fr].
  - eauto.
  - intros (sc & H & K). rewrite H. eauto.
Qed.

Lemma calc_ok s c v : calc E s c = Ok v <-> calc_gives E (view_of s) c (Ok v).
Proof.
  unfold calc. split.
  - intros H. destruct (eval_calculation E (view_of s) (S (length (held (view_of s)))) c) eqn:K; try discriminate. inversion H; subst.
    eapply calc_gives_at; [exact K|discriminate].
  - intros [_ (k & H)]. specialize (H (Nat.max k (S (length (held (view_of s))))) ltac:(lia)).
    rewrite <- (calculation_decided E (view_of s) (Nat.max k (S (length (held (view_of s)))))) by lia. now rewrite H.
Qed.
Lemma calc_state name fr k m br lps c v : calc E (state name fr k m br lps) c = Ok v <-> computes E (lenN fr + 1) m c v.
Proof.
  rewrite calc_ok. unfold computes, view_of, state. cbn [vm_db vm_vars vm_ip]. replace (lenN ((name, k) :: fr)) with (lenN fr + 1) by (unfold lenN; cbn [length]; lia).
  reflexivity.
Qed.
Lemma computes_fun n m c v w : computes E n m c v -> computes E n m c w -> v = w.
Proof. intros H K. pose proof (calc_gives_fun _ _ _ _ _ H K). congruence. Qed.

Lemma pointer_ok' d o : get_current_occurrence d = Ok o -> pointer d (to_ptr o).
Proof. unfold get_current_occurrence. rewrite at_ok. exists o. auto. Qed.
Lemma pointer_get d p : pointer d p -> exists o, get_current_occurrence d = Ok o /\ to_ptr o = p.
Proof. intros (o & H & K). exists o. split; auto. unfold get_current_occurrence. now apply at_ok. Qed.

Lemma switch0 (s : step) c cs : switches s = c :: cs -> at_ (switches s) 0 = Ok c.
Proof. intros ->. apply at_ok, nthN_0. Qed.
Lemma switch1 (s : step) c e cs : switches s = c :: e :: cs -> at_ (switches s) 1 = Ok e.
Proof. intros ->. apply at_ok. change 1 with (1 + 0). rewrite nthN_succ. apply nthN_0. Qed.
Lemma switch0_inv (s : step) c : at_ (switches s) 0 = Ok c -> exists cs, switches s = c :: cs.
Proof. rewrite at_ok. destruct (switches s) as [|x l]; [discriminate|]. rewrite nthN_0. intros H. inversion H. eauto. Qed.
Lemma switch1_inv (s : step) c e : at_ (switches s) 0 = Ok c -> at_ (switches s) 1 = Ok e -> exists cs, switches s = c :: e :: cs.
Proof.
  intros H0 H1. apply switch0_inv in H0 as (cs & H0). rewrite H0 in *. apply at_ok in H1. change 1 with (1 + 0) in H1. rewrite nthN_succ in H1.
  destruct cs as [|x l]; [discriminate|]. rewrite nthN_0 in H1. inversion H1. eauto.
Qed.

Lemma app_inv_length {A} : forall (a b c d : list A), a ++ b = c ++ d -> length a = length c -> a = c /\ b = d.
Proof.
  induction a as [|x a IH]; intros b c d H L; destruct c as [|y c]; try discriminate; auto. cbn in *. inversion H; subst. inversion L.
  destruct (IH b c d); auto. now subst.
Qed.
Lemma update_split {A} (l : list A) i x (f : A) : nthN l i = Some x ->
  exists before after, l = before ++ x :: after /\ lenN before = i /\ updateN l i (fun _ => f) = before ++ f :: after.
Proof.
  intros H. pose proof (nthN_lt _ _ _ H) as Hl. apply N.ltb_lt in Hl. apply nthN_Some in H. unfold updateN. rewrite Hl. assert (G : forall l n, nth_error l n = Some x ->
    exists before after, l = before ++ x :: after /\ length before = n /\ update_nat l n (fun _ => f) = before ++ f :: after).
  { clear. induction l as [|y l IH]; intros n H; [destruct n; discriminate|]. destruct n as [|n]; cbn in H.
    - inversion H; subst. exists [], l. auto.
    - destruct (IH _ H) as (b & a & -> & H2 & H3). exists (y :: b), a. cbn. rewrite H3. repeat split. cbn. lia. }
  destruct (G _ _ H) as (b & a & H1 & H2 & H3). exists b, a. split; auto. split; [unfold lenN; lia|auto].
Qed.

Lemma does_idle n s m m' : idle (opcode s) -> (does E maps n s m m' <-> m' = m).
Proof.
  intros Hi. split; [|intros ->; now apply DoNothing]. intros H. destruct H as [? ? ? ? O|? ? ? O|? ? ? O|? ? O|O|? ? O|? O|? ? ? ? ? ? ? O|? ? ? ? ? ? ? O|? ? ? ? O|? O|? ? ? O|? ? ? O|? ? O|O]; auto;
    exfalso; apply Hi; rewrite O; cbn; tauto.
Qed.

(** Only one rule applies to each opcode. *)
Ltac single H O := inversion H; try congruence; subst; try (match goal with I : idle _ |- _ => exfalso; rewrite O in I; apply I; cbn; tauto end).

Lemma step_simple name fr code k m br lps s s' : runs name fr code -> nthN code k = Some s -> simple s ->
  (vm_step E file (state name fr k m br lps) = Ok s' <->
   exists m', does E maps (lenN fr + 1) s m m' /\ s' = state name fr (k + 1) m' br lps).
Proof.
  intros R Hk Hs. destruct (running_state name fr code k m br lps R) as (sc & Rs & Rc).
  unfold vm_step. change (vm_test (state name fr k m br lps)) with (Some t). cbn [unwrap bind]. rewrite Rs. cbn [bind]. rewrite Rc.
  change (here (state name fr k m br lps)) with k. rewrite Hk. unfold simple in Hs.
  assert (ADV : forall m', advance (state name fr k m' br lps) = state name fr (k + 1) m' br lps) by reflexivity.
  assert (IDLE : idle (opcode s) -> (Ok (advance (state name fr k m br lps)) = Ok s' <->
    exists m', does E maps (lenN fr + 1) s m m' /\ s' = state name fr (k + 1) m' br lps)).
  { intros I. rewrite ADV. split; [intros K; exists m; split; [now apply does_idle|congruence]|]. intros (m' & K & ->).
    apply does_idle in K; auto. now subst. }
  destruct (opcode s) eqn:O; try (now elim Hs); try (apply IDLE; unfold idle; cbn; intuition discriminate); clear IDLE.
  - (* layout *)
    split.
    + intros H. apply bind_ok in H as (c & H1 & H). apply bind_ok in H as (v & H2 & H). apply switch0_inv in H1 as (cs & H1). apply calc_state in H2.
      assert (Q : exists nm, v = in_quotes nm /\ s' = advance (match layout_lookup maps nm with
               | Some o => with_db (state name fr k m br lps) (set_current_occurrence (m_db m) (as_u16 o)) | None => state name fr k m br lps end)).
      { apply bind_ok in H as (w & H3 & H). apply bind_ok in H as (nm & H4 & H). exists nm. split; [|inversion H; reflexivity].
        apply strip_quotes. rewrite H3. exact H4. }
      destruct Q as (nm & -> & ->). destruct (layout_lookup maps nm) eqn:L.
      * eexists. split; [eapply DoLayout; eauto|reflexivity].
      * exists m. split; [eapply DoNoLayout; eauto|reflexivity].
    + intros (m' & H & ->). 
      assert (Q : exists c cs nm, switches s = c :: cs /\ computes E (lenN fr + 1) m c (in_quotes nm) /\
        m' = match layout_lookup maps nm with Some o => set_db m (set_current_occurrence (m_db m) (as_u16 o)) | None => m end).
      { inversion H; try congruence; subst; try (exists c, cs, name0; unfold layout_lookup; rewrite H3; auto).
        unfold idle in H0. rewrite O in H0. exfalso. apply H0. cbn. tauto. }
      destruct Q as (c & cs & nm & H1 & H2 & ->). rewrite (switch0 _ _ _ H1). cbn [bind]. rewrite (proj2 (calc_state _ _ _ _ _ _ _ _) H2). cbn [bind].
      pose proof (proj2 (strip_quotes (in_quotes nm) nm) eq_refl) as Q. apply bind_ok in Q as (w & Q1 & Q2). rewrite Q1. cbn [bind]. rewrite Q2. cbn [bind].
      change (vm_layouts (state name fr k m br lps)) with maps. destruct (layout_lookup maps nm); reflexivity.
  - (* new record *)
    split.
    + intros H. apply bind_ok in H as (d & H1 & H). exists (set_db m d). split; [now apply DoNew|]. inversion H. reflexivity.
    + intros (m' & H & ->). single H O. change (create_record (m_db m) = Ok d) in H1. change (vm_db (state name fr k m br lps)) with (m_db m). rewrite H1. reflexivity.
  - (* go to record *)
    destruct (switches s) as [|c [|e l]] eqn:Hsw; [| |cbn in Hs; lia].
    + split; [discriminate|]. intros (m' & H & _). single H O.
    + change (nthN [c] 1) with (@None (list N)). split.
      * intros H. apply bind_ok in H as (c' & H1 & H). apply at_ok in H1. rewrite nthN_0 in H1. inversion H1; subst c'. clear H1.
        apply bind_ok in H as (v & H2 & H). apply calc_state in H2. cbn [bind] in H. change (vm_find (state name fr k m br lps)) with (m_find m) in H.
        change (vm_db (state name fr k m br lps)) with (m_db m) in H. destruct (m_find m) eqn:F.
        -- exists m. split; [eapply DoMoveFind; eauto|]. inversion H. reflexivity.
        -- apply bind_ok in H as (o & H3 & H). apply bind_ok in H as (d & H4 & H). apply move_spec in H4. exists (set_db m d).
           split; [eapply DoMove; eauto; eexists; eapply pointer_ok'; eauto|]. inversion H. reflexivity.
      * intros (m' & H & ->). change (at_ [c] 0) with (Ok c). cbn [bind]. change (vm_find (state name fr k m br lps)) with (m_find m).
        change (vm_db (state name fr k m br lps)) with (m_db m). single H O.
        -- assert (c0 = c) by congruence. subst c0.
           rewrite (proj2 (calc_state _ _ _ _ _ _ _ _) H2). cbn [bind]. rewrite H3. destruct H4 as (q & H4). apply pointer_get in H4 as (o & H4 & _). rewrite H4. cbn [bind].
           rewrite (proj2 (move_spec _ _ _) H5). reflexivity.
        -- assert (c0 = c) by congruence. subst c0.
           rewrite (proj2 (calc_state _ _ _ _ _ _ _ _) H2). cbn [bind]. rewrite H3. reflexivity.
  - (* enter find mode *)
    split.
    + intros H. eexists. split; [now apply DoEnterFind|]. inversion H. reflexivity.
    + intros (m' & H & ->). single H O. reflexivity.
  - (* show all *)
    split.
    + intros H. apply bind_ok in H as (d & H1 & H). exists (set_db m d). split; [now apply DoShowAll|]. inversion H. reflexivity.
    + intros (m' & H & ->). single H O. change (reset_found_set (m_db m) = Ok d) in H1. change (vm_db (state name fr k m br lps)) with (m_db m). rewrite H1. reflexivity.
  - (* perform find *)
    split.
    + intros H. apply bind_ok in H as (ids & H1 & H). apply bind_ok in H as (d & H2 & H). apply finds_found in H1.
      eexists. split; [eapply DoFind; eauto|]. inversion H. reflexivity.
    + intros (m' & H & ->). single H O. apply finds_total in H1 as (ids & H1 & <-). change (update_found_set (m_db m) (sort_numbers ids) = Ok d) in H2.
      change (vm_db (state name fr k m br lps)) with (m_db m). change (vm_criteria (state name fr k m br lps)) with (m_criteria m).
      rewrite H1. cbn [bind]. rewrite H2. reflexivity.
  - (* set field *)
    change (vm_find (state name fr k m br lps)) with (m_find m). change (vm_db (state name fr k m br lps)) with (m_db m). split.
    + intros H. apply bind_ok in H as (nm & H1 & H). apply bind_ok in H as (c & H2 & H). apply bind_ok in H as (v & H3 & H).
      destruct (switch1_inv _ _ _ H1 H2) as (cs & Hsw). apply calc_state in H3. destruct (m_find m) eqn:F.
      * eexists. split; [eapply DoCriterion; eauto|]. inversion H. reflexivity.
      * apply bind_ok in H as (p0 & P0 & H). apply bind_ok in H as (p1 & P1 & H). apply bind_ok in H as (r & Hr & H). apply at_ok in P0. apply at_ok in P1.
        apply first_part_spec in P0. apply second_part_spec in P1. destruct r as [p|]; [|discriminate]. apply bind_ok in H as (d & Hd & H).
        exists (set_db m d). split; [|inversion H; reflexivity]. eapply DoField; eauto. cbn [apply_op]. rewrite Hr. exact Hd.
    + intros (m' & H & ->). single H O.
      * rewrite (switch0 _ _ _ H1), (switch1 _ _ _ _ H1). cbn [bind]. rewrite (proj2 (calc_state _ _ _ _ _ _ _ _) H2). cbn [bind]. rewrite H3.
        rewrite (proj2 (at_ok _ _ _) (proj2 (first_part_spec _ _) H4)), (proj2 (at_ok _ _ _) (proj2 (second_part_spec _ _) H5)). cbn [bind].
        cbn [apply_op] in H6. apply bind_ok in H6 as (r & Hr & H6). rewrite Hr. cbn [bind]. destruct r as [p|]; [|discriminate]. cbn [write_at] in H6.
        rewrite H6. reflexivity.
      * rewrite (switch0 _ _ _ H1), (switch1 _ _ _ _ H1). cbn [bind]. rewrite (proj2 (calc_state _ _ _ _ _ _ _ _) H2). cbn [bind]. rewrite H3. unfold advance, jump, with_criteria, with_ip, state. cbn. now rewrite H3.
  - (* dialog *)
    split.
    + intros H. apply bind_ok in H as (c & H1 & H). apply bind_ok in H as (v & H2 & H). apply switch0_inv in H1 as (cs & H1). apply calc_state in H2.
      exists m. split; [eapply DoDialog; eauto|]. inversion H. reflexivity.
    + intros (m' & H & ->). single H O. rewrite (switch0 _ _ _ H1). cbn [bind]. rewrite (proj2 (calc_state _ _ _ _ _ _ _ _) H2). reflexivity.
  - (* set variable *)
    change (vm_vars (state name fr k m br lps)) with (m_vars m).
    change (vm_ip (state name fr k m br lps)) with ((name, k) :: fr).
    replace (lenN ((name, k) :: fr) - 1) with (lenN fr) by (unfold lenN; cbn [length]; lia). split.
    + intros H. apply bind_ok in H as (nm & H1 & H). apply bind_ok in H as (c & H2 & H). apply bind_ok in H as (v & H3 & H). apply bind_ok in H as (sp & H4 & H).
      destruct (switch1_inv _ _ _ H1 H2) as (cs & Hsw). apply calc_state in H3. apply at_ok in H4.
      destruct (@update_split scope _ _ _ (sset sp nm v) H4) as (b & a & Hb & Hl & Hu). eexists. split; [eapply (DoVariable _ _ _ _ _ nm c cs v b sp a); auto; refine (eq_trans Hl _); clear; lia|].
      rewrite Hu in H. inversion H. reflexivity.
    + intros (m' & H & ->). single H O.
      rewrite (switch0 _ _ _ H1), (switch1 _ _ _ _ H1). cbn [bind]. rewrite (proj2 (calc_state _ _ _ _ _ _ _ _) H2). cbn [bind]. rewrite H3.
      replace (lenN fr) with (lenN before) by lia. rewrite (proj2 (at_ok _ _ _) (nthN_app_len before after sc0)). cbn [bind].
      destruct (@update_split scope (before ++ sc0 :: after) (lenN before) sc0 (sset sc0 name0 v) (nthN_app_len _ _ _)) as (b & a & Hb & Hl & Hu).
      rewrite Hu. apply app_inv_length in Hb as [-> Hb]; [|unfold lenN in Hl; lia]. inversion Hb. reflexivity.
  - (* assert *)
    split.
    + intros H. apply bind_ok in H as (c & H1 & H). apply bind_ok in H as (v & H2 & H). apply switch0_inv in H1 as (cs & H1). apply calc_state in H2.
      destruct (str_eqb_spec v (lit "false")).
      * subst. eexists. split; [eapply DoAssertFails; eauto|]. inversion H. reflexivity.
      * exists m. split; [eapply DoAssert; eauto|]. inversion H. reflexivity.
    + intros (m' & H & ->). single H O; rewrite (switch0 _ _ _ H1); cbn [bind]; rewrite (proj2 (calc_state _ _ _ _ _ _ _ _) H2); cbn [bind].
      * destruct (str_eqb_spec v (lit "false")); [contradiction|]. reflexivity.
      * rewrite str_eqb_refl. reflexivity.
Qed.

End State.
