(** The runner does exactly what [VmTextSpec] says. *)
From Coq Require Import Ascii String NArith List Bool Sorted Lia Arith.
From Verif Require Import Prelude PreludeFacts StrOrder StrOrderFacts InstrModel ComponentModel CalcModel CalcSpec CalcFacts DbModel DbSpec DbFacts DbProofs
  EvalModel EvalSpec EvalProofs EvalCycle EvalFuel VmModel VmSpec VmTestSpec VmParts VmSteps VmRun VmBack VmFlat VmTextSpec.
Import ListNotations.
Local Open Scope N_scope.

(** ** Searching *)
Lemma scan_some p : forall l i j, scan p l i = Some j ->
  i <= j /\ (exists s, nthN l (j - i) = Some s /\ p (opcode s) = true) /\ forall k s, i <= k < j -> nthN l (k - i) = Some s -> p (opcode s) = false.
Proof.
  induction l as [|x l IH]; intros i j H; cbn [scan] in H; [discriminate|]. destruct (p (opcode x)) eqn:P.
  - inversion H; subst. split; [lia|]. split; [exists x; split; auto; replace (j - j) with 0 by lia; apply nthN_0|]. intros; lia.
  - apply IH in H as (H1 & (s & H2 & H3) & H4). split; [lia|]. split.
    + exists s. split; auto. replace (j - i) with (1 + (j - (i + 1))) by lia. now rewrite nthN_succ.
    + intros k t Hk K. destruct (N.eq_dec k i) as [->|N].
      * replace (i - i) with 0 in K by lia. rewrite nthN_0 in K. inversion K; subst; auto.
      * apply (H4 k t); [lia|]. replace (k - i) with (1 + (k - (i + 1))) in K by lia. now rewrite nthN_succ in K.
Qed.
Lemma scan_none p : forall l i, scan p l i = None -> forall s, In s l -> p (opcode s) = false.
Proof.
  induction l as [|x l IH]; intros i H s Hi; cbn [scan] in H; [destruct Hi|]. destruct (p (opcode x)) eqn:P; [discriminate|].
  destruct Hi as [<-|Hi]; eauto.
Qed.
Lemma skipn_nth (code : list step) k i : nthN (skipn (N.to_nat k) code) i = nthN code (k + i).
Proof.
  rewrite !nthN_nth_error. replace (N.to_nat (k + i)) with (N.to_nat k + N.to_nat i)%nat by lia. generalize (N.to_nat k), (N.to_nat i). clear.
  intros n m. revert code. induction n as [|n IH]; intros [|x l]; cbn; auto. now destruct m.
Qed.
Lemma first_fun code l i j j' : first_from code l i j -> first_from code l i j' -> j = j'.
Proof.
  intros (H1 & (s & H2 & H3) & H4) (K1 & (s' & K2 & K3) & K4). destruct (N.lt_trichotomy j j') as [L|[L|L]]; auto.
  - elim (K4 j s); auto.
  - elim (H4 j' s'); auto.
Qed.
Lemma first_none code l i j : first_from code l i j -> none_from code l i -> False.
Proof. intros (H1 & (s & H2 & H3) & _) N. apply (N j s); auto. Qed.

Section Scan.
Context (p : instruction -> bool) (l : list instruction) (Hp : forall o, p o = true <-> In o l).
Lemma scan_first code k : match scan p (skipn (N.to_nat k) code) k with Some j => first_from code l k j | None => none_from code l k end.
Proof.
  destruct (scan p (skipn (N.to_nat k) code) k) as [j|] eqn:S.
  - apply scan_some in S as (H1 & (s & H2 & H3) & H4). split; auto. split.
    + exists s. rewrite skipn_nth in H2. replace (k + (j - k)) with j in H2 by lia. split; auto. now apply Hp.
    + intros i t Hi Ht Hl. apply Hp in Hl. rewrite (H4 i t) in Hl; [discriminate|lia|]. rewrite skipn_nth. now replace (k + (i - k)) with i by lia.
  - intros i s Hi Hs Hl. apply Hp in Hl. rewrite (scan_none p _ _ S s) in Hl; [discriminate|]. apply (nthN_In _ (i - k)). rewrite skipn_nth. now replace (k + (i - k)) with i by lia.
Qed.
Lemma scan_is code k j : first_from code l k j -> scan p (skipn (N.to_nat k) code) k = Some j.
Proof.
  intros F. pose proof (scan_first code k) as S. destruct (scan p _ k) as [i|].
  - f_equal. eapply first_fun; eauto.
  - exfalso. eapply first_none; eauto.
Qed.
Lemma scan_isnt code k : none_from code l k -> scan p (skipn (N.to_nat k) code) k = None.
Proof. intros F. pose proof (scan_first code k) as S. destruct (scan p _ k) as [i|]; auto. exfalso. eapply first_none; eauto. Qed.
End Scan.
Lemma clause_in o : is_clause o = true <-> In o branch_steps.
Proof. unfold branch_steps. cbn. split; [destruct o; cbn; intros; try discriminate; auto|intros [<-|[<-|[<-|[]]]]; reflexivity]. Qed.
Lemma end_in o : is_end_if o = true <-> In o [IEndIf].
Proof. cbn. split; [destruct o; cbn; intros; try discriminate; auto|intros [<-|[]]; reflexivity]. Qed.

Definition is_end_loop (o : instruction) : bool := match o with IEndLoop => true | _ => false end.
Lemma end_loop_in o : is_end_loop o = true <-> In o [IEndLoop].
Proof. cbn. split; [destruct o; cbn; intros; try discriminate; auto|intros [<-|[]]; reflexivity]. Qed.
Lemma past_scan : forall l i, past_end_loop l i = match scan is_end_loop l i with Some j => Ok (j + 1) | None => Panic end.
Proof. induction l as [|x l IH]; intros i; cbn [past_end_loop scan]; auto. destruct (opcode x); cbn [is_end_loop]; auto. Qed.
Lemma past_first code k j : past_end_loop (skipn (N.to_nat k) code) k = Ok j <-> exists i, first_from code [IEndLoop] k i /\ j = i + 1.
Proof.
  rewrite past_scan. split.
  - pose proof (scan_first is_end_loop [IEndLoop] end_loop_in code k) as S. destruct (scan _ _ k) as [i|]; [|discriminate]. intros H. inversion H. eauto.
  - intros (i & F & ->). now rewrite (scan_is is_end_loop [IEndLoop] end_loop_in code k i F).
Qed.

(** ** One step *)
Section R.
Context (E : fenv) (file : fmpfile) (maps : layouts) (t : test).
Local Notation state := (state maps t).
Local Notation runs := (runs file t).
Local Notation vm_step := (vm_step E file).
Local Notation computes := (computes E).

Ltac enter R Hk :=
  match type of R with VmSteps.runs _ _ ?name ?fr ?code =>
  match goal with |- context [VmModel.vm_step _ _ (VmSteps.state _ _ _ _ ?k ?m ?br ?lps)] =>
    destruct (running_state file maps t name fr code k m br lps R) as (scr & Rs & Rc);
    unfold VmModel.vm_step; change (vm_test (state name fr k m br lps)) with (Some t); cbn [unwrap bind]; rewrite Rs; cbn [bind]; rewrite Rc;
    change (here (state name fr k m br lps)) with k; rewrite Hk
  end end.

Lemma last_at (l : list step) z x : at_ (l ++ [z]) (lenN (l ++ [z]) - 1) = Ok x <-> x = z.
Proof.
  rewrite at_ok. replace (lenN (l ++ [z]) - 1) with (lenN l) by (rewrite lenN_app; unfold lenN; cbn; lia). rewrite nthN_app_len. split; congruence.
Qed.

Lemma control_step name fr code k m br lps cur s' : runs name fr code -> nthN code k = Some cur ->
  In (opcode cur) [ILoop; IEndLoop; IExitLoopIf; IIf; IElseIf; IElse; IEndIf; IGoToRecordRequestPage] -> ~ simple cur ->
  (vm_step (state name fr k m br lps) = Ok s' <->
   exists k' m' br' lps', control E (lenN fr + 1) code k cur m br lps k' m' br' lps' /\ s' = state name fr k' m' br' lps').
Proof.
  intros R Hk Ho Hs.
  assert (Lt : k < lenN code) by (eapply nthN_lt; eauto).
  assert (Leave : leaving cur -> (vm_step (state name fr k m br lps) = Ok s' <->
   exists k' m' br' lps', control E (lenN fr + 1) code k cur m br lps k' m' br' lps' /\ s' = state name fr k' m' br' lps')).
  { intros L. split.
    - intros H. destruct (back_leaving E file maps t name fr code k m br lps cur s' R Hk L H) as (m' & [] & Lv & Q).
      + destruct Q as (j & Q & ->). apply past_first in Q as (i & F & ->). do 4 eexists. split; [eapply CtExit; eauto|reflexivity].
      + subst. do 4 eexists. split; [eapply CtStay; eauto|reflexivity].
    - intros (k' & m' & br' & lps' & C & ->).
      destruct C; try match goal with G : opcode cur = _ |- _ => exfalso; destruct L as [L|[L _]]; congruence end;
        try match goal with G : In (opcode cur) _ |- _ => exfalso; destruct L as [L|[L _]]; rewrite L in G; cbn in G; intuition discriminate end.
      + match goal with V : leaves _ _ cur m _ _ |- _ => now rewrite (step_leaving E file maps t name fr code k m br lps cur _ _ R Hk V) end.
      + match goal with V : leaves _ _ cur m _ _ |- _ => rewrite (step_leaving E file maps t name fr code k m br lps cur _ _ R Hk V) end. rewrite (proj2 (past_first code k (j + 1))) by eauto. reflexivity. }
  assert (OneC : forall k' m' br' lps' o, opcode cur = o -> o <> IExitLoopIf -> o <> IGoToRecordRequestPage ->
    control E (lenN fr + 1) code k cur m br lps k' m' br' lps' -> ~ leaving cur) by (intros kk mm bb ll o Q Q1 Q2 Q3 [L|[L _]]; congruence).
  cbn [In] in Ho. destruct Ho as [O|[O|[O|[O|[O|[O|[O|[O|[]]]]]]]]]; symmetry in O.
  - rewrite (step_loop E file maps t name fr code k m br lps cur R Hk O). split.
    + intros H. inversion H. do 4 eexists. split; [now apply CtLoop|reflexivity].
    + intros (k' & m' & br' & lps' & C & ->). assert (NL : ~ leaving cur) by (eapply OneC; eauto; discriminate). inversion C; subst; try congruence; try contradiction; cbn [In] in *; try (exfalso; intuition congruence).
  - split.
    + intros H. destruct lps as [|l lps].
      * exfalso. revert H. enter R Hk. rewrite O. discriminate.
      * rewrite (step_end_loop E file maps t name fr code k m br l lps cur R Hk O) in H. inversion H. do 4 eexists. split; [now apply CtEndLoop|reflexivity].
    + intros (k' & m' & br' & lps' & C & ->). assert (NL : ~ leaving cur) by (eapply OneC; eauto; discriminate). inversion C; subst; try congruence; try contradiction; cbn [In] in *; try (exfalso; intuition congruence).
      now apply (step_end_loop E file maps t name fr code k _ _ _ _ cur).
  - apply Leave. now left.
  - split.
    + intros H. destruct (back_if E file maps t name fr code k m br lps cur s' R Hk O H) as (c & cs & v & S & V).
      rewrite (step_if E file maps t name fr code k m br lps cur c cs v R Hk O S V) in H. match type of H with Ok ?x = Ok _ => assert (Hx : s' = x) by congruence end. rewrite Hx. clear H Hx.
      destruct (str_eqb_spec v (lit "true")) as [->|Nv].
      * do 4 eexists. split; [eapply CtIf; eauto|reflexivity].
      * pose proof (scan_first is_clause branch_steps clause_in code k) as Sc. destruct (scan is_clause _ k) as [j|].
        -- do 4 eexists. split; [eapply CtIfNot; eauto|reflexivity].
        -- do 4 eexists. split; [eapply CtIfNone; eauto|reflexivity].
    + intros (k' & m' & br' & lps' & C & ->). assert (NL : ~ leaving cur) by (eapply OneC; eauto; discriminate). inversion C; subst; try congruence; try contradiction; cbn [In] in *; try (exfalso; intuition congruence);
        match goal with S : switches cur = ?c :: ?cs, V : VmSpec.computes _ _ _ ?c ?v |- _ => rewrite (step_if E file maps t name fr code k _ _ _ cur c cs v R Hk O S V) end; f_equal.
      * match goal with V : v <> _ |- _ => destruct (str_eqb_spec v (lit "true")); [contradiction|] end. now rewrite (scan_is is_clause branch_steps clause_in code k k').
      * match goal with V : v <> _ |- _ => destruct (str_eqb_spec v (lit "true")); [contradiction|] end. now rewrite (scan_isnt is_clause branch_steps clause_in code k).
  - destruct br.
    + destruct (scan is_end_if (skipn (N.to_nat k) code) k) as [j|] eqn:Sc.
      * pose proof (scan_first is_end_if [IEndIf] end_in code k) as F. rewrite Sc in F. rewrite (step_skip E file maps t name fr code k m lps cur j R Hk (or_intror O) Sc). split.
        -- intros H. inversion H. do 4 eexists. split; [eapply CtTaken; eauto; rewrite O; cbn; auto|reflexivity].
        -- intros (k' & m' & br' & lps' & C & ->). assert (NL : ~ leaving cur) by (eapply OneC; eauto; discriminate). inversion C; subst; try congruence; try contradiction.
           ++ now rewrite (first_fun code [IEndIf] k k' j).
           ++ exfalso. eapply first_none; eauto.
      * pose proof (scan_first is_end_if [IEndIf] end_in code k) as F. rewrite Sc in F.
        destruct (exists_last (l := code)) as (pre & z & Hc); [intros ->; unfold lenN in Lt; cbn in Lt; lia|].
        assert (Q : vm_step (state name fr k m true lps) =
          (a <- at_ (switches z) 0 ;; v <- calc E (state name fr (lenN code) m true lps) a ;; Ok (state name fr (lenN code + 1) m true lps))).
        { enter R Hk. rewrite O. change (vm_branch (state name fr k m true lps)) with true. cbv iota zeta. rewrite Sc.
          assert (La : at_ code (lenN code - 1) = Ok z) by (rewrite Hc; now apply last_at). rewrite La. cbn [bind].
          change (jump (state name fr k m true lps) (lenN code)) with (state name fr (lenN code) m true lps).
          destruct (at_ (switches z) 0) as [a| |]; auto. cbn [bind]. destruct (calc E (state name fr (lenN code) m true lps) a) as [v| |]; auto. cbn [bind].
          change (here (advance (state name fr (lenN code) m true lps))) with (lenN code + 1).
          destruct (str_eqb v (lit "true")); [reflexivity|].
          assert (scan is_clause (skipn (N.to_nat (lenN code + 1)) code) (lenN code + 1) = None) as ->.
          { apply (scan_isnt is_clause branch_steps clause_in). intros i x Hi Hx. apply nthN_lt in Hx. lia. }
          replace (N.max (lenN code + 1) (lenN code)) with (lenN code + 1) by lia. reflexivity. }
        rewrite Q. split.
        -- intros H. apply bind_ok in H as (a & H1 & H). apply bind_ok in H as (v & H2 & H). inversion H. apply switch0_inv in H1 as (cs & H1). apply calc_state in H2.
           do 4 eexists. split; [eapply CtElseIfOpen; eauto|reflexivity].
        -- intros (k' & m' & br' & lps' & C & ->). assert (NL : ~ leaving cur) by (eapply OneC; eauto; discriminate). inversion C; subst; try congruence; try contradiction.
           ++ exfalso. eapply first_none; eauto.
           ++ match goal with X : pre ++ [z] = _ ++ [_] |- _ => apply app_inj_tail in X as [<- <-] end.
              match goal with S : switches z = ?c :: ?cs, V : VmSpec.computes _ _ _ ?c ?v |- _ => rewrite (switch0 _ _ _ S); cbn [bind]; rewrite (proj2 (calc_state _ _ _ _ _ _ _ _ _ _ _) V) end.
              reflexivity.
    + split.
      * intros H. destruct (back_else_if E file maps t name fr code k m lps cur s' R Hk O H) as (c & cs & v & S & V).
        rewrite (step_else_if E file maps t name fr code k m lps cur c cs v R Hk O S V) in H. match type of H with Ok ?x = Ok _ => assert (Hx : s' = x) by congruence end. rewrite Hx. clear H Hx.
        destruct (str_eqb_spec v (lit "true")) as [->|Nv].
        -- do 4 eexists. split; [eapply CtElseIf; eauto|reflexivity].
        -- pose proof (scan_first is_clause branch_steps clause_in code (k + 1)) as Sc. destruct (scan is_clause _ (k + 1)) as [j|].
           ++ do 4 eexists. split; [eapply CtElseIfNot; eauto|reflexivity].
           ++ replace (N.max (k + 1) (lenN code)) with (lenN code) by lia. do 4 eexists. split; [eapply CtElseIfNone; eauto|reflexivity].
      * intros (k' & m' & br' & lps' & C & ->). assert (NL : ~ leaving cur) by (eapply OneC; eauto; discriminate). inversion C; subst; try congruence; try contradiction;
          match goal with S : switches cur = ?c :: ?cs, V : VmSpec.computes _ _ _ ?c ?v |- _ => rewrite (step_else_if E file maps t name fr code k _ _ cur c cs v R Hk O S V) end; f_equal.
        -- match goal with V : v <> _ |- _ => destruct (str_eqb_spec v (lit "true")); [contradiction|] end. now rewrite (scan_is is_clause branch_steps clause_in code (k + 1) k').
        -- match goal with V : v <> _ |- _ => destruct (str_eqb_spec v (lit "true")); [contradiction|] end. rewrite (scan_isnt is_clause branch_steps clause_in code (k + 1)) by auto.
           now replace (N.max (k + 1) (lenN code)) with (lenN code) by lia.
  - destruct br.
    + destruct (scan is_end_if (skipn (N.to_nat k) code) k) as [j|] eqn:Sc; pose proof (scan_first is_end_if [IEndIf] end_in code k) as F; rewrite Sc in F.
      * rewrite (step_skip E file maps t name fr code k m lps cur j R Hk (or_introl O) Sc). split.
        -- intros H. inversion H. do 4 eexists. split; [eapply CtTaken; eauto; rewrite O; cbn; auto|reflexivity].
        -- intros (k' & m' & br' & lps' & C & ->). assert (NL : ~ leaving cur) by (eapply OneC; eauto; discriminate). inversion C; subst; try congruence; try contradiction.
           ++ now rewrite (first_fun code [IEndIf] k k' j).
           ++ exfalso. eapply first_none; eauto.
      * assert (Q : vm_step (state name fr k m true lps) = Ok (state name fr (lenN code + 1) m true lps)).
        { enter R Hk. rewrite O. change (vm_branch (state name fr k m true lps)) with true. cbv iota zeta. rewrite Sc. reflexivity. }
        rewrite Q. split.
        -- intros H. inversion H. do 4 eexists. split; [eapply CtElseOpen; eauto|reflexivity].
        -- intros (k' & m' & br' & lps' & C & ->). assert (NL : ~ leaving cur) by (eapply OneC; eauto; discriminate). inversion C; subst; try congruence; try contradiction.
           exfalso. eapply first_none; eauto.
    + rewrite (step_else E file maps t name fr code k m lps cur R Hk O). split.
      * intros H. inversion H. do 4 eexists. split; [now apply CtElse|reflexivity].
      * intros (k' & m' & br' & lps' & C & ->). assert (NL : ~ leaving cur) by (eapply OneC; eauto; discriminate). inversion C; subst; try congruence; try contradiction.
  - rewrite (step_end_if E file maps t name fr code k m br lps cur R Hk O). split.
    + intros H. inversion H. do 4 eexists. split; [now apply CtEndIf|reflexivity].
    + intros (k' & m' & br' & lps' & C & ->). assert (NL : ~ leaving cur) by (eapply OneC; eauto; discriminate). inversion C; subst; try congruence; try contradiction; cbn [In] in *; try (exfalso; intuition congruence).
  - apply Leave. right. split; auto. unfold simple in Hs. rewrite O in Hs. lia.
Qed.
End R.

Lemma step_kinds cur : simple cur \/ opcode cur = IPerformScript \/
  (In (opcode cur) [ILoop; IEndLoop; IExitLoopIf; IIf; IElseIf; IElse; IEndIf; IGoToRecordRequestPage] /\ ~ simple cur).
Proof.
  unfold simple. destruct (opcode cur); try (left; exact I); try (right; left; reflexivity); try (right; right; split; [cbn; tauto|tauto]).
  destruct (le_dec (length (switches cur)) 1); [left; auto|]. right; right. split; [cbn; tauto|auto].
Qed.
Lemma control_kind E n code k cur m br lps k' m' br' lps' : control E n code k cur m br lps k' m' br' lps' -> ~ simple cur /\ opcode cur <> IPerformScript.
Proof.
  intros C. assert (K : In (opcode cur) [ILoop; IEndLoop; IIf; IElseIf; IElse; IEndIf] \/ leaving cur).
  { destruct C; auto; left; try (match goal with G : opcode cur = _ |- _ => rewrite G end; cbn; tauto). cbn in *. tauto. }
  destruct K as [K|[K|[K L]]].
  - unfold simple. cbn in K. split; [|intros Q; rewrite Q in K; intuition discriminate]. destruct K as [K|[K|[K|[K|[K|[K|[]]]]]]]; rewrite <- K; auto.
  - unfold simple. rewrite K. split; [auto|discriminate].
  - unfold simple. rewrite K. split; [lia|discriminate].
Qed.

Section Exact.
Context (E : fenv) (file : fmpfile).
Lemma code_runs s t name k fr code : vm_test s = Some t -> vm_ip s = (name, k) :: fr -> code_on_top file s code ->
  runs file t name fr code \/ (fr <> [] /\ find_script file name = None /\ code = []).
Proof.
  intros T I (t' & name' & k' & fr' & T' & I' & C). rewrite T in T'. rewrite I in I'. inversion T'; inversion I'; subst. unfold runs. destruct fr' as [|f fr'].
  - left. now symmetry.
  - destruct C as [(sc & F & ->)|(F & ->)].
    + left. exists sc. split; auto. now apply first_script_spec.
    + right. split; [discriminate|]. split; auto. destruct (find_script file name') eqn:Q; auto. apply first_script_spec in Q. now elim (F s0).
Qed.
Lemma code_exists s t name k fr : vm_test s = Some t -> vm_ip s = (name, k) :: fr -> exists code, code_on_top file s code.
Proof.
  intros T I. destruct fr as [|f fr].
  - eexists. exists t, name, k, []. split; [exact T|]. split; [exact I|]. reflexivity.
  - destruct (find_script file name) as [sc|] eqn:Q.
    + exists (sc_steps sc), t, name, k, (f :: fr). split; [exact T|]. split; [exact I|]. left. exists sc. split; auto. now apply first_script_spec.
    + exists [], t, name, k, (f :: fr). split; [exact T|]. split; [exact I|]. right. split; auto. intros sc F. apply first_script_spec in F. congruence.
Qed.
Lemma code_fun s a b : code_on_top file s a -> code_on_top file s b -> a = b.
Proof.
  intros (t & name & k & fr & T & I & A) (t' & name' & k' & fr' & T' & I' & B). rewrite T in T'. rewrite I in I'. inversion T'; inversion I'; subst.
  destruct fr' as [|f fr']; [congruence|].
  destruct A as [(sc & F & ->)|(F & ->)], B as [(sc' & F' & ->)|(F' & ->)]; auto.
  - apply first_script_spec in F, F'. congruence.
  - now elim (F' sc).
  - now elim (F sc').
Qed.

Theorem step_exact s s' : vm_step E file s = Ok s' <-> moves_to E file s s'.
Proof.
  destruct (vm_test s) as [t|] eqn:T.
  2:{ split; [unfold vm_step; rewrite T; discriminate|]. intros M. assert (exists code, code_on_top file s code) as (code & C) by (destruct M; eauto).
      destruct C as (t & _ & _ & _ & C & _). congruence. }
  destruct (vm_ip s) as [|[name k] fr] eqn:I.
  { split; [unfold vm_step, running; rewrite T, I; discriminate|]. intros M. exfalso. destruct M; congruence. }
  destruct (code_exists s t name k fr T I) as (code & C). pose proof (code_runs s t name k fr code T I C) as R.
  assert (Len : lenN (vm_ip s) = lenN fr + 1) by (rewrite I; apply lenN_cons).
  assert (Same : forall nm kk fr0 code0, vm_ip s = (nm, kk) :: fr0 -> code_on_top file s code0 -> nm = name /\ kk = k /\ fr0 = fr /\ code0 = code).
  { intros nm kk fr0 code0 I0 C0. rewrite I in I0. inversion I0. repeat split; auto. eapply code_fun; eauto. }
  assert (Pop : nthN code k = None -> vm_step E file s = Ok (put s fr (mem_of s) (vm_branch s) (vm_loops s))).
  { intros Hk. unfold put. rewrite T. destruct R as [R|(F & Q & ->)].
    - rewrite (state_of s t name k fr) at 1 by auto. rewrite (step_pop E file (vm_layouts s) t name fr code) by (auto; now apply nthN_None). reflexivity.
    - unfold vm_step. rewrite T. cbn [unwrap bind]. unfold running. rewrite I, Q. destruct fr; [now elim F|]. cbn [bind sc_steps script_new]. 
      unfold here. rewrite I, Hk. cbn [tl]. unfold with_ip, mem_of. cbn. rewrite T. reflexivity. }
  destruct (nthN code k) as [cur|] eqn:Hk.
  2:{ rewrite (Pop eq_refl). split.
      - intros H. inversion H. eapply ToCaller; eauto. now apply nthN_None.
      - intros M. destruct M as [co nm kk f0 cu m' C0 I0 K0|co nm kk f0 cu k' m' b' l' C0 I0 K0|co nm kk f0 cu c cs cl sc C0 I0 K0|co nm kk f0 cu c cs cl C0 I0 K0|co nm kk f0 C0 I0 K0];
          destruct (Same _ _ _ _ I0 C0) as (-> & -> & -> & ->); congruence. }
  destruct R as [R|(_ & _ & ->)]; [|exfalso; apply nthN_lt in Hk; unfold lenN in Hk; cbn in Hk; lia].
  assert (St : s = state (vm_layouts s) t name fr k (mem_of s) (vm_branch s) (vm_loops s)) by (now apply state_of).
  assert (Put : forall nm kk f0 m' br lps, put s ((nm, kk) :: f0) m' br lps = state (vm_layouts s) t nm f0 kk m' br lps) by (intros; unfold put, state; now rewrite T).
  destruct (step_kinds cur) as [Si|[O|(Ci & NSi)]].
  - rewrite St at 1. rewrite (step_simple E file (vm_layouts s) t name fr code k _ _ _ cur s' R Hk Si). split.
    + intros (m' & D & ->). rewrite <- Put. eapply ToNext; eauto. now rewrite Len.
    + intros M. destruct M as [co nm kk f0 cu m' C0 I0 K0 S0 D0|co nm kk f0 cu k' m' b' l' C0 I0 K0 G0|co nm kk f0 cu c cs cl sc C0 I0 K0 O0|co nm kk f0 cu c cs cl C0 I0 K0 O0|co nm kk f0 C0 I0 K0];
        destruct (Same _ _ _ _ I0 C0) as (-> & -> & -> & ->).
      * rewrite Hk in K0. inversion K0; subst cu. rewrite Len in D0. exists m'. split; auto.
      * rewrite Hk in K0. inversion K0; subst cu. apply control_kind in G0 as [G0 _]. contradiction.
      * rewrite Hk in K0. inversion K0; subst cu. unfold simple in Si. rewrite O0 in Si. contradiction.
      * rewrite Hk in K0. inversion K0; subst cu. unfold simple in Si. rewrite O0 in Si. contradiction.
      * apply nthN_None in K0. congruence.
  - split.
    + intros H. rewrite St in H. destruct (back_call E file (vm_layouts s) t name fr code k _ _ _ cur s' R Hk O H) as (c & cs & callee & Sw & V).
      destruct (find_script file callee) as [sc|] eqn:F.
      * rewrite (step_call E file (vm_layouts s) t name fr code k _ _ _ cur c cs callee sc R Hk O Sw V F) in H.
        assert (Q : s' = put s ((callee, 0) :: (name, k + 1) :: fr) (with_scope (mem_of s)) (vm_branch s) (vm_loops s)) by (rewrite Put; unfold with_scope; congruence).
        rewrite Q. eapply (ToScript E file s code); eauto; [now rewrite Len|apply first_script_spec; exact F].
      * rewrite (unknown_step E file (vm_layouts s) t name fr code k _ _ _ cur c cs callee R Hk O Sw V F) in H.
        assert (Q : s' = put s (vm_ip s) (with_scope (mem_of s)) (vm_branch s) (vm_loops s)) by (rewrite I, Put; unfold with_scope; congruence).
        rewrite Q. eapply (ToItself E file s code name k fr cur c cs callee); auto; [rewrite Len; exact V|]. intros sc G. apply first_script_spec in G. congruence.
    + intros M. destruct M as [co nm kk f0 cu m' C0 I0 K0 S0 D0|co nm kk f0 cu k' m' b' l' C0 I0 K0 G0|co nm kk f0 cu c cs cl sc C0 I0 K0 O0 Sw V F|co nm kk f0 cu c cs cl C0 I0 K0 O0 Sw V F|co nm kk f0 C0 I0 K0];
        destruct (Same _ _ _ _ I0 C0) as (-> & -> & -> & ->); try (rewrite Hk in K0; inversion K0; subst cu).
      * unfold simple in S0. rewrite O in S0. contradiction.
      * apply control_kind in G0 as [_ G0]. contradiction.
      * apply first_script_spec in F. rewrite Len in V. rewrite St at 1. rewrite (step_call E file (vm_layouts s) t name fr code k _ _ _ cur c cs cl sc R Hk O Sw V F).
        rewrite Put. reflexivity.
      * assert (F' : find_script file cl = None) by (destruct (find_script file cl) eqn:Q; auto; apply first_script_spec in Q; now elim (F s0)). rewrite Len in V.
        rewrite St at 1. rewrite (unknown_step E file (vm_layouts s) t name fr code k _ _ _ cur c cs cl R Hk O Sw V F'). rewrite I, Put. reflexivity.
      * apply nthN_None in K0. congruence.
  - rewrite St at 1. rewrite (control_step E file (vm_layouts s) t name fr code k _ _ _ cur s' R Hk Ci NSi). split.
    + intros (k' & m' & br' & lps' & Ct & ->). rewrite <- Put. eapply ToPlace; eauto. now rewrite Len.
    + intros M. destruct M as [co nm kk f0 cu m' C0 I0 K0 S0 D0|co nm kk f0 cu k' m' b' l' C0 I0 K0 G0|co nm kk f0 cu c cs cl sc C0 I0 K0 O0|co nm kk f0 cu c cs cl C0 I0 K0 O0|co nm kk f0 C0 I0 K0];
        destruct (Same _ _ _ _ I0 C0) as (-> & -> & -> & ->); try (rewrite Hk in K0; inversion K0; subst cu).
      * contradiction.
      * rewrite Len in G0. exists k', m', b', l'. split; auto.
      * exfalso. rewrite O0 in Ci. cbn in Ci. intuition discriminate.
      * exfalso. rewrite O0 in Ci. cbn in Ci. intuition discriminate.
      * apply nthN_None in K0. congruence.
Qed.

Theorem run_exact s s' : (exists fuel, run_test E file fuel s = Ok s') <-> runs_to E file s s'.
Proof.
  split.
  - intros (f & H). revert s H. induction f as [|f IH]; intros s H; cbn [run_test] in H.
    + destruct (vm_pass s) eqn:P; [destruct (vm_ip s) eqn:I; [|discriminate]|]; inversion H; subst; [now apply RuDone|now apply RuFailed].
    + destruct (vm_pass s) eqn:P; [|inversion H; subst; now apply RuFailed]. destruct (vm_ip s) eqn:I; [inversion H; subst; now apply RuDone|].
      apply bind_ok in H as (s1 & H1 & H2). apply (RuStep E file s s1); auto; [congruence|now apply step_exact].
  - induction 1 as [s P|s I|s s1 s' P I M _ (f & IH)].
    + exists O. cbn [run_test]. now rewrite P.
    + exists O. cbn [run_test]. rewrite I. now destruct (vm_pass s).
    + exists (S f). cbn [run_test]. rewrite P. destruct (vm_ip s); [now elim I|]. apply step_exact in M. rewrite M. exact IH.
Qed.
End Exact.
