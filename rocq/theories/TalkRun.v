(** The lines of a run of tests, with those of calculations. *)
From Coq Require Import Ascii String NArith List Bool Lia Arith.
From Verif Require Import Prelude PreludeFacts InstrModel ComponentModel CalcModel DbModel EvalModel EvalSpec EvalCycle EvalFuel VmModel VmSpec VmTestSpec VmParts VmSteps VmRun VmBack VmFlat VmTextSpec VmText
  RunsSpec Runs PrintModel PrintSpec Print PhraseProps TokensSpec TreeSpec PhraseSpec TalkModel TalkSpec Talk Speech.
Import ListNotations.
Local Open Scope N_scope.

Section P.
Context (E : fenv) (file : fmpfile).

Lemma calc_told_snd s c : snd (calc_told E s c) = calc E s c.
Proof. unfold calc_told, calc. cbn [snd]. rewrite calculation_snd. reflexivity. Qed.
Lemma calc_told_says s c v : calc E s c = Ok v -> calculation_says E (view_of s) c (fst (calc_told E s c)).
Proof.
  intros H. rewrite <- calc_told_snd in H. unfold calc_told in *. cbn [fst snd] in *. destruct (calculation_told E (view_of s) (S (length (held (view_of s)))) c) as [l [w| |]] eqn:T; try discriminate.
  cbn [fst]. now apply told_says in T.
Qed.
Lemma switch_said_at s cur i c : at_ (switches cur) i = Ok c -> switch_said E s cur i = fst (calc_told E s c).
Proof. unfold at_, switch_said. destruct (nthN (switches cur) i); cbn [unwrap]; intros H; inversion H; reflexivity. Qed.

(** The calculations of a step, and their lines. *)
Definition answered (s : vm) (cs : list (list N)) (l : list (said (f64 E))) : Prop := exists css, Forall2 (calculation_says E (view_of s)) cs css /\ concat css = l.
Lemma answered_none s : answered s [] [].
Proof. exists []. split; [constructor|reflexivity]. Qed.
Lemma answered_one s cur i c v : at_ (switches cur) i = Ok c -> calc E s c = Ok v -> answered s [c] (switch_said E s cur i).
Proof.
  intros A V. exists [fst (calc_told E s c)]. split; [constructor; [now apply (calc_told_says _ _ v)|constructor]|]. cbn [concat]. rewrite app_nil_r. symmetry. now apply switch_said_at.
Qed.
Lemma last_split {A} (l : list A) z : at_ l (lenN l - 1) = Ok z -> exists pre, l = pre ++ [z].
Proof.
  destruct l as [|x l] using rev_ind; [discriminate|]. clear IHl. unfold at_. replace (lenN (l ++ [x]) - 1) with (lenN l) by (unfold lenN; rewrite app_length; cbn [length]; lia).
  rewrite nthN_app_len. cbn [unwrap]. intros H. inversion H. now exists l.
Qed.
Ltac plain := exists []; split; [apply EvNone; cbn; intuition discriminate|apply answered_none].
Lemma step_answers s s' sc code name k fr cur : vm_step E file s = Ok s' -> running file s = Ok sc -> sc_steps sc = code -> vm_ip s = (name, k) :: fr -> nthN code k = Some cur ->
  exists cs, evaluates code k cur (vm_branch s) cs /\ answered s cs (step_said E file s).
Proof.
  intros M R Q I K. assert (H : here s = k) by (unfold here; now rewrite I).
  unfold vm_step in M. destruct (vm_test s) as [t|]; [|discriminate]. cbn [unwrap bind] in M. rewrite R in M. cbn [bind] in M. rewrite Q, H, K in M.
  unfold step_said. rewrite R, Q, H, K. destruct (opcode cur) eqn:O;
    try (exists []; split; [apply EvNone; rewrite O; cbn; intuition discriminate|apply answered_none]).
  all: try (apply bind_ok in M as (c & M1 & M); apply bind_ok in M as (v & M2 & M); pose proof M1 as W; apply switch0_inv in W as (cs & W);
    exists [c]; split; [apply (EvFirst _ _ _ _ c cs); [rewrite O; cbn; auto 10|exact W]|now apply (answered_one s cur 0 c v)]; fail).
  all: lazymatch type of O with
  | _ = IGoToRecordRequestPage => idtac
  | _ = IElseIf => idtac
  | _ => apply bind_ok in M as (x & M0 & M); apply bind_ok in M as (c & M1 & M); apply bind_ok in M as (v & M2 & M); destruct (switch1_inv _ _ _ M0 M1) as (cs & W);
      exists [c]; split; [apply (EvSecond _ _ _ _ x c cs); [rewrite O; cbn; auto|exact W]|now apply (answered_one s cur 1 c v)]
  end.
  - apply bind_ok in M as (c & M1 & M). apply bind_ok in M as (v & M2 & M). pose proof M1 as W. apply switch0_inv in W as (cs & W).
    assert (N0 : nthN (switches cur) 0 = Some c) by (rewrite W; apply nthN_0). rewrite N0. pose proof (calc_told_says _ _ _ M2) as S1. pose proof (calc_told_snd s c) as S2. rewrite M2 in S2.
    destruct (calc_told E s c) as [l o]. cbn [fst snd] in S1, S2. subst o. destruct (nthN (switches cur) 1) as [d|] eqn:D.
    + apply bind_ok in M as (e & M3 & M). apply bind_ok in M3 as (w & M3 & _). destruct (switch1_inv cur c d M1) as (ds & W'); [now apply at_ok|].
      exists [c; d]. split; [now apply (EvRecordExit _ _ _ _ c d ds)|]. exists [l; fst (calc_told E s d)]. split; [|cbn [concat]; rewrite app_nil_r; unfold switch_said; now rewrite D].
      constructor; [exact S1|]. constructor; [now apply (calc_told_says _ _ w)|constructor].
    + assert (cs = []) as ->. { rewrite W in D. change 1 with (1 + 0) in D. rewrite nthN_succ in D. destruct cs; [reflexivity|]. rewrite nthN_0 in D. discriminate. }
      exists [c]. split; [now apply EvRecord|]. exists [l]. split; [constructor; [exact S1|constructor]|]. cbn [concat]. unfold switch_said. now rewrite D.
  - cbv zeta in M. destruct (vm_branch s).
    + pose proof (scan_first is_end_if [IEndIf] end_in code k) as F. destruct (scan is_end_if (skipn (N.to_nat k) code) k) as [j|].
      * exists []. split; [now apply (EvTaken _ _ _ j)|apply answered_none].
      * apply bind_ok in M as (z & M1 & M). apply bind_ok in M as (c & M2 & M). apply bind_ok in M as (v & M3 & M). pose proof M2 as W. apply switch0_inv in W as (cs & W).
        destruct (last_split _ _ M1) as (pre & P). pose proof M1 as Z. apply at_ok in Z. rewrite Z. exists [c]. split; [now apply (EvOpen _ _ _ pre z c cs)|].
        apply (answered_one s z 0 c v M2). unfold calc in *. replace (view_of (jump s (lenN code))) with (view_of s) in M3; [exact M3|].
        unfold view_of, jump, with_ip. cbn. rewrite I. reflexivity.
    + apply bind_ok in M as (c & M1 & M). apply bind_ok in M as (v & M2 & M). pose proof M1 as W. apply switch0_inv in W as (cs & W).
      exists [c]. split; [now apply (EvElseIf _ _ _ c cs)|now apply (answered_one s cur 0 c v)].
Qed.
Lemma said_pop s code name k fr : code_on_top file s code -> vm_ip s = (name, k) :: fr -> lenN code <= k -> step_said E file s = [].
Proof.
  intros C I L. destruct (running_code file s code C) as (sc & R & S). unfold step_said. rewrite R, S, (here_on _ _ _ _ I), (proj2 (nthN_None code k) L). reflexivity.
Qed.
Lemma move_answers s s' : vm_step E file s = Ok s' -> exists cs, asks file s cs /\ answered s cs (step_said E file s).
Proof.
  intros M. pose proof M as M'. apply step_exact in M'.
  assert (X : exists code name k fr, vm_ip s = (name, k) :: fr /\ code_on_top file s code).
  { destruct M' as [code name k fr cur m' C I | code name k fr cur k' m' br' lps' C I | code name k fr cur c cs callee sc C I | code name k fr cur c cs callee C I | code name k fr C I];
      exists code, name, k, fr; auto. }
  destruct X as (code & name & k & fr & I & C). destruct (running_code file s code C) as (sc & R & S). destruct (nthN code k) as [cur|] eqn:K.
  - destruct (step_answers s s' sc code name k fr cur M R S I K) as (cs & A & B). exists cs. split; [now apply (AsStep _ _ code name k fr cur)|exact B].
  - apply nthN_None in K. exists []. split; [now apply (AsPop _ _ code name k fr)|]. rewrite (said_pop s code name k fr C I K). apply answered_none.
Qed.

Lemma run_spoken_under_way fuel s : under_way s -> run_spoken E file fuel s = match fuel with O => ([], NoFuel) | S fuel =>
  match vm_step E file s with Ok s1 => let r := run_spoken E file fuel s1 in (step_spoken E file s ++ fst r, snd r) | o => (step_spoken E file s, o) end end.
Proof. intros [P I]. destruct fuel; cbn [run_spoken]; rewrite P; destruct (vm_ip s); try contradiction; reflexivity. Qed.
Lemma run_spoken_ended fuel s : ~ under_way s -> run_spoken E file fuel s = ([], Ok s).
Proof. intros H. unfold under_way in H. destruct fuel; cbn [run_spoken]; destruct (vm_pass s), (vm_ip s); try reflexivity; destruct H; split; congruence. Qed.

(** ** Every calculation on the way *)
Lemma evaluates_one code k cur br cs : evaluates code k cur br cs -> forall ds, evaluates code k cur br ds -> ds = cs.
Proof.
  intros H ds K. inversion H; subst; inversion K; subst; try congruence; try reflexivity; try tauto;
    repeat match goal with
    | I : In _ (_ :: _) |- _ => cbn in I
    | I : _ \/ _ |- _ => destruct I as [I|I]
    | I : False |- _ => destruct I
    end; try congruence; try (exfalso; eapply first_none; eauto; fail);
    try (match goal with N : ~ In _ _ |- _ => exfalso; apply N; cbn; match goal with O : _ = opcode cur |- _ => rewrite <- O | O : opcode cur = _ |- _ => rewrite O end; auto 20 end; fail).
  match goal with X : _ ++ [_] = _ ++ [_] |- _ => apply app_inj_tail in X as [-> ->] end. congruence.
Qed.
Lemma asks_one s cs ds : asks file s cs -> asks file s ds -> ds = cs.
Proof.
  intros [code name k fr cur cs' C I K V|code name k fr C I L] [code' name' k' fr' cur' ds' C' I' K' V'|code' name' k' fr' C' I' L'];
    rewrite I in I'; injection I' as <- <- <-; rewrite (code_fun file s _ _ C' C) in *.
  - rewrite K in K'. injection K' as <-. eapply evaluates_one; eauto.
  - apply nthN_lt in K. lia.
  - apply nthN_lt in K'. lia.
  - reflexivity.
Qed.
Lemma run_every s ls s' n s1 cs c : run_speaks E file s ls s' -> comes_to E file n s s1 -> under_way s1 -> asks file s1 cs -> In c cs ->
  exists l before after, calculation_says E (view_of s1) c l /\ ls = before ++ map (OfCalculation E) l ++ after.
Proof.
  intros R. revert n. induction R as [s N|s s2 s' ds dss ls rest U M A F P R IH]; intros n C U1 A1 I.
  - inversion C; subst; contradiction.
  - inversion C as [s0|n0 s0 s3 s4 U0 M0 C0]; subst.
    + rewrite (asks_one _ _ _ A1 A) in *. clear - F I. induction F as [|d l ds dss H F IH]; [destruct I|]. cbn [concat]. rewrite map_app, <- app_assoc. destruct I as [<-|I].
      * exists l, []. eexists. split; [exact H|reflexivity].
      * destruct (IH I) as (l0 & b & a & S & Q). exists l0, (map (OfCalculation E) l ++ b), a. split; [exact S|]. rewrite Q, !app_assoc. reflexivity.
    + apply step_exact in M. apply step_exact in M0. assert (s3 = s2) as -> by congruence. destruct (IH n0 C0 U1 A1 I) as (l0 & b & a & S & ->).
      exists l0, (map (OfCalculation E) (concat dss) ++ map (OfRunner E) ls ++ b), a. split; [exact S|]. rewrite !app_assoc. reflexivity.
Qed.

(** ** Steps that cannot be done *)
Lemma calc_told_exact s c l : calculation_recites E (view_of s) c l <-> l = fst (calc_told E s c).
Proof.
  unfold calc_told. cbn [fst]. destruct (calculation_told E (view_of s) (S (length (held (view_of s)))) c) as [l0 o] eqn:T. cbn [fst]. apply (calculation_exact E _ _ _ _ _ T). right. lia.
Qed.
Lemma calc_result s c : has_result E (view_of s) c <-> exists r, calc E s c = Ok r.
Proof.
  split.
  - intros (ts & n & Sp & T & r & V). assert (G : calc_gives E (view_of s) c (Ok r)) by (apply C86_value; now exists ts, n). destruct G as [_ (k & K)]. exists r. unfold calc.
    rewrite <- (calculation_decided E (view_of s) (Nat.max k (S (length (held (view_of s)))))) by lia. rewrite K by lia. reflexivity.
  - intros (r & H). unfold calc in H. destruct (eval_calculation E (view_of s) (S (length (held (view_of s)))) c) as [r'| |] eqn:C; try discriminate.
    apply calc_gives_at in C; [|discriminate]. apply C86_value in C as (ts & n & S & T & V). exists ts, n. split; [exact S|]. split; [exact T|]. now exists r'.
Qed.
Lemma recite_one s c : calculations_recite E (view_of s) [c] (fst (calc_told E s c)).
Proof.
  destruct (calc E s c) as [r| |] eqn:C.
  - rewrite <- (app_nil_r (fst _)). apply CsOn; [apply calc_result; now exists r|now apply calc_told_exact|constructor].
  - apply CsStuck; [intros K; apply calc_result in K as (r & K); congruence|now apply calc_told_exact].
  - apply CsStuck; [intros K; apply calc_result in K as (r & K); congruence|now apply calc_told_exact].
Qed.
Lemma recite_fun s cs l : calculations_recite E (view_of s) cs l -> forall m, calculations_recite E (view_of s) cs m -> m = l.
Proof.
  induction 1 as [|c cs ls ms C R H IH|c cs ls C R]; intros m K; inversion K as [|? ? ? ? C' R' H'|? ? ? C' R']; subst; try contradiction; auto.
  - apply calc_told_exact in R. apply calc_told_exact in R'. subst. f_equal. now apply IH.
  - apply calc_told_exact in R. apply calc_told_exact in R'. now subst.
Qed.
Lemma evaluates_said s sc k cur : running file s = Ok sc -> here s = k -> nthN (sc_steps sc) k = Some cur ->
  exists cs, (evaluates (sc_steps sc) k cur (vm_branch s) cs \/ ((forall ds, ~ evaluates (sc_steps sc) k cur (vm_branch s) ds) /\ cs = [])) /\
    calculations_recite E (view_of s) cs (step_said E file s).
Proof.
  intros R H K. unfold step_said. rewrite R, H, K.
  assert (Sw : forall c i, (match nthN (switches c) i with Some a => [a] | None => [] end = [] /\ switch_said E s c i = []) \/
    exists a, nthN (switches c) i = Some a /\ calculations_recite E (view_of s) [a] (switch_said E s c i)).
  { intros c i. unfold switch_said. destruct (nthN (switches c) i) as [a|]; [right; exists a; split; [reflexivity|apply recite_one]|left; auto]. }
  assert (N0 : forall (l : list (list N)) a, nthN l 0 = Some a -> exists r, l = a :: r).
  { intros [|b l] a Q; [discriminate|]. rewrite nthN_0 in Q. injection Q as ->. now exists l. }
  assert (N1 : forall (l : list (list N)) a, nthN l 1 = Some a -> exists x r, l = x :: a :: r).
  { intros [|b l] a Q; [discriminate|]. change 1 with (1 + 0) in Q. rewrite nthN_succ in Q. apply N0 in Q as (r & ->). now exists b, r. }
  destruct (opcode cur) eqn:O;
    try (exists []; split; [left; apply EvNone; rewrite O; cbn; intuition discriminate|constructor]; fail).
  all: lazymatch type of O with
  | _ = IGoToRecordRequestPage => idtac
  | _ = IElseIf => idtac
  | _ = ISetVariable => idtac
  | _ = ISetField => idtac
  | _ => destruct (nthN (switches cur) 0) as [a|] eqn:A;
    [destruct (N0 _ _ A) as (r & W); exists [a]; split; [left; apply (EvFirst _ _ _ _ a r); [rewrite O; cbn; auto 10|exact W]|unfold switch_said; rewrite A; apply recite_one]
    |exists []; split; [right; split; [|reflexivity]; intros ds D; inversion D; subst; try congruence;
       try (match goal with W : switches _ = _ :: _ |- _ => rewrite W, nthN_0 in A; discriminate end);
       match goal with N : ~ In _ _ |- _ => apply N; rewrite O; cbn; auto 20 end
     |unfold switch_said; rewrite A; constructor]]
  end.
  all: lazymatch type of O with
  | _ = IGoToRecordRequestPage => idtac
  | _ = IElseIf => idtac
  | _ => destruct (nthN (switches cur) 1) as [a|] eqn:A;
    [destruct (N1 _ _ A) as (x & r & W); exists [a]; split; [left; apply (EvSecond _ _ _ _ x a r); [rewrite O; cbn; auto 10|exact W]|unfold switch_said; rewrite A; apply recite_one]
    |exists []; split; [right; split; [|reflexivity]; intros ds D; inversion D; subst; try congruence;
       try (match goal with I : In (opcode _) _ |- _ => rewrite O in I; cbn in I; intuition discriminate end);
       try (match goal with W : switches _ = _ :: _ :: _ |- _ => rewrite W in A; change 1 with (1 + 0) in A; rewrite nthN_succ, nthN_0 in A; discriminate end);
       match goal with N : ~ In _ _ |- _ => apply N; rewrite O; cbn; auto 20 end
     |unfold switch_said; rewrite A; constructor]]
  end.
  - destruct (nthN (switches cur) 0) as [a|] eqn:A.
    + destruct (N0 _ _ A) as (r & W). destruct (nthN (switches cur) 1) as [b|] eqn:B.
      * destruct (N1 _ _ B) as (x & r' & W'). assert (x = a) as -> by congruence. exists [a; b]. split; [left; now apply (EvRecordExit _ _ _ _ a b r')|].
        pose proof (calc_told_snd s a) as Q. destruct (calc_told E s a) as [l o] eqn:T. cbn [snd] in Q. subst o. unfold switch_said. rewrite B.
        assert (Rl : calculation_recites E (view_of s) a l) by (apply calc_told_exact; now rewrite T).
        destruct (calc E s a) as [w| |] eqn:C.
        -- apply CsOn; [apply calc_result; now exists w|exact Rl|apply recite_one].
        -- apply CsStuck; [intros D; apply calc_result in D as (w & D); congruence|exact Rl].
        -- apply CsStuck; [intros D; apply calc_result in D as (w & D); congruence|exact Rl].
      * assert (r = []) as ->. { rewrite W in B. change 1 with (1 + 0) in B. rewrite nthN_succ in B. destruct r; [reflexivity|]. rewrite nthN_0 in B. discriminate. }
        exists [a]. split; [left; now apply EvRecord|]. pose proof (recite_one s a) as Q. unfold switch_said. rewrite B. destruct (calc_told E s a) as [l [w| |]]; cbn [fst] in Q; rewrite ?app_nil_r; exact Q.
    + exists []. split; [right; split; [|reflexivity]|constructor]. intros ds D. inversion D; subst; try congruence;
       try (match goal with I : In (opcode _) _ |- _ => rewrite O in I; cbn in I; intuition discriminate end);
       try (match goal with W : switches cur = _ |- _ => rewrite W, nthN_0 in A; discriminate end);
       match goal with N : ~ In _ _ |- _ => apply N; rewrite O; cbn; auto 20 end.
  - destruct (vm_branch s) eqn:Br.
    + pose proof (scan_first is_end_if [IEndIf] end_in (sc_steps sc) k) as F. destruct (scan is_end_if (skipn (N.to_nat k) (sc_steps sc)) k) as [j|].
      { exists []. split; [left; now apply (EvTaken _ _ _ j)|constructor]. }
      destruct (nthN (sc_steps sc) (lenN (sc_steps sc) - 1)) as [z|] eqn:Z.
      * destruct (last_split (sc_steps sc) z) as (pre & P); [now apply at_ok|].
        destruct (nthN (switches z) 0) as [a|] eqn:A.
        { destruct (N0 _ _ A) as (r & W). exists [a]. split; [left; now apply (EvOpen _ _ _ pre z a r)|unfold switch_said; rewrite A; apply recite_one]. }
        exists []. split; [right; split; [|reflexivity]|unfold switch_said; rewrite A; constructor]. intros ds D. inversion D; subst; try congruence;
          try (match goal with I : In (opcode _) _ |- _ => rewrite O in I; cbn in I; intuition discriminate end);
          try (exfalso; eapply first_none; eauto; fail);
          try (match goal with N : ~ In _ _ |- _ => apply N; rewrite O; cbn; auto 20 end; fail).
        match goal with X : sc_steps sc = ?p ++ [?y] |- _ => rewrite P in X; apply app_inj_tail in X as [_ <-] end. match goal with W : switches z = _ |- _ => rewrite W, nthN_0 in A; discriminate end.
      * exists []. split; [right; split; [|reflexivity]|constructor]. intros ds D. apply nthN_lt in K. apply nthN_None in Z. lia.
    + destruct (nthN (switches cur) 0) as [a|] eqn:A.
      { destruct (N0 _ _ A) as (r & W). exists [a]. split; [left; now apply (EvElseIf _ _ _ a r)|unfold switch_said; rewrite A; apply recite_one]. }
      exists []. split; [right; split; [|reflexivity]|unfold switch_said; rewrite A; constructor]. intros ds D. inversion D; subst; try congruence;
          try (match goal with I : In (opcode _) _ |- _ => rewrite O in I; cbn in I; intuition discriminate end);
          try (match goal with W : switches cur = _ |- _ => rewrite W, nthN_0 in A; discriminate end);
          try (match goal with N : ~ In _ _ |- _ => apply N; rewrite O; cbn; auto 20 end; fail).
Qed.
Lemma step_tries s : vm_test s <> None -> under_way s -> exists cs, tries file s cs /\ calculations_recite E (view_of s) cs (step_said E file s).
Proof.
  intros T [_ I]. destruct (vm_test s) as [t|] eqn:Ts; [|congruence]. destruct (vm_ip s) as [|[name k] fr] eqn:Ip; [congruence|].
  destruct (code_exists file s t name k fr Ts Ip) as (code & C). destruct (running_code file s code C) as (sc & R & <-). destruct (nthN (sc_steps sc) k) as [cur|] eqn:K.
  - destruct (evaluates_said s sc k cur R (here_on _ _ _ _ Ip) K) as (cs & [A|[A ->]] & B).
    + exists cs. split; [left; now apply (AsStep _ _ (sc_steps sc) name k fr cur)|exact B].
    + exists []. split; [right; split; [|reflexivity]|exact B]. intros ds D. destruct D as [code' name' k' fr' cur' ds C' I' K' V'|code' name' k' fr' C' I' L'];
        rewrite Ip in I'; injection I' as <- <- <-; rewrite (code_fun file s _ _ C' C) in *; [|apply nthN_lt in K; lia]. rewrite K in K'. injection K' as <-. now apply (A ds).
  - apply nthN_None in K. exists []. split; [left; now apply (AsPop _ _ (sc_steps sc) name k fr)|]. rewrite (said_pop s (sc_steps sc) name k fr C Ip K). constructor.
Qed.
Lemma tries_exact s : vm_test s <> None -> under_way s -> forall l, (exists cs, tries file s cs /\ calculations_recite E (view_of s) cs l) <-> l = step_said E file s.
Proof.
  intros T U l. destruct (step_tries s T U) as (cs & A & B). split; [|intros ->; now exists cs]. intros (ds & C & D). assert (ds = cs) as ->; [|now apply (recite_fun s cs)].
  destruct A as [A|[A ->]], C as [C|[C ->]]; auto; [now apply (asks_one s)|now elim (C cs)|now elim (A ds)].
Qed.

(** ** Runs *)
Lemma says_recites v c l : calculation_says E v c l -> calculation_recites E v c l.
Proof. intros (k & ts & n & r & m & -> & S & T & _ & K & R & _). now apply (CrTree _ _ _ _ ts). Qed.
Lemma move_said s s' cs css : vm_step E file s = Ok s' -> asks file s cs -> Forall2 (calculation_says E (view_of s)) cs css -> concat css = step_said E file s.
Proof.
  intros M A F. destruct (move_answers _ _ M) as (ds & B & dss & G & <-). rewrite (asks_one _ _ _ A B) in G. f_equal. clear - F G. revert dss G.
  induction F as [|c l cs css H F IH]; intros dss G; inversion G as [|? m ? ms H' G']; subst; [reflexivity|]. rewrite (IH _ G'). f_equal.
  apply says_recites, calc_told_exact in H. apply says_recites, calc_told_exact in H'. congruence.
Qed.
Lemma run_speaks_exact s ls s' : (exists fuel, run_spoken E file fuel s = (ls, Ok s')) <-> run_speaks E file s ls s'.
Proof.
  split.
  - intros (fuel & H). revert s ls H. induction fuel as [|fuel IH]; intros s ls H; (destruct (under_way_dec s) as [U|U]; [rewrite run_spoken_under_way in H by exact U|rewrite run_spoken_ended in H by exact U]);
      try discriminate; try (injection H as <- <-; constructor; exact U).
    destruct (vm_step E file s) as [s1| |] eqn:Q; try discriminate. destruct (run_spoken E file fuel s1) as [l r] eqn:L. cbn [fst snd] in H. injection H as <- ->.
    destruct (move_answers _ _ Q) as (cs & A & css & B & D). unfold step_spoken. rewrite <- D, <- app_assoc. apply step_exact in Q. eapply RsMove; eauto. eapply lines_exact; eauto.
  - induction 1 as [s U|s s1 s' cs css ls rest U M A F P R (fuel & IH)].
    + exists O. now apply run_spoken_ended.
    + exists (S fuel). rewrite run_spoken_under_way by exact U. pose proof M as M'. apply step_exact in M'. rewrite M', IH. cbn [fst snd].
      unfold step_spoken. rewrite (move_said _ _ _ _ M' A F), <- app_assoc. apply (lines_exact E file s s1 ls M) in P. rewrite P. reflexivity.
Qed.
Lemma run_stuck_exact s ls : vm_test s <> None -> (exists fuel, run_spoken E file fuel s = (ls, Panic)) <-> stuck_speaks E file s ls.
Proof.
  intros T. split.
  - intros (fuel & H). revert s ls T H. induction fuel as [|fuel IH]; intros s ls T H; (destruct (under_way_dec s) as [U|U]; [rewrite run_spoken_under_way in H by exact U|rewrite run_spoken_ended in H by exact U]); try discriminate.
    destruct (vm_step E file s) as [s1| |] eqn:Q; try discriminate.
    + destruct (run_spoken E file fuel s1) as [l r] eqn:L. cbn [fst snd] in H. injection H as <- ->. destruct (move_answers _ _ Q) as (cs & A & css & B & D). unfold step_spoken. rewrite <- D, <- app_assoc.
      apply step_exact in Q. eapply SsMove; eauto; [eapply lines_exact; eauto|]. apply IH; [eapply words_test; eauto|exact L].
    + injection H as <-. destruct (step_tries s T U) as (cs & A & B). apply (SsHere _ _ _ cs); [exact U|now apply step_stuck|exact A|exact B|]. now apply (words_exact E file s (step_lines E file s) U Q T).
  - intros H. induction H as [s cs cl ls U N A B W|s s1 cs css ls rest U M A F P R IH].
    + exists 1%nat. rewrite run_spoken_under_way by exact U. apply step_stuck in N. rewrite N. apply (words_exact E file s ls U N T) in W. unfold step_spoken. rewrite W.
      rewrite (proj1 (tries_exact s T U cl)) by now exists cs. reflexivity.
    + destruct (IH (words_test _ _ _ _ T M)) as (fuel & IH'). exists (S fuel). rewrite run_spoken_under_way by exact U. pose proof M as M'. apply step_exact in M'. rewrite M', IH'. cbn [fst snd].
      unfold step_spoken. rewrite (move_said _ _ _ _ M' A F), <- app_assoc. apply (lines_exact E file s s1 ls M) in P. rewrite P. reflexivity.
Qed.
Lemma run_spoken_more : forall f s ls r, run_spoken E file f s = (ls, r) -> r <> NoFuel -> forall g, (f <= g)%nat -> run_spoken E file g s = (ls, r).
Proof.
  induction f as [|f IH]; intros s ls r H N g L; (destruct (under_way_dec s) as [U|U]; [rewrite run_spoken_under_way in H by exact U|rewrite run_spoken_ended in H by exact U; rewrite run_spoken_ended by exact U; exact H]).
  - injection H as _ <-. destruct (N eq_refl).
  - destruct g as [|g]; [lia|]. rewrite run_spoken_under_way by exact U. destruct (vm_step E file s) as [s1| |]; try exact H.
    destruct (run_spoken E file f s1) as [l q] eqn:Q. cbn [fst snd] in H. injection H as <- <-. rewrite (IH s1 l q Q N g) by lia. reflexivity.
Qed.
Lemma tests_spoken_more : forall ts s ls r f, tests_spoken E file f ts s = (ls, r) -> r <> NoFuel -> forall g, (f <= g)%nat -> tests_spoken E file g ts s = (ls, r).
Proof.
  induction ts as [|t ts IH]; intros s ls r f H N g L; cbn [tests_spoken] in *; [exact H|].
  destruct (run_spoken E file f (load_test s t)) as [l q] eqn:R. cbn [fst snd] in H. destruct q as [s1| |].
  - rewrite (run_spoken_more _ _ _ _ R ltac:(discriminate) g L). cbn [fst snd]. destruct (tests_spoken E file f ts s1) as [l' q'] eqn:Q. cbn [fst snd] in H. injection H as <- <-.
    rewrite (IH _ _ _ _ Q N g L). reflexivity.
  - rewrite (run_spoken_more _ _ _ _ R ltac:(discriminate) g L). exact H.
  - injection H as _ <-. destruct (N eq_refl).
Qed.
Lemma tests_speak_exact : forall ts s ls s', (exists fuel, tests_spoken E file fuel ts s = (ls, Ok s')) <-> tests_speak E file ts s ls s'.
Proof.
  intros ts s ls s'. split.
  - intros (fuel & H). revert s ls H. induction ts as [|t ts IH]; intros s ls H; cbn [tests_spoken] in H; [injection H as <- <-; constructor|].
    destruct (run_spoken E file fuel (load_test s t)) as [l [s1| |]] eqn:R; cbn [fst snd] in H; try discriminate.
    destruct (tests_spoken E file fuel ts s1) as [l' r'] eqn:Q. cbn [fst snd] in H. injection H as <- ->. econstructor; [apply run_speaks_exact; exists fuel; exact R|apply IH; exact Q].
  - induction 1 as [s|t ts s s1 ls ls' s' R T (f & IH)]; [exists O; reflexivity|]. apply run_speaks_exact in R as (g & R). exists (f + g)%nat. cbn [tests_spoken].
    rewrite load_begun, (run_spoken_more g _ _ _ R ltac:(discriminate) (f + g) ltac:(lia)). cbn [fst snd].
    rewrite (tests_spoken_more _ _ _ _ _ IH ltac:(discriminate) (f + g)%nat ltac:(lia)). reflexivity.
Qed.
Lemma run_speaks_ok fuel s ls s' : run_spoken E file fuel s = (ls, Ok s') -> run_speaks E file s ls s'.
Proof. intros H. apply run_speaks_exact. now exists fuel. Qed.
Lemma tests_speak_ok fuel ts s ls s' : tests_spoken E file fuel ts s = (ls, Ok s') -> tests_speak E file ts s ls s'.
Proof. intros H. apply tests_speak_exact. now exists fuel. Qed.
Lemma tests_spoken_app a : forall b s fuel, tests_spoken E file fuel (a ++ b) s =
  match snd (tests_spoken E file fuel a s) with Ok s1 => (fst (tests_spoken E file fuel a s) ++ fst (tests_spoken E file fuel b s1), snd (tests_spoken E file fuel b s1)) | _ => tests_spoken E file fuel a s end.
Proof.
  induction a as [|t a IH]; intros b s fuel; cbn [app tests_spoken fst snd]; [destruct (tests_spoken E file fuel b s); reflexivity|].
  destruct (run_spoken E file fuel (load_test s t)) as [l [s1| |]]; cbn [fst snd]; try reflexivity. rewrite IH. destruct (tests_spoken E file fuel a s1) as [l' [s2| |]]; cbn [fst snd]; try reflexivity.
  cbn [app]. rewrite <- app_assoc. reflexivity.
Qed.
Lemma tests_stuck_exact ts s ls : (exists fuel, tests_spoken E file fuel ts s = (ls, Panic)) <->
  exists before t after l1 s1 l2, ts = before ++ t :: after /\ tests_speak E file before s l1 s1 /\ stuck_speaks E file (begun s1 t) l2 /\ ls = l1 ++ OfRunner E (LRunning (te_name t)) :: l2.
Proof.
  split.
  - intros (fuel & H). revert s ls H. induction ts as [|t ts IH]; intros s ls H; cbn [tests_spoken] in H; [discriminate|].
    destruct (run_spoken E file fuel (load_test s t)) as [l r] eqn:R. cbn [fst snd] in H. destruct r as [s1| |].
    + destruct (tests_spoken E file fuel ts s1) as [l' r'] eqn:Q. cbn [fst snd] in H. injection H as <- ->. destruct (IH _ _ Q) as (b & u & a & l1 & s2 & l2 & -> & A & B & ->).
      exists (t :: b), u, a. do 3 eexists. split; [reflexivity|]. split; [econstructor; [eapply run_speaks_ok; exact R|exact A]|]. split; [exact B|].
      cbn [app]. rewrite <- app_assoc. reflexivity.
    + injection H as <-. exists [], t, ts, [], s, l. split; [reflexivity|]. split; [constructor|]. split; [|reflexivity]. apply run_stuck_exact; [discriminate|exists fuel; exact R].
    + discriminate.
  - intros (b & t & a & l1 & s1 & l2 & -> & A & B & ->). apply tests_speak_exact in A as (f & A). apply run_stuck_exact in B as (g & B); [|discriminate]. exists (f + g)%nat.
    rewrite tests_spoken_app, (tests_spoken_more _ _ _ _ _ A ltac:(discriminate) (f + g)%nat) by lia. cbn [fst snd tests_spoken]. rewrite load_begun.
    rewrite (run_spoken_more _ _ _ _ B ltac:(discriminate) (f + g)%nat) by lia. reflexivity.
Qed.

(** Without the lines of calculations. *)
Definition of_runner (x : spoken E) : list line := match x with OfRunner _ l => [l] | OfCalculation _ _ => [] end.
Lemma runner_calculations l : flat_map of_runner (map (OfCalculation E) l) = [].
Proof. induction l; auto. Qed.
Lemma runner_runner l : flat_map of_runner (map (OfRunner E) l) = l.
Proof. induction l as [|x l IH]; [reflexivity|]. cbn [map flat_map of_runner app]. now rewrite IH. Qed.
Lemma runner_step s : flat_map of_runner (step_spoken E file s) = step_lines E file s.
Proof. unfold step_spoken. now rewrite flat_map_app, runner_calculations, runner_runner. Qed.
Lemma run_runner fuel : forall s, flat_map of_runner (fst (run_spoken E file fuel s)) = fst (run_lines E file fuel s) /\ snd (run_spoken E file fuel s) = snd (run_lines E file fuel s).
Proof.
  induction fuel as [|fuel IH]; intros s; (destruct (under_way_dec s) as [U|U]; [rewrite run_spoken_under_way, run_lines_under_way by exact U|rewrite run_spoken_ended, run_lines_ended by exact U]); auto.
  destruct (vm_step E file s) as [s1| |]; cbn [fst snd]; rewrite ?flat_map_app, ?runner_step; auto. destruct (IH s1) as [A B]. now rewrite A, B.
Qed.
Lemma tests_runner fuel : forall ts s, flat_map of_runner (fst (tests_spoken E file fuel ts s)) = fst (tests_lines E file fuel ts s) /\ snd (tests_spoken E file fuel ts s) = snd (tests_lines E file fuel ts s).
Proof.
  induction ts as [|t ts IH]; intros s; [auto|]. cbn [tests_spoken tests_lines]. destruct (run_runner fuel (load_test s t)) as [A B].
  destruct (run_spoken E file fuel (load_test s t)) as [l o], (run_lines E file fuel (load_test s t)) as [l' o']. cbn [fst snd] in *. subst l' o'. destruct o as [s1| |]; cbn [fst snd flat_map of_runner app]; auto.
  destruct (IH s1) as [A B]. rewrite flat_map_app. cbn [flat_map of_runner app]. now rewrite A, B.
Qed.
End P.
