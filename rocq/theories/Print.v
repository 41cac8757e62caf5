(** Proofs about the lines that a run of tests prints; the theorems are in PrintProps.v. *)
From Coq Require Import Ascii String NArith List Bool Lia Arith.
From Verif Require Import Prelude PreludeFacts InstrModel ComponentModel CalcModel DbModel EvalModel EvalSpec VmModel VmSpec VmTestSpec VmParts VmSteps VmRun VmBack VmFlat VmTextSpec VmText RunsSpec Runs
  JsonModel Json PrintModel PrintSpec.
Import ListNotations.
Local Open Scope N_scope.

Section Print.
Context (E : fenv) (file : fmpfile).

Lemma running_code s code : code_on_top file s code -> exists sc, running file s = Ok sc /\ sc_steps sc = code.
Proof.
  intros (t & name & k & fr & T & I & C). unfold running. rewrite T, I. destruct fr as [| f fr]; [exists (te_script t); auto |].
  destruct C as [(sc & F & ->) | (F & ->)].
  - exists sc. apply first_script_spec in F. rewrite F. auto.
  - exists script_new. apply find_script_none in F. rewrite F. auto.
Qed.
Lemma here_on s name k fr : vm_ip s = (name, k) :: fr -> here s = k.
Proof. unfold here. intros ->. reflexivity. Qed.
Lemma calc_on s c v : calc E s c = Ok v <-> computes E (lenN (vm_ip s)) (mem_of s) c v.
Proof. rewrite calc_ok. reflexivity. Qed.

Lemma quotes_ok v name : (w <- unwrap (strip_suffix v) ;; unwrap (strip_prefix w)) = Ok name <-> v = in_quotes name.
Proof. apply strip_quotes'. Qed.

Lemma in_cases (o : instruction) (l : list instruction) : In o l \/ ~ In o l.
Proof.
  induction l as [| x l [IH | IH]]; [right; intros [] | left; right; exact IH |].
  destruct (str_eqb_spec (instr_name x) (instr_name o)) as [H | H]; [left; left; apply instr_name_inj; exact H |].
  right. intros [-> | K]; [apply H; reflexivity | exact (IH K)].
Qed.

(** ** The lines of a move *)
Lemma lines_pop s code name k fr : code_on_top file s code -> vm_ip s = (name, k) :: fr -> lenN code <= k -> step_lines E file s = [LPopping name].
Proof.
  intros C I L. destruct (running_code s code C) as (sc & R & S). unfold step_lines. rewrite R, S, (here_on _ _ _ _ I), (proj2 (nthN_None code k) L), I. reflexivity.
Qed.
Lemma lines_says s code name k fr cur ls : code_on_top file s code -> vm_ip s = (name, k) :: fr -> nthN code k = Some cur ->
  (opcode cur = IEndLoop -> vm_loops s <> []) -> says E file (lenN (vm_ip s)) (mem_of s) cur ls -> step_lines E file s = ls.
Proof.
  intros C I K NL S. destruct (running_code s code C) as (sc & R & Q). unfold step_lines. rewrite R, Q, (here_on _ _ _ _ I), K.
  destruct S as [c cs v O W V | c cs O W V | c cs v O W V Nv | c cs callee sc' O W V F | c cs callee O W V F | O | O].
  - apply calc_on in V. rewrite O, (switch0 _ _ _ W). cbn [bind]. rewrite V. reflexivity.
  - apply calc_on in V. rewrite O, (switch0 _ _ _ W). cbn [bind]. rewrite V. cbn [bind]. rewrite str_eqb_refl. reflexivity.
  - apply calc_on in V. rewrite O, (switch0 _ _ _ W). cbn [bind]. rewrite V. cbn [bind]. destruct (str_eqb_spec v (lit "false")); [contradiction | reflexivity].
  - apply calc_on in V. rewrite O, (switch0 _ _ _ W). cbn [bind]. rewrite V. cbn [bind]. rewrite (proj2 (quotes_ok _ callee) eq_refl). apply first_script_spec in F. rewrite F. reflexivity.
  - apply calc_on in V. rewrite O, (switch0 _ _ _ W). cbn [bind]. rewrite V. cbn [bind]. rewrite (proj2 (quotes_ok _ callee) eq_refl). apply find_script_none in F. rewrite F. reflexivity.
  - cbn [silent_steps In] in O. repeat (destruct O as [O | O]; [rewrite <- O; try reflexivity |]); [| destruct O].
    destruct (vm_loops s); [destruct (NL (eq_sym O) eq_refl) | reflexivity].
  - destruct (opcode cur); try reflexivity; destruct O; cbn; tauto.
Qed.
Lemma moves_loops s s' code name k fr cur : moves_to E file s s' -> code_on_top file s code -> vm_ip s = (name, k) :: fr -> nthN code k = Some cur ->
  opcode cur = IEndLoop -> vm_loops s <> [].
Proof.
  intros M C I K O L. apply step_exact in M. destruct (running_code s code C) as (sc & R & Q). unfold vm_step in M.
  destruct (vm_test s); [| discriminate]. cbn [unwrap bind] in M. rewrite R in M. cbn [bind] in M. rewrite Q, (here_on _ _ _ _ I), K, O, L in M. discriminate.
Qed.
Lemma moves_says s s' code name k fr cur : moves_to E file s s' -> code_on_top file s code -> vm_ip s = (name, k) :: fr -> nthN code k = Some cur ->
  exists ls, says E file (lenN (vm_ip s)) (mem_of s) cur ls.
Proof.
  intros M C I K. destruct (in_cases (opcode cur) (speaking_steps ++ silent_steps)) as [H | H]; [| eexists; apply SaUnimplemented; exact H].
  apply in_app_or in H. destruct H as [H | H]; [| eexists; apply SaSilent; exact H].
  apply step_exact in M. destruct (running_code s code C) as (sc & R & Q). unfold vm_step in M.
  destruct (vm_test s); [| discriminate]. cbn [unwrap bind] in M. rewrite R in M. cbn [bind] in M. rewrite Q, (here_on _ _ _ _ I), K in M.
  cbn [speaking_steps In] in H. destruct H as [H | [H | [H | []]]]; rewrite <- H in M.
  - apply bind_ok in M as (c & M1 & M). apply bind_ok in M as (v & M2 & M). apply bind_ok in M as (w & M3 & M). apply bind_ok in M as (callee & M4 & M).
    apply switch0_inv in M1 as (cs & W). apply calc_on in M2. assert (V : v = in_quotes callee) by (apply quotes_ok; rewrite M3; exact M4). subst v.
    destruct (find_script file callee) as [sc' |] eqn:F.
    + eexists. eapply SaCall; eauto. apply first_script_spec. exact F.
    + eexists. eapply SaNobody; eauto. apply find_script_none. exact F.
  - apply bind_ok in M as (c & M1 & M). apply bind_ok in M as (v & M2 & M). apply switch0_inv in M1 as (cs & W). apply calc_on in M2. eexists. eapply SaDialog; eauto.
  - apply bind_ok in M as (c & M1 & M). apply bind_ok in M as (v & M2 & M). apply switch0_inv in M1 as (cs & W). apply calc_on in M2.
    destruct (str_eqb_spec v (lit "false")) as [-> | Nv]; [eexists; eapply SaFailed; eauto | eexists; eapply SaHolds; eauto].
Qed.
Lemma lines_exact s s' ls : moves_to E file s s' -> (prints E file s ls <-> step_lines E file s = ls).
Proof.
  intros M. assert (A : forall ls, prints E file s ls -> step_lines E file s = ls).
  { intros l P. destruct P as [code name k fr cur l C I K S | code name k fr C I L].
    - eapply lines_says; eauto. intros O. eapply moves_loops; eauto.
    - eapply lines_pop; eauto. }
  split; [apply A |]. intros H.
  assert (X : exists code t name k fr, vm_test s = Some t /\ vm_ip s = (name, k) :: fr /\ code_on_top file s code).
  { destruct M as [code name k fr cur m' C I | code name k fr cur k' m' br' lps' C I | code name k fr cur c cs callee sc C I | code name k fr cur c cs callee C I | code name k fr C I];
      destruct C as (t & n1 & k1 & f1 & C1 & C2 & C3); exists code, t, name, k, fr; (split; [exact C1 |]; split; [exact I |]); exists t, n1, k1, f1; auto. }
  destruct X as (code & t & name & k & fr & T & I & C). assert (exists l, prints E file s l) as (l & P).
  { destruct (nthN code k) as [cur |] eqn:K.
    - destruct (moves_says s s' code name k fr cur M C I K) as (l & S). exists l. eapply PrStep; eauto.
    - eexists. eapply PrPop; eauto. apply nthN_None. exact K. }
  assert (step_lines E file s = l) by (apply A; exact P). congruence.
Qed.

(** ** The lines before a step that cannot be done *)
Lemma words_exact s ls : under_way s -> vm_step E file s = Panic -> vm_test s <> None -> (last_words file s ls <-> step_lines E file s = ls).
Proof.
  intros [_ U] H T. destruct (vm_ip s) as [| [name k] fr] eqn:I; [destruct (U eq_refl) |]. destruct (vm_test s) as [t |] eqn:TT; [| destruct (T eq_refl)].
  destruct (code_exists file s t name k fr TT I) as (code & C). destruct (running_code s code C) as (sc & R & Q).
  unfold vm_step in H. rewrite TT in H. cbn [unwrap bind] in H. rewrite R in H. cbn [bind] in H. rewrite Q, (here_on _ _ _ _ I) in H.
  destruct (nthN code k) as [cur |] eqn:K; [| discriminate].
  assert (L : step_lines E file s = match opcode cur with IEndLoop => [LScope] | _ => [] end).
  { unfold step_lines. rewrite R, Q, (here_on _ _ _ _ I), K. destruct (opcode cur); try reflexivity; try discriminate.
    - destruct (at_ (switches cur) 0) as [a | |]; cbn [bind] in *; try reflexivity; try discriminate. destruct (calc E s a) as [v | |]; cbn [bind] in *; try reflexivity; try discriminate.
      destruct (unwrap (strip_suffix v)) as [w | |]; cbn [bind] in *; try reflexivity; try discriminate. destruct (unwrap (strip_prefix w)) as [n | |]; cbn [bind] in *; try reflexivity; try discriminate.
      destruct (find_script file n); discriminate.
    - destruct (vm_loops s); [reflexivity | discriminate].
    - destruct (at_ (switches cur) 0) as [a | |]; cbn [bind] in *; try reflexivity; try discriminate. destruct (calc E s a) as [v | |]; cbn [bind] in *; try reflexivity; discriminate.
    - destruct (at_ (switches cur) 0) as [a | |]; cbn [bind] in *; try reflexivity; try discriminate. destruct (calc E s a) as [v | |]; cbn [bind] in *; try reflexivity; discriminate. }
  rewrite L. assert (One : forall co na ka fa ca, code_on_top file s co -> vm_ip s = (na, ka) :: fa -> nthN co ka = Some ca -> ca = cur).
  { intros co na ka fa ca C' I' K'. rewrite I in I'. injection I' as <- <- <-. rewrite (code_fun file s co code C' C), K in K'. congruence. }
  split.
  - intros [((co & na & ka & fa & ca & C' & I' & K' & O) & ->) | (N & ->)].
    + rewrite <- (One _ _ _ _ _ C' I' K'), O. reflexivity.
    + specialize (N _ _ _ _ _ C I K). destruct (opcode cur); try reflexivity. destruct (N eq_refl).
  - intros <-. destruct (opcode cur) eqn:O; try (right; split; [| reflexivity]; intros co na ka fa ca C' I' K'; rewrite (One _ _ _ _ _ C' I' K'), O; discriminate).
    left. split; [| reflexivity]. exists code, name, k, fr, cur. auto.
Qed.
Lemma words_test s s0 : vm_test s0 <> None -> moves_to E file s0 s -> vm_test s <> None.
Proof. intros T M. destruct M; exact T. Qed.

(** ** The lines of a run *)
Lemma run_lines_under_way fuel s : under_way s -> run_lines E file fuel s = match fuel with O => ([], NoFuel) | S fuel =>
  match vm_step E file s with Ok s1 => let r := run_lines E file fuel s1 in (step_lines E file s ++ fst r, snd r) | o => (step_lines E file s, o) end end.
Proof. intros [P I]. destruct fuel; cbn [run_lines]; rewrite P; destruct (vm_ip s); try contradiction; reflexivity. Qed.
Lemma run_lines_ended fuel s : ~ under_way s -> run_lines E file fuel s = ([], Ok s).
Proof. intros H. unfold under_way in H. destruct fuel; cbn [run_lines]; destruct (vm_pass s), (vm_ip s); try reflexivity; destruct H; split; congruence. Qed.

Lemma run_lines_same fuel : forall s, snd (run_lines E file fuel s) = run_test E file fuel s.
Proof.
  induction fuel as [| fuel IH]; intros s; (destruct (under_way_dec s) as [U | U]; [rewrite run_lines_under_way, run_under_way by exact U | rewrite run_lines_ended, run_not_under_way by exact U]); try reflexivity.
  destruct (vm_step E file s) as [s1 | |]; cbn [bind snd]; [apply IH | reflexivity | reflexivity].
Qed.
Lemma run_lines_ok s ls s' : (exists fuel, run_lines E file fuel s = (ls, Ok s')) <-> run_prints E file s ls s'.
Proof.
  split.
  - intros (fuel & H). revert s ls H. induction fuel as [| fuel IH]; intros s ls H; (destruct (under_way_dec s) as [U | U]; [rewrite run_lines_under_way in H by exact U | rewrite run_lines_ended in H by exact U]);
      try discriminate; try (injection H as <- <-; constructor; exact U).
    destruct (vm_step E file s) as [s1 | |] eqn:Q; try discriminate. destruct (run_lines E file fuel s1) as [l r] eqn:L. cbn [fst snd] in H. injection H as <- ->.
    apply step_exact in Q. eapply RpMove; eauto. eapply lines_exact; eauto.
  - induction 1 as [s U | s s1 s' ls ls' U M P R (fuel & IH)].
    + exists O. apply run_lines_ended. exact U.
    + exists (S fuel). rewrite run_lines_under_way by exact U. assert (M' := M). apply step_exact in M'. rewrite M', IH. cbn [fst snd]. apply (lines_exact s s1 ls M) in P. rewrite P. reflexivity.
Qed.
Lemma run_lines_panic s ls : vm_test s <> None -> (exists fuel, run_lines E file fuel s = (ls, Panic)) <-> stuck_prints E file s ls.
Proof.
  intros T. split.
  - intros (fuel & H). revert s ls T H. induction fuel as [| fuel IH]; intros s ls T H; (destruct (under_way_dec s) as [U | U]; [rewrite run_lines_under_way in H by exact U | rewrite run_lines_ended in H by exact U]);
      try discriminate.
    destruct (vm_step E file s) as [s1 | |] eqn:Q; try discriminate.
    + destruct (run_lines E file fuel s1) as [l r] eqn:L. cbn [fst snd] in H. injection H as <- ->.
      apply step_exact in Q. eapply SpMove; eauto; [eapply lines_exact; eauto |]. apply IH; [eapply words_test; eauto | exact L].
    + injection H as <-. apply SpHere; [exact U | apply step_stuck; exact Q | apply words_exact; auto].
  - intros H. induction H as [s ls U N W | s s1 ls ls' U M P R IH].
    + exists 1%nat. rewrite run_lines_under_way by exact U. apply step_stuck in N. rewrite N. apply words_exact in W; auto. rewrite W. reflexivity.
    + destruct (IH (words_test _ _ T M)) as (fuel & IH'). exists (S fuel). rewrite run_lines_under_way by exact U. assert (M' := M). apply step_exact in M'. rewrite M', IH'. cbn [fst snd].
      apply (lines_exact s s1 ls M) in P. rewrite P. reflexivity.
Qed.
Lemma run_lines_more : forall f s ls r, run_lines E file f s = (ls, r) -> r <> NoFuel -> forall g, (f <= g)%nat -> run_lines E file g s = (ls, r).
Proof.
  induction f as [| f IH]; intros s ls r H N g L; (destruct (under_way_dec s) as [U | U]; [rewrite run_lines_under_way in H by exact U | rewrite run_lines_ended in H by exact U; rewrite run_lines_ended by exact U; exact H]).
  - injection H as _ <-. destruct (N eq_refl).
  - destruct g as [| g]; [lia |]. rewrite run_lines_under_way by exact U. destruct (vm_step E file s) as [s1 | |]; try exact H.
    destruct (run_lines E file f s1) as [l q] eqn:Q. cbn [fst snd] in H. injection H as <- <-. rewrite (IH s1 l q Q N g) by lia. reflexivity.
Qed.

(** ** The lines of a list of tests *)
Lemma tests_lines_more : forall ts s ls r f, tests_lines E file f ts s = (ls, r) -> r <> NoFuel -> forall g, (f <= g)%nat -> tests_lines E file g ts s = (ls, r).
Proof.
  induction ts as [| t ts IH]; intros s ls r f H N g L; cbn [tests_lines] in *; [exact H |].
  destruct (run_lines E file f (load_test s t)) as [l q] eqn:R. cbn [fst snd] in H. destruct q as [s1 | |].
  - rewrite (run_lines_more _ _ _ _ R ltac:(discriminate) g L). cbn [fst snd]. destruct (tests_lines E file f ts s1) as [l' q'] eqn:Q. cbn [fst snd] in H. injection H as <- <-.
    rewrite (IH _ _ _ _ Q N g L). reflexivity.
  - rewrite (run_lines_more _ _ _ _ R ltac:(discriminate) g L). exact H.
  - injection H as _ <-. destruct (N eq_refl).
Qed.
Lemma tests_lines_ok : forall ts s ls s', (exists fuel, tests_lines E file fuel ts s = (ls, Ok s')) <-> tests_print E file ts s ls s'.
Proof.
  intros ts s ls s'. split.
  - intros (fuel & H). revert s ls H. induction ts as [| t ts IH]; intros s ls H; cbn [tests_lines] in H.
    + injection H as <- <-. constructor.
    + destruct (run_lines E file fuel (load_test s t)) as [l r] eqn:R. cbn [fst snd] in H. destruct r as [s1 | |]; try discriminate.
      destruct (tests_lines E file fuel ts s1) as [l' r'] eqn:Q. cbn [fst snd] in H. injection H as <- ->. econstructor; [apply run_lines_ok; exists fuel; exact R | apply IH; exact Q].
  - induction 1 as [s | t ts s s1 ls ls' s' R T (f & IH)]; [exists O; reflexivity |]. apply run_lines_ok in R as (g & R). exists (f + g)%nat. cbn [tests_lines].
    rewrite load_begun, (run_lines_more g _ _ _ R ltac:(discriminate) (f + g) ltac:(lia)). cbn [fst snd].
    rewrite (tests_lines_more _ _ _ _ _ IH ltac:(discriminate) (f + g)%nat ltac:(lia)). reflexivity.
Qed.
Lemma tests_lines_app a : forall b s fuel, tests_lines E file fuel (a ++ b) s =
  match snd (tests_lines E file fuel a s) with Ok s1 => (fst (tests_lines E file fuel a s) ++ fst (tests_lines E file fuel b s1), snd (tests_lines E file fuel b s1)) | _ => tests_lines E file fuel a s end.
Proof.
  induction a as [| t a IH]; intros b s fuel; cbn [app tests_lines fst snd]; [destruct (tests_lines E file fuel b s); reflexivity |].
  destruct (run_lines E file fuel (load_test s t)) as [l [s1 | |]]; cbn [fst snd]; try reflexivity. rewrite IH. destruct (tests_lines E file fuel a s1) as [l' [s2 | |]]; cbn [fst snd]; try reflexivity.
  cbn [app]. rewrite <- app_assoc. reflexivity.
Qed.
Lemma tests_lines_panic ts s ls : (exists fuel, tests_lines E file fuel ts s = (ls, Panic)) <->
  exists before t after l1 s1 l2, ts = before ++ t :: after /\ tests_print E file before s l1 s1 /\ stuck_prints E file (begun s1 t) l2 /\ ls = l1 ++ LRunning (te_name t) :: l2.
Proof.
  split.
  - intros (fuel & H). revert s ls H. induction ts as [| t ts IH]; intros s ls H; cbn [tests_lines] in H; [discriminate |].
    destruct (run_lines E file fuel (load_test s t)) as [l r] eqn:R. cbn [fst snd] in H. destruct r as [s1 | |].
    + destruct (tests_lines E file fuel ts s1) as [l' r'] eqn:Q. cbn [fst snd] in H. injection H as <- ->. destruct (IH _ _ Q) as (b & u & a & l1 & s2 & l2 & -> & A & B & ->).
      exists (t :: b), u, a. do 3 eexists. split; [reflexivity |]. split; [econstructor; [apply run_lines_ok; exists fuel; exact R | exact A] |]. split; [exact B |].
      cbn [app]. rewrite <- app_assoc. reflexivity.
    + injection H as <-. exists [], t, ts, [], s, l. split; [reflexivity |]. split; [constructor |]. split; [| reflexivity]. apply run_lines_panic; [discriminate | exists fuel; exact R].
    + discriminate.
  - intros (b & t & a & l1 & s1 & l2 & -> & A & B & ->). apply tests_lines_ok in A as (f & A). apply run_lines_panic in B as (g & B); [| discriminate]. exists (f + g)%nat.
    rewrite tests_lines_app, (tests_lines_more _ _ _ _ _ A ltac:(discriminate) (f + g)%nat) by lia. cbn [fst snd tests_lines]. rewrite load_begun.
    rewrite (run_lines_more _ _ _ _ B ltac:(discriminate) (f + g)%nat) by lia. reflexivity.
Qed.

(** ** What the lines of a run are like *)
Lemma says_one n m cur ls : says E file n m cur ls -> ls = [] \/ exists x, ls = [x] /\ (forall t, x <> LRunning t) /\ (forall t b, x <> LOutcome t b) /\ (forall t, x <> LPopping t).
Proof. intros [c cs v O W V | c cs O W V | c cs v O W V Nv | c cs callee sc' O W V F | c cs callee O W V F | O | O]; try (left; reflexivity); right; eexists; (split; [reflexivity |]); repeat split; discriminate. Qed.
Lemma prints_one s ls : prints E file s ls -> ls = [] \/ exists x, ls = [x] /\ (forall t, x <> LRunning t) /\ (forall t b, x <> LOutcome t b).
Proof.
  intros [code name k fr cur l C I K S | code name k fr C I L].
  - apply says_one in S. destruct S as [-> | (x & -> & A & B & _)]; [left; reflexivity | right; exists x; auto].
  - right. eexists. split; [reflexivity |]. split; discriminate.
Qed.
Definition own (x : line) : Prop := (forall t, x <> LRunning t) /\ (forall t b, x <> LOutcome t b).
Lemma run_own s ls s' : run_prints E file s ls s' -> Forall own ls.
Proof.
  induction 1 as [s U | s s1 s' ls ls' U M P R IH]; [constructor |]. apply Forall_app. split; [| exact IH].
  apply prints_one in P. destruct P as [-> | (x & -> & A & B)]; repeat constructor; assumption.
Qed.

Lemma leaves_pass n s m m' b : leaves E n s m m' b -> m_pass m' = m_pass m.
Proof. intros []; reflexivity. Qed.
Lemma control_pass n code k s m br lps k' m' br' lps' : control E n code k s m br lps k' m' br' lps' -> m_pass m' = m_pass m /\ opcode s <> IAssert.
Proof.
  intros C. destruct C; (split; [try reflexivity; eapply leaves_pass; eassumption |]); try congruence;
    try (match goal with L : leaving s |- _ => destruct L as [L | [L _]]; congruence end); match goal with H : In _ _ |- _ => cbn [In] in H; intuition congruence end.
Qed.
Lemma does_pass maps n s m m' : does E maps n s m m' ->
  (m_pass m' = m_pass m /\ forall c cs, opcode s = IAssert -> switches s = c :: cs -> ~ computes E n m c (lit "false")) \/
  (m_pass m' = false /\ exists c cs, opcode s = IAssert /\ switches s = c :: cs /\ computes E n m c (lit "false")).
Proof.
  intros D. destruct D; try (left; split; [reflexivity |]; intros; congruence).
  - left. split; [reflexivity |]. intros c0 cs0 _ S V. rewrite H0 in S. injection S as <- <-. apply H2. eapply computes_fun; eauto.
  - right. split; [reflexivity |]. eauto.
  - left. split; [reflexivity |]. intros c0 cs0 O. destruct H. rewrite O. cbn. tauto.
Qed.
Lemma says_assertion n m cur ls c : says E file n m cur ls -> In (LAssertion c) ls -> ls = [LAssertion c] /\ opcode cur = IAssert /\ exists cs, switches cur = c :: cs /\ computes E n m c (lit "false").
Proof.
  intros [c' cs v O W V | c' cs O W V | c' cs v O W V Nv | c' cs callee sc' O W V F | c' cs callee O W V F | O | O] H; cbn [In] in H;
    try contradiction; destruct H as [H | []]; try discriminate. injection H as ->. eauto.
Qed.
Lemma move_top s s1 code name k fr cur : moves_to E file s s1 -> code_on_top file s code -> vm_ip s = (name, k) :: fr -> nthN code k = Some cur ->
  (simple cur /\ exists m', does E (vm_layouts s) (lenN (vm_ip s)) cur (mem_of s) m' /\ s1 = put s ((name, k + 1) :: fr) m' (vm_branch s) (vm_loops s)) \/
  (opcode cur <> IAssert /\ vm_pass s1 = vm_pass s).
Proof.
  intros M C I K.
  destruct M as [co na ka fa cu m' C0 I0 K0 S0 D0 | co na ka fa cu k' m' b' l' C0 I0 K0 G0 | co na ka fa cu c cs cl sc C0 I0 K0 O0 | co na ka fa cu c cs cl C0 I0 K0 O0 | co na ka fa C0 I0 K0];
    rewrite I in I0; injection I0 as <- <- <-; rewrite (code_fun file s co code C0 C) in *.
  - rewrite K in K0. injection K0 as <-. left. split; [exact S0 |]. exists m'. auto.
  - rewrite K in K0. injection K0 as <-. right. apply control_pass in G0 as [G1 G2]. split; [exact G2 |]. cbn [put vm_pass]. rewrite G1. reflexivity.
  - rewrite K in K0. injection K0 as <-. right. split; [congruence | reflexivity].
  - rewrite K in K0. injection K0 as <-. right. split; [congruence | reflexivity].
  - apply nthN_None in K0. congruence.
Qed.
(** A move prints a failed assertion exactly if it makes the test fail. *)
Lemma move_assertion s s1 ls : moves_to E file s s1 -> prints E file s ls -> vm_pass s = true ->
  (vm_pass s1 = true /\ forall c, ~ In (LAssertion c) ls) \/ (vm_pass s1 = false /\ exists c, ls = [LAssertion c]).
Proof.
  intros M P T. destruct P as [code name k fr cur ls C I K S | code name k fr C I L].
  - destruct (move_top s s1 code name k fr cur M C I K) as [(_ & m' & D & ->) | (O & Q)].
    + apply does_pass in D as [(Q & N) | (Q & c & cs & O & W & V)].
      * left. cbn [put vm_pass]. split; [rewrite Q; exact T |]. intros c H. destruct (says_assertion _ _ _ _ _ S H) as (_ & O & cs & W & V). exact (N c cs O W V).
      * right. cbn [put vm_pass]. split; [exact Q |]. exists c. destruct S as [c' cs' v O' W' V' | c' cs' O' W' V' | c' cs' v O' W' V' Nv | c' cs' callee sc' O' W' V' F | c' cs' callee O' W' V' F | O' | O']; try congruence.
        -- rewrite W in W'. injection W' as <- <-. destruct Nv. eapply computes_fun; eauto.
        -- rewrite O in O'. cbn in O'. intuition discriminate.
        -- rewrite O in O'. destruct O'. cbn. tauto.
    + left. split; [rewrite Q; exact T |]. intros c H. destruct (says_assertion _ _ _ _ _ S H) as (_ & O' & _). contradiction.
  - left. split; [| intros c [H | []]; discriminate].
    destruct M as [co na ka fa cu m' C0 I0 K0 | co na ka fa cu k' m' b' l' C0 I0 K0 | co na ka fa cu c cs cl sc C0 I0 K0 | co na ka fa cu c cs cl C0 I0 K0 | co na ka fa C0 I0 K0]; try exact T;
      rewrite I in I0; injection I0 as <- <- <-; rewrite (code_fun file s co code C0 C) in K0; apply nthN_lt in K0; lia.
Qed.
Lemma run_assertion s ls s' : run_prints E file s ls s' -> vm_pass s = true ->
  (vm_pass s' = true /\ forall c, ~ In (LAssertion c) ls) \/ (vm_pass s' = false /\ exists l c, ls = l ++ [LAssertion c] /\ forall c, ~ In (LAssertion c) l).
Proof.
  induction 1 as [s U | s s1 s' ls ls' U M P R IH]; intros T; [left; auto |].
  destruct (move_assertion s s1 ls M P T) as [(T1 & N) | (T1 & c & ->)].
  - destruct (IH T1) as [(T' & N') | (T' & l & c & -> & N')].
    + left. split; [exact T' |]. intros c H. apply in_app_or in H. destruct H as [H | H]; [exact (N c H) | exact (N' c H)].
    + right. split; [exact T' |]. exists (ls ++ l), c. rewrite app_assoc. split; [reflexivity |]. intros d H. apply in_app_or in H. destruct H as [H | H]; [exact (N d H) | exact (N' d H)].
  - right. assert (NU : ~ under_way s1) by (intros [X _]; congruence). destruct R as [s2 _ | s2 s3 s' l l' U2]; [| contradiction].
    split; [exact T1 |]. exists [], c. split; [reflexivity | intros d []].
Qed.

(** *** Nesting *)
Lemma nested_app a b : nested a -> nested b -> nested (a ++ b).
Proof.
  induction 1 as [| n a1 a2 A1 IH1 A2 IH2 | x a X A IH]; intros B; [exact B | |].
  - cbn [app]. rewrite <- app_assoc. cbn [app]. constructor; [exact A1 | exact (IH2 B)].
  - cbn [app]. constructor; [exact X | exact (IH B)].
Qed.
(** The lines that end with leaving all of the scripts [st]. *)
Inductive unwinds : list (list N) -> list line -> Prop :=
| UwNone : unwinds [] []
| UwPop : forall n st a b, nested a -> unwinds st b -> unwinds (n :: st) (a ++ LPopping n :: b).

Lemma unwinds_more n st a b : nested a -> unwinds (n :: st) b -> unwinds (n :: st) (a ++ b).
Proof. intros A B. inversion B; subst. rewrite app_assoc. constructor; [apply nested_app; assumption | assumption]. Qed.
Lemma says_nested n m cur ls : says E file n m cur ls -> opcode cur <> IPerformScript -> nested ls.
Proof. intros [c cs v O W V | c cs O W V | c cs v O W V Nv | c cs callee sc' O W V F | c cs callee O W V F | O | O] H; try contradiction; repeat constructor; discriminate. Qed.
Lemma control_call n code k s m br lps k' m' br' lps' : control E n code k s m br lps k' m' br' lps' -> opcode s <> IPerformScript.
Proof.
  intros C. destruct C; try congruence; try (match goal with L : leaving s |- _ => destruct L as [L | [L _]]; congruence end); match goal with H : In _ _ |- _ => cbn [In] in H; intuition congruence end.
Qed.
Lemma run_nested s ls s' : run_prints E file s ls s' -> vm_ip s' = [] -> unwinds (map fst (vm_ip s)) ls.
Proof.
  induction 1 as [s U | s s1 s' ls ls' U M P R IH]; intros Z; [rewrite Z; constructor |]. specialize (IH Z).
  destruct P as [code name k fr cur ls C I K S | code name k fr C I L].
  - rewrite I. cbn [map fst].
    destruct M as [co na ka fa cu m' C0 I0 K0 S0 D0 | co na ka fa cu k' m' b' l' C0 I0 K0 G0 | co na ka fa cu c cs cl sc C0 I0 K0 O0 S0 V0 F0 | co na ka fa cu c cs cl C0 I0 K0 O0 S0 V0 F0 | co na ka fa C0 I0 K0];
      rewrite I in I0; injection I0 as <- <- <-; rewrite (code_fun file s co code C0 C) in *; try (rewrite K in K0; injection K0 as <-).
    + cbn [put vm_ip map fst] in IH. apply unwinds_more; [| exact IH]. eapply says_nested; eauto. intros O. unfold simple in S0. rewrite O in S0. exact S0.
    + cbn [put vm_ip map fst] in IH. apply unwinds_more; [| exact IH]. eapply says_nested; eauto. eapply control_call; eauto.
    + cbn [put vm_ip map fst] in IH.
      assert (X : ls = [LCalling cl]).
      { destruct S as [c' cs' v O' W' V' | c' cs' O' W' V' | c' cs' v O' W' V' Nv | c' cs' callee sc' O' W' V' F | c' cs' callee O' W' V' F | O' | O']; try congruence.
        - rewrite S0 in W'. injection W' as <- <-. assert (Q := computes_fun _ _ _ _ _ _ V0 V'). injection Q as Q. apply app_inv_tail in Q. subst callee. reflexivity.
        - rewrite S0 in W'. injection W' as <- <-. assert (Q := computes_fun _ _ _ _ _ _ V0 V'). injection Q as Q. apply app_inv_tail in Q. subst callee. destruct (F sc F0).
        - rewrite O0 in O'. cbn in O'. intuition discriminate.
        - rewrite O0 in O'. destruct O'. cbn. tauto. }
      subst ls. inversion IH as [| n st a b A B]; subst. inversion B as [| n' st' a' b' A' B']; subst. cbn [app].
      replace (LCalling cl :: a ++ LPopping cl :: a' ++ LPopping name :: b') with ((LCalling cl :: a ++ LPopping cl :: a') ++ LPopping name :: b') by (cbn [app]; rewrite <- app_assoc; reflexivity).
      constructor; [constructor; assumption | exact B'].
    + cbn [put vm_ip map fst] in IH. rewrite I in IH. cbn [map fst] in IH. assert (X : ls = []).
      { destruct S as [c' cs' v O' W' V' | c' cs' O' W' V' | c' cs' v O' W' V' Nv | c' cs' callee sc' O' W' V' F | c' cs' callee O' W' V' F | O' | O']; try congruence.
        - rewrite S0 in W'. injection W' as <- <-. assert (Q := computes_fun _ _ _ _ _ _ V0 V'). injection Q as Q. apply app_inv_tail in Q. subst callee. destruct (F0 sc' F).
        - rewrite O0 in O'. destruct O'. cbn. tauto. }
      subst ls. exact IH.
    + apply nthN_None in K0. congruence.
  - assert (X : map fst (vm_ip s1) = map fst fr).
    { destruct M as [co na ka fa cu m' C0 I0 K0 S0 D0 | co na ka fa cu k' m' b' l' C0 I0 K0 G0 | co na ka fa cu c cs cl sc C0 I0 K0 O0 S0 V0 F0 | co na ka fa cu c cs cl C0 I0 K0 O0 S0 V0 F0 | co na ka fa C0 I0 K0];
        rewrite I in I0; injection I0 as <- <- <-; try reflexivity; rewrite (code_fun file s co code C0 C) in *; apply nthN_lt in K0; lia. }
    rewrite I. cbn [map fst]. rewrite X in IH. apply (UwPop name (map fst fr) []); [constructor | exact IH].
Qed.
End Print.
