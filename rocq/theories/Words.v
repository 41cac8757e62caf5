(** Proofs about the words of the standard output; the theorems are in WordsProps.v. *)
From Coq Require Import Ascii String NArith List Bool Lia Arith Permutation.
From Verif Require Import Prelude PreludeFacts InstrModel ComponentModel CalcModel DbModel DbFacts EvalModel VmModel VmSpec VmTestSpec VmFlat VmTextSpec VmText JsonModel SchemaModel RunsSpec MainModel MainSpec MainProofs.
From Verif Require Import GripeModel SourceModel PrintModel PrintSpec Print PrintProps TalkModel TalkSpec TalkRun TraceModel ReportModel WholeModel Whole WordsModel WordsSpec.
Import ListNotations.
Local Open Scope N_scope.

(** ** Lines of texts *)
Lemma one_line_app a b : one_line a -> one_line b -> one_line (a ++ b).
Proof. unfold one_line. intros A B H. apply in_app_or in H as [H|H]; auto. Qed.
Lemma one_line_lit s : existsb (N.eqb 10) s = false -> one_line s.
Proof. intros H K. assert (existsb (N.eqb 10) s = true) by (apply existsb_exists; exists 10; split; [exact K|apply N.eqb_refl]). congruence. Qed.
Lemma split_unique a b x y : one_line a -> one_line b -> a ++ 10 :: x = b ++ 10 :: y -> a = b /\ x = y.
Proof.
  revert b. induction a as [|c a IH]; intros [|d b] A B H; cbn [app] in H.
  - injection H as <-. auto.
  - injection H as <- _. destruct B. now left.
  - injection H as -> _. destruct A. now left.
  - injection H as <- H. apply IH in H as [<- <-]; [auto|intros K; apply A; now right|intros K; apply B; now right].
Qed.
Lemma lines_one text ls ks : text_lines text ls -> text_lines text ks -> ls = ks.
Proof.
  intros H. revert ks. induction H as [|l text ls L H IH]; intros ks K.
  - inversion K as [|l' t' ? ? ? Q]; [reflexivity|]. destruct l'; discriminate.
  - inversion K as [Q|l' t' ks' L' K' Q]; [destruct l; discriminate|]. apply split_unique in Q as [<- <-]; auto. f_equal. now apply IH.
Qed.
Lemma ends_alike a b (x : N) (y : N) : a ++ [x] = b ++ [y] -> x = y.
Proof. intros H. apply app_inj_tail in H. tauto. Qed.
Lemma outcome_one C l n p m q : outcome_line C l n p -> outcome_line C l m q -> n = m /\ p = q.
Proof.
  unfold outcome_line. intros -> H. apply app_inv_head in H. destruct p, q.
  - rewrite !app_assoc in H. do 4 apply app_inv_tail in H. auto.
  - exfalso. rewrite !app_assoc in H. apply app_inv_tail in H. change (lit "Success") with (lit "Succes" ++ [115]) in H. change (lit "Fail") with (lit "Fai" ++ [108]) in H. rewrite !app_assoc in H.
    apply ends_alike in H. discriminate.
  - exfalso. rewrite !app_assoc in H. apply app_inv_tail in H. change (lit "Success") with (lit "Succes" ++ [115]) in H. change (lit "Fail") with (lit "Fai" ++ [108]) in H. rewrite !app_assoc in H.
    apply ends_alike in H. discriminate.
  - rewrite !app_assoc in H. do 4 apply app_inv_tail in H. auto.
Qed.
Lemma outcomes_one C ls rs qs : outcomes C ls rs -> outcomes C ls qs -> rs = qs.
Proof.
  intros H. revert qs. induction H as [|l n p ls rs L H IH|l ls rs L H IH]; intros qs K.
  - now inversion K.
  - inversion K as [|? m q ? ? L' K'|? ? ? L' K']; subst; [|destruct (L' _ _ L)]. destruct (outcome_one _ _ _ _ _ _ L L') as [<- <-]. f_equal. now apply IH.
  - inversion K as [|? m q ? ? L' K'|? ? ? L' K']; subst; [destruct (L _ _ L')|now apply IH].
Qed.
Lemma outcomes_app C a rs b qs : outcomes C a rs -> outcomes C b qs -> outcomes C (a ++ b) (rs ++ qs).
Proof. intros H K. induction H; cbn [app]; [exact K|now constructor|now constructor]. Qed.
Lemma text_lines_app a ls b ks : text_lines a ls -> text_lines b ks -> text_lines (a ++ b) (ls ++ ks).
Proof. intros H K. induction H; [exact K|]. cbn [app]. rewrite <- app_assoc. cbn [app]. now constructor. Qed.
Lemma reads_app C a rs b qs : reads_off C a rs -> reads_off C b qs -> reads_off C (a ++ b) (rs ++ qs).
Proof. intros (ls & A & B) (ks & A' & B'). exists (ls ++ ks). split; [now apply text_lines_app|now apply outcomes_app]. Qed.
Lemma reads_none C : reads_off C [] [].
Proof. exists []. split; constructor. Qed.

(** A line that does not begin with a T is about no outcome. *)
Lemma no_outcome C l : hd_error l <> Some 84 -> forall n p, ~ outcome_line C l n p.
Proof. intros H n p ->. now apply H. Qed.
Lemma reads_line C l : one_line l -> (forall n p, ~ outcome_line C l n p) -> reads_off C (l ++ [10]) [].
Proof. intros L H. exists [l]. split; [apply TlLine; [exact L|constructor]|]. apply OcOther; [exact H|constructor]. Qed.
Lemma reads_outcome C l n p : one_line l -> outcome_line C l n p -> reads_off C (l ++ [10]) [(n, p)].
Proof. intros L H. exists [l]. split; [apply TlLine; [exact L|constructor]|]. apply OcTest; [exact H|constructor]. Qed.

(** ** Every text can be read *)
Fixpoint after (p s : list N) : option (list N) :=
  match p, s with
  | [], _ => Some s
  | a :: p, b :: s => if a =? b then after p s else None
  | _ :: _, [] => None
  end.
Lemma after_spec p : forall s r, after p s = Some r <-> s = p ++ r.
Proof.
  induction p as [|a p IH]; intros s r; cbn [after app]; [split; congruence|]. destruct s as [|b s]; [split; discriminate|]. destruct (N.eqb_spec a b) as [->|D].
  - rewrite IH. split; [intros ->; reflexivity|intros H; now injection H].
  - split; [discriminate|]. intros H. injection H as H _. congruence.
Qed.
Definition before (q s : list N) : option (list N) := match after (rev q) (rev s) with Some r => Some (rev r) | None => None end.
Lemma before_spec q s r : before q s = Some r <-> s = r ++ q.
Proof.
  unfold before. destruct (after (rev q) (rev s)) as [x|] eqn:A.
  - apply after_spec in A. apply (f_equal (@rev N)) in A. rewrite rev_involutive, rev_app_distr, rev_involutive in A. subst s. split.
    + intros H. injection H as <-. reflexivity.
    + intros H. apply app_inv_tail in H. congruence.
  - split; [discriminate|]. intros ->. rewrite rev_app_distr in A. assert (after (rev q) (rev q ++ rev r) = Some (rev r)) by (now apply after_spec). congruence.
Qed.
Definition outcome_in (C : colours) (l : list N) : option (list N * bool) :=
  match after (lit "Test ") l with
  | None => None
  | Some r =>
    match before (lit " outcome: " ++ green C ++ lit "Success" ++ plain C) r with
    | Some n => Some (n, true)
    | None => match before (lit " outcome: " ++ red C ++ lit "Fail" ++ plain C) r with Some n => Some (n, false) | None => None end
    end
  end.
Lemma outcome_in_ok C l : match outcome_in C l with Some (n, p) => outcome_line C l n p | None => forall n p, ~ outcome_line C l n p end.
Proof.
  unfold outcome_in, outcome_line. destruct (after (lit "Test ") l) as [r|] eqn:A.
  - apply after_spec in A. subst l. destruct (before _ r) as [n|] eqn:B; [apply before_spec in B; now subst r|]. destruct (before (_ ++ red C ++ _) r) as [n|] eqn:D; [apply before_spec in D; now subst r|].
    intros n [|] H; apply app_inv_head, before_spec in H; congruence.
  - intros n p H. apply after_spec in H. congruence.
Qed.
Fixpoint cut (word text : list N) : list (list N) :=
  match text with
  | [] => []
  | c :: text => if c =? 10 then rev word :: cut [] text else cut (c :: word) text
  end.
Definition ended (text : list N) : Prop := text = [] \/ exists t, text = t ++ [10].
Lemma cut_ok text : ended text -> forall word, one_line word -> text <> [] \/ word = [] -> text_lines (rev word ++ text) (cut word text).
Proof.
  induction text as [|c text IH]; intros T word W D.
  - destruct D as [D| ->]; [congruence|constructor].
  - assert (T' : text = [] \/ exists t, text = t ++ [10]).
    { destruct T as [T|(t & T)]; [discriminate|]. destruct t as [|d t]; cbn [app] in T; injection T as -> T; [now left|right; eauto]. }
    cbn [cut]. destruct (N.eqb_spec c 10) as [->|N0].
    + apply TlLine; [intros H; apply in_rev in H; auto|]. apply (IH T' []); [intros []|now right].
    + replace (rev word ++ c :: text) with (rev (c :: word) ++ text) by (cbn [rev]; now rewrite <- app_assoc). apply IH; [exact T'|intros [H|H]; auto|].
      left. intros ->. destruct T as [T|(t & T)]; [discriminate|]. destruct t as [|d t]; cbn [app] in T; [congruence|]. injection T as _ T. now destruct t.
Qed.
Definition found_in (C : colours) (ls : list (list N)) : list (list N * bool) := flat_map (fun l => match outcome_in C l with Some r => [r] | None => [] end) ls.
Lemma found_ok C ls : outcomes C ls (found_in C ls).
Proof.
  induction ls as [|l ls IH]; [constructor|]. cbn [found_in flat_map]. pose proof (outcome_in_ok C l) as H. destruct (outcome_in C l) as [[n p]|]; cbn [app]; [now apply OcTest|now apply OcOther].
Qed.
Lemma reads_found C text : ended text -> reads_off C text (found_in C (cut [] text)).
Proof. intros T. exists (cut [] text). split; [|apply found_ok]. apply (cut_ok text T []); [intros []|now right]. Qed.
Lemma ended_app a b : ended a -> ended b -> ended (a ++ b).
Proof. intros A [->|(t & ->)]; [now rewrite app_nil_r|]. right. exists (a ++ t). now rewrite app_assoc. Qed.
Lemma put_out_ended {A} (w : A -> option (list N)) l : ended (put_out w l).
Proof. unfold put_out. induction l as [|x l IH]; [now left|]. cbn [flat_map]. apply ended_app; [|exact IH]. destruct (w x); [right; eauto|now left]. Qed.

(** ** Numbers *)
Lemma digits_line n : one_line (digits n).
Proof.
  unfold digits. generalize (S (N.size_nat n)). intros f. revert n. induction f as [|f IH]; intros n; cbn [digits_loop]; [intros []|].
  destruct (n <? 10); [intros [H|[]]; lia|]. apply one_line_app; [apply IH|]. intros [H|[]]. lia.
Qed.
Lemma digit_first f n : hd_error (digits_loop f n) <> Some 84.
Proof.
  revert n. induction f as [|f IH]; intros n; cbn [digits_loop]; [discriminate|]. destruct (N.ltb_spec n 10); [cbn [hd_error]; intros K; assert (48 + n = 84) by congruence; lia|].
  specialize (IH (n / 10)). destruct (digits_loop f (n / 10)) as [|x l]; [|exact IH]. cbn [app hd_error]. intros K. assert (48 + n mod 10 = 84) by congruence. assert (n mod 10 < 10) by (apply N.mod_lt; discriminate). lia.
Qed.
Lemma hex_line n : one_line (hex n).
Proof.
  assert (D : forall k, hex_digit k <> 10) by (intros k; unfold hex_digit; destruct (k <? 10); lia).
  unfold hex. generalize (S (N.size_nat n)). intros f. revert n. induction f as [|f IH]; intros n; cbn [hex_loop]; [intros []|].
  destruct (n <? 16); [intros [H|[]]; now apply D in H|]. apply one_line_app; [apply IH|]. intros [H|[]]. now apply D in H.
Qed.
Lemma listed_line l : one_line (listed l).
Proof.
  induction l as [|b l IH]; [intros []|]. cbn [listed]. destruct l; [apply digits_line|]. repeat apply one_line_app; [apply digits_line|now apply one_line_lit|exact IH].
Qed.
Lemma bytes_line l : one_line (bytes_words l).
Proof. unfold bytes_words. repeat apply one_line_app; try (now apply one_line_lit). apply listed_line. Qed.

Section Shown.
Context (E : fenv) (C : colours) (Hc : colours_ok C) (He : debug_ok E).

Local Notation clean_line := (clean_line C).
Local Notation clean := (clean E C).

Ltac split_line := repeat apply one_line_app; auto; try (now apply one_line_lit).
Lemma line_reads l : clean_line l -> reads_off C (match line_words C l with Some w => w ++ [10] | None => [] end) (flat_map outcome_of (reports [l])).
Proof.
  destruct Hc as (G & R & A & P & Cl & T). destruct l as [t|t [|]|t|t|v|c| |o]; cbn [clean_line line_words reports flat_map outcome_of app]; intros H; try apply reads_none.
  - apply reads_line; [split_line|now apply no_outcome].
  - apply reads_outcome; [split_line|reflexivity].
  - apply reads_outcome; [split_line|reflexivity].
  - apply reads_line; [split_line|now apply no_outcome].
  - apply reads_line; [split_line|now apply no_outcome].
  - apply reads_line; tauto.
  - apply reads_line; [split_line|]. apply no_outcome. destruct (red C); [discriminate|exact T].
Qed.
Lemma shown_reads x : clean x -> reads_off C (match shown_words E C x with Some w => w ++ [10] | None => [] end) (flat_map outcome_of (event_of E x)).
Proof.
  destruct x as [g|f|[y|l]|n|n c|r]; cbn [shown_words event_of flat_map outcome_of app]; intros H; try apply reads_none.
  - destruct y; cbn [spoken_words of_runner reports flat_map]; try apply reads_none. apply reads_line; [split_line; apply He|now apply no_outcome].
  - apply line_reads, H.
  - destruct n; cbn [note_words]; (apply reads_line; [split_line; auto using digits_line, hex_line, bytes_line, listed_line|now apply no_outcome]).
  - destruct r; cbn [report_words]; try apply reads_none. apply reads_line; [apply digits_line|apply no_outcome, digit_first].
Qed.
Lemma stdout_reads l : Forall clean l -> reads_off C (stdout E C l) (flat_map outcome_of (flat_map (event_of E) l)).
Proof.
  unfold stdout, put_out. induction 1 as [|x l H _ IH]; [apply reads_none|]. cbn [flat_map]. rewrite flat_map_app. apply reads_app; [now apply shown_reads|exact IH].
Qed.

Lemma silent_clean x : silent E x -> clean x.
Proof. destruct x as [g|f|[y|l]|n|n c|r]; auto. destruct l; auto. intros []. Qed.

(** ** The lines of calm files *)
Local Notation silent := (silent E).
Section Runner.
Context (file : fmpfile) (Hf : calm file).
Definition calm_state (s : vm) : Prop := Forall (fun f => one_line (fst f)) (vm_ip s) /\ match vm_test s with Some t => calm_script (te_script t) | None => True end.

Lemma found_calm name sc : find_script file name = Some sc -> one_line name /\ calm_script sc.
Proof.
  unfold find_script. intros H. apply find_some in H as [I Q]. apply in_map_iff in I as ([k sc'] & Q' & I). cbn in Q'. subst sc'. destruct Hf as [S _]. specialize (S _ _ I).
  destruct (str_eqb_spec (sc_name sc) name) as [<-|]; [|discriminate]. split; [apply S|exact S].
Qed.
Lemma running_calm s sc : calm_state s -> running file s = Ok sc -> calm_script sc.
Proof.
  intros [I T]. unfold running. destruct (vm_ip s) as [|[name k] [|f fr]]; [discriminate| |].
  - destruct (vm_test s) as [t|]; cbn [unwrap bind]; [|discriminate]. intros H. injection H as <-. exact T.
  - intros H. injection H as <-. destruct (find_script file name) as [sc|] eqn:F; [now apply found_calm in F|]. split; [intros []|intros ? []].
Qed.
Lemma step_clean s : calm_state s -> Forall silent_line (step_lines E file s).
Proof.
  intros H. unfold step_lines. destruct (running file s) as [sc| |] eqn:R; [|constructor|constructor]. pose proof (running_calm s sc H R) as [_ K].
  destruct (nthN (sc_steps sc) (here s)) as [cur|] eqn:Q.
  - apply nthN_In in Q. destruct (K cur Q) as [D W]. destruct (opcode cur) eqn:O; try (now constructor); try (now destruct D).
    + destruct (a <- at_ (switches cur) 0;; _) as [name| |]; [|constructor|constructor]. destruct (find_script file name) as [sc'|] eqn:F; [|constructor]. apply found_calm in F as [F _]. now repeat constructor.
    + destruct (vm_loops s); now repeat constructor.
    + unfold at_. destruct (nthN (switches cur) 0) as [a|] eqn:A; cbn [unwrap bind]; [|constructor]. apply nthN_In in A. rewrite Forall_forall in W. specialize (W a A).
      destruct (calc E s a) as [v| |]; cbn [bind]; [|constructor|constructor]. destruct (str_eqb v (lit "false")); now repeat constructor.
  - destruct H as [I _]. destruct (vm_ip s) as [|[name k] fr]; [constructor|]. inversion I. now repeat constructor.
Qed.
Lemma step_calm s s' : calm_state s -> vm_step E file s = Ok s' -> calm_state s'.
Proof.
  intros [I T] M. apply step_exact in M. destruct M as [code name k fr cur m' Ct Q | code name k fr cur k' m' br' lps' Ct Q | code name k fr cur c cs callee sc Ct Q K O W V F | code name k fr cur c cs callee Ct Q | code name k fr Ct Q];
    (split; [|exact T]); cbn [put vm_ip]; try exact I; rewrite Q in I; inversion I; subst; auto.
  apply first_script_spec, found_calm in F. constructor; [apply F|]. now constructor.
Qed.
Lemma run_clean fuel : forall s, calm_state s -> Forall silent_line (fst (run_lines E file fuel s)) /\ forall s', snd (run_lines E file fuel s) = Ok s' -> calm_state s'.
Proof.
  induction fuel as [|fuel IH]; intros s H.
  - cbn [run_lines]. destruct (vm_pass s), (vm_ip s); (split; [constructor|]); cbn [snd]; intros s' Q; congruence || (injection Q as <-; exact H).
  - assert (St : run_lines E file (S fuel) s = match vm_step E file s with Ok s1 => let r := run_lines E file fuel s1 in (step_lines E file s ++ fst r, snd r) | o => (step_lines E file s, o) end -> 
        Forall silent_line (fst (run_lines E file (S fuel) s)) /\ forall s', snd (run_lines E file (S fuel) s) = Ok s' -> calm_state s').
    { intros ->. destruct (vm_step E file s) as [s1| |] eqn:M; cbn [fst snd].
      - destruct (IH s1 (step_calm s s1 H M)) as [A B]. split; [apply Forall_app; split; [now apply step_clean|exact A]|exact B].
      - split; [now apply step_clean|discriminate].
      - split; [now apply step_clean|discriminate]. }
    cbn [run_lines] in *. destruct (vm_pass s), (vm_ip s); try (now apply St); (split; [constructor|]); cbn [snd]; intros s' Q; injection Q as <-; exact H.
Qed.
Lemma tests_clean fuel ts : (forall t, In t ts -> one_line (te_name t) /\ calm_script (te_script t)) -> forall s, Forall (fun f => one_line (fst f)) (vm_ip s) -> Forall silent_line (fst (tests_lines E file fuel ts s)).
Proof.
  induction ts as [|t ts IH]; intros Ht s H; [constructor|]. cbn [tests_lines]. destruct (Ht t (or_introl eq_refl)) as [Tn Ts].
  assert (L : calm_state (load_test s t)). { split; [|exact Ts]. cbn. constructor; [apply Ts|exact H]. }
  destruct (run_clean fuel _ L) as [A B]. destruct (run_lines E file fuel (load_test s t)) as [l o]. cbn [fst snd] in *. destruct o as [s1| |]; cbn [fst].
  - constructor; [exact Tn|]. apply Forall_app. split; [exact A|]. constructor; [exact Tn|]. apply IH; [intros u U; apply Ht; now right|]. destruct (B s1 eq_refl). assumption.
  - now constructor.
  - now constructor.
Qed.
Lemma spoken_clean fuel ts s : (forall t, In t ts -> one_line (te_name t) /\ calm_script (te_script t)) -> Forall (fun f => one_line (fst f)) (vm_ip s) -> Forall silent (map WTests (fst (tests_spoken E file fuel ts s))).
Proof.
  intros Ht H. destruct (tests_runner E file fuel ts s) as [A _]. pose proof (tests_clean fuel ts Ht s H) as K. rewrite <- A in K. clear A.
  induction (fst (tests_spoken E file fuel ts s)) as [|[x|l] sp IH]; [constructor| |]; cbn [map flat_map of_runner app] in *.
  - constructor; [exact I|]. now apply IH.
  - inversion K. constructor; [assumption|]. now apply IH.
Qed.
End Runner.

(** ** The whole program *)
Lemma absorb_calm f g : calm f -> calm g -> calm (absorb f g).
Proof.
  intros [F1 F2] [G1 G2]. split.
  - cbn [absorb f_scripts]. unfold extend. revert G1. generalize (f_scripts g). clear F2 G2. intros l. revert F1. generalize (f_scripts f). intros m. revert m. induction l as [|[k sc] l IH]; intros m F1 G1; [exact F1|].
    cbn [fold_left fst snd]. apply IH; [|intros k' sc' I; apply (G1 k'); now right]. intros k' sc' I. unfold nset in I. apply (mset_vals_In N.eqb N.eqb_spec) in I as [[-> ->]|I]; [apply (G1 k); now left|now apply (F1 k')].
  - cbn [absorb f_tests]. intros t I. apply in_app_or in I as [I|I]; auto.
Qed.
Lemma reordered_calm f g : reordered f g -> calm f -> calm g.
Proof.
  intros (_ & _ & _ & _ & _ & P & _ & _ & T) [F1 F2]. split; [|rewrite T; exact F2]. intros k sc I. apply (F1 k). eapply Permutation_in; [apply Permutation_sym; exact P|exact I].
Qed.

Context (order : fmpfile -> fmpfile) (segment_order : list (N * list (N * list N)) -> list (N * list (N * list N))) (fuel : nat) (no_testing : bool).
Hypothesis any_order : forall f, reordered f (order f).

(** What is shown has no dialogs, and a result is calm. *)
Definition decent {A} (good : A -> Prop) (x : showing E A) : Prop := Forall silent (fst x) /\ forall a, snd x = Ok a -> good a.
Lemma decent_and {A B} (P : A -> Prop) (Q : B -> Prop) x k : decent P x -> (forall a, P a -> decent Q (k a)) -> decent Q (and_show E x k).
Proof.
  intros [X Y] K. unfold and_show. destruct (snd x) as [a| |] eqn:R; [|split; [exact X|discriminate]..]. destruct (K a (Y a eq_refl)) as [U V]. split; [|exact V]. apply Forall_app. auto.
Qed.
Lemma decent_quiet {L A} (P : A -> Prop) (c : L -> shown E) (x : list L * outcome A) : (forall l, silent (c l)) -> (forall a, snd x = Ok a -> P a) -> decent P (through E c x).
Proof. intros Hx K. split; [|exact K]. cbn [through fst]. apply Forall_forall. intros y I. apply in_map_iff in I as (l & <- & _). apply Hx. Qed.
Lemma decent_hidden {A} (P : A -> Prop) (x : outcome A) : (forall a, x = Ok a -> P a) -> decent P (hidden E x).
Proof. intros K. split; [constructor|exact K]. Qed.
Lemma decent_puts l : Forall silent l -> decent (fun _ => True) (puts E l).
Proof. intros H. split; [exact H|auto]. Qed.

Lemma environment_calm f s : generate_test_environment f vm_new = Ok s -> vm_ip s = [] /\ vm_test s = None.
Proof. unfold generate_test_environment, generate_database. destruct (generate_from_fmp12 _ f); cbn [bind]; [|discriminate..]. intros H. injection H as <-. auto. Qed.
Lemma testing_decent f : calm f -> decent (fun _ => True) (testing_shown E order fuel no_testing f).
Proof.
  intros F. apply (reordered_calm _ _ (any_order f)) in F. unfold testing_shown. destruct (negb no_testing && _); [|now apply decent_hidden].
  apply (decent_and (fun s => vm_ip s = [] /\ vm_test s = None)); [apply decent_hidden, environment_calm|]. intros s [I T].
  apply (decent_and (fun _ => True)); [|intros _ _; now apply decent_hidden]. split; [|auto]. cbn [through fst]. apply spoken_clean; [exact F|apply F|]. rewrite I. constructor.
Qed.
Lemma compile_decent f i : calm f -> (forall g cs, source_told E (snd i) = (cs, Ok g) -> calm g) -> decent calm (compile_one_shown E order fuel no_testing f i).
Proof.
  intros F G. unfold compile_one_shown. apply (decent_and calm).
  - apply decent_quiet; [intros; exact I|]. intros g Q. apply (G g (fst (source_told E (snd i)))). rewrite <- Q. now destruct (source_told E (snd i)).
  - intros tmp T. apply (decent_and (fun _ => True)); [now apply decent_hidden|]. intros name _. cbv zeta. assert (A : calm (absorb (set_name f name) tmp)) by (apply absorb_calm; [exact F|exact T]).
    apply (decent_and (fun _ => True)); [apply decent_puts; repeat constructor|]. intros _ _. apply (decent_and (fun _ => True)); [now apply testing_decent|]. intros _ _.
    apply (decent_and (fun _ => True)); [apply decent_quiet; auto; intros; exact I|]. intros b _. apply (decent_and (fun _ => True)); [apply decent_puts; repeat constructor|]. intros _ _.
    apply decent_hidden. intros a Q. injection Q as <-. exact A.
Qed.
Lemma decompile_decent f i : calm f -> (forall g l, decompile_reported segment_order fuel (snd i) = (l, Ok g) -> calm g) -> decent calm (decompile_one_shown E order segment_order fuel no_testing f i).
Proof.
  intros F G. unfold decompile_one_shown. apply (decent_and calm).
  - apply decent_quiet; [intros; exact I|]. intros g Q. apply (G g (fst (decompile_reported segment_order fuel (snd i)))). rewrite <- Q. now destruct (decompile_reported segment_order fuel (snd i)).
  - intros tmp T. apply (decent_and (fun _ => True)); [apply decent_puts; repeat constructor|]. intros _ _. cbv zeta. assert (A : calm (absorb f tmp)) by (now apply absorb_calm).
    apply (decent_and (fun _ => True)); [now apply testing_decent|]. intros _ _. apply decent_hidden. intros a Q. injection Q as <-. exact A.
Qed.
Lemma inputs_decent (body : fmpfile -> list N * list N -> showing E fmpfile) inputs : (forall f i, calm f -> In i inputs -> decent calm (body f i)) -> forall f, calm f -> decent calm (inputs_shown E body inputs f).
Proof.
  induction inputs as [|i inputs IH]; intros H f F; [apply decent_hidden; intros a Q; injection Q as <-; exact F|]. cbn [inputs_shown]. apply (decent_and calm); [apply H; [exact F|now left]|].
  intros g G. apply IH; [|exact G]. intros h j Hh J. apply H; [exact Hh|now right].
Qed.
Lemma files_decent tests : (forall i g cs, In i tests -> source_told E (snd i) = (cs, Ok g) -> calm g) -> forall f, calm f -> decent calm (test_files_shown E tests f).
Proof.
  induction tests as [|i tests IH]; intros H f F; [apply decent_hidden; intros a Q; injection Q as <-; exact F|]. cbn [test_files_shown]. apply (decent_and calm).
  - apply decent_quiet; [intros; exact I|]. intros g Q. apply (H i g (fst (source_told E (snd i)))); [now left|]. rewrite <- Q. now destruct (source_told E (snd i)).
  - intros g G. apply IH; [intros j h cs J; apply H; now right|]. split; [apply F|]. cbn [put_tests f_tests]. intros t T. apply in_app_or in T as [T|T]; [now apply F|now apply G].
Qed.
Lemma new_calm : calm fmpfile_new.
Proof. split; intros ? *; intros []. Qed.
End Shown.
