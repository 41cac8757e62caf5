(** C43-C50, C56, C65-C68: the test runner. *)
From Coq Require Import Ascii String NArith List Bool Sorted Lia Arith.
From Verif Require Import Prelude PreludeFacts StrOrder StrOrderFacts InstrModel ComponentModel CalcModel CalcSpec CalcFacts CalcDemo DbModel DbGenSpec DbSpec DbFacts DbProofs DbInv
  DbProps EvalModel EvalSpec EvalProofs EvalCycle EvalFuel VmModel VmSpec VmTestSpec VmParts VmSteps VmRun VmBack VmFlat.
Import ListNotations.
Local Open Scope N_scope.

(** ** Examples of scripts *)
Definition st (o : instruction) (args : list string) : step := mkStep o 0 (map lit args).
Definition quoted_text (s : string) : list N := in_quotes (lit s).
Definition set_var (x c : string) : step := st ISetVariable [x; c].
Definition exit_if (c : string) : step := st IExitLoopIf [c].
Definition call_of (name : string) : step := mkStep IPerformScript 0 [quoted_text name].
Definition a_script (name : string) (l : list step) : script := mkScript (lit name) [] [] [] l.
Definition a_test (name : string) (l : list step) : test := mkTest (lit name) (a_script name l) [] [] [].
Definition a_file (scripts : list script) (tests : list test) : fmpfile :=
  mkFile (lit "f") [] [] [] [] (map (fun sc => (0, sc)) scripts) [] [] tests.

Ltac computed := apply (calc_gives_at _ _ 9); [vm_compute; reflexivity|discriminate].
(** A runner's data with an empty database, and setting variables and calling in such a state. *)
Definition plain_mem (vs : list scope) : mem := mkMem db_new vs false [] true.
Lemma does_set n x c v before sc after vs vs' : computes whole n (plain_mem vs) (lit c) v -> vs = before ++ sc :: after -> lenN before = n - 1 ->
  vs' = before ++ sset sc (lit x) v :: after -> does whole [] n (set_var x c) (plain_mem vs) (plain_mem vs').
Proof. intros C -> L ->. exact (DoVariable whole [] n (set_var x c) (plain_mem (before ++ sc :: after)) (lit x) (lit c) [] v before sc after eq_refl eq_refl C eq_refl L). Qed.
Lemma call_goes library n name q p vs vs1 vs2 e m' : library (lit name) = Some q -> computes whole n (plain_mem vs) (quoted_text name) (quoted_text name) ->
  vs1 = vs ++ [[]] -> exec whole [] library (n + 1) q (plain_mem vs1) Through (plain_mem vs2) -> exec whole [] library n p (plain_mem vs2) e m' ->
  exec whole [] library n (Call (call_of name) p) (plain_mem vs) e m'.
Proof. intros L C -> X Y. eapply XCall with (name := lit name) (q := q); [reflexivity|exact C|exact L|exact X|exact Y]. Qed.
Ltac set_in rest := eapply XDo; [eapply (does_set _ _ _ _ [] _ rest); [computed|reflexivity|reflexivity|vm_compute; reflexivity]|reflexivity|].
Ltac set_step := set_in (@nil scope).
Ltac not_true := let H := fresh in intros H; vm_compute in H; discriminate H.

(** C65: a step that is not part of control flow goes well exactly when its effect is defined; then it has this effect, and the runner
    moves on to the next step. *)
Theorem C65_step_effect : forall E file s cur s', current file s cur -> simple cur ->
  (vm_step E file s = Ok s' <->
   exists m', does E (vm_layouts s) (lenN (vm_ip s)) cur (mem_of s) m' /\ s' = moved_on s m').
Proof.
  intros E file s cur s' C Si. apply current_state in C as (t & name & k & fr & code & Hs & Ht & Hip & Hn & Hk & R). rewrite Hn.
  rewrite Hs at 1. rewrite (step_simple E file (vm_layouts s) t name fr code k _ _ _ cur s' R Hk Si).
  assert (M : forall m', moved_on s m' = state (vm_layouts s) t name fr (k + 1) m' (vm_branch s) (vm_loops s)).
  { intros m'. unfold moved_on, state. now rewrite Hip, Ht. }
  split; intros (m' & H1 & H2); exists m'; (split; [exact H1|]); [rewrite M; exact H2|rewrite M in H2; exact H2].
Qed.
Print Assumptions C65_step_effect.
Example C65_example :
  let t := a_test "t" [set_var "x" "1"; set_var "y" "x + 1"] in
  let s := load_test vm_new t in
  current fmpfile_new s (set_var "x" "1") /\ simple (set_var "x" "1") /\
  vm_step whole fmpfile_new s = Ok (moved_on s (mkMem db_new [[(lit "x", lit "1")]] false [] true)).
Proof.
  split; [|split; [exact I|vm_compute; reflexivity]].
  do 5 eexists. split; [reflexivity|]. split; [reflexivity|]. split; [|reflexivity]. reflexivity.
Qed.

(** C43, C44, C46: a test whose script is a respected program (no loop inside a loop, no if inside an if, no exit inside an if, calls
    outside of both) ends exactly in the ways the program can be executed. *)
Theorem test_runs_as_meant : forall E file library s t p e m',
  ready s -> respected p -> lays p (sc_steps (te_script t)) -> describes library file p ->
  ((exists fuel s', run_test E file fuel (load_test s t) = Ok s' /\ mem_of s' = m' /\ ended e s') <->
   exec E (vm_layouts s) library 1 p (start s) e m').
Proof.
  intros E file library s t p e m' Rd Rp Lp D. split.
  - intros (fuel & s' & H & <- & En). destruct (whole_back E file library p D s t Rd Rp Lp fuel s' H) as (e' & X & En').
    assert (e = e'); [|now subst]. destruct e, e'; cbn in En, En'; try tauto; try (destruct En as (_ & En & _); congruence); destruct En' as (_ & En' & _); congruence.
  - intros X. apply (whole_fwd E file library p D s t Rd Rp Lp e m' X).
Qed.
Print Assumptions test_runs_as_meant.
Example test_runs_as_meant_ex : ready vm_new /\ respected (Loop (Leave (exit_if "1 == 1") Done) Done) /\
  lays (Loop (Leave (exit_if "1 == 1") Done) Done) [st ILoop []; exit_if "1 == 1"; st IEndLoop []] /\
  exists s', run_test whole fmpfile_new 9 (load_test vm_new (a_test "t" [st ILoop []; exit_if "1 == 1"; st IEndLoop []])) = Ok s' /\ ended Through s'.
Proof.
  split; [repeat split|]. split; [reflexivity|]. split; [|eexists; split; [vm_compute; reflexivity|repeat split]].
  apply (LayLoop (st ILoop []) (st IEndLoop []) (Leave (exit_if "1 == 1") Done) Done [exit_if "1 == 1"] []); try reflexivity; repeat constructor.
Qed.

(** C43, C44, C46: more steps than needed make no difference, so a test has at most one end. *)
Theorem test_end_unique : forall E file s s1 s2 f g, run_test E file f s = Ok s1 -> run_test E file g s = Ok s2 -> s1 = s2.
Proof.
  intros E file s s1 s2 f g H K. pose proof (run_more E file f s s1 H (Nat.max f g) (Nat.le_max_l _ _)).
  pose proof (run_more E file g s s2 K (Nat.max f g) (Nat.le_max_r _ _)). congruence.
Qed.
Print Assumptions test_end_unique.
Example test_runs_example :
  let inner := Do (set_var "x" "2") Done in
  let p := If (lit "1 == 1") (Do (set_var "x" "1") Done) NoElse (Call (call_of "inner") Done) in
  let library := fun name => if str_eqb name (lit "inner") then Some inner else None in
  let file := a_file [a_script "inner" [set_var "x" "2"]] [] in
  let t := a_test "t" [st IIf ["1 == 1"]%string; set_var "x" "1"; st IEndIf []; call_of "inner"] in
  ready vm_new /\ respected p /\ lays p (sc_steps (te_script t)) /\ describes library file p /\
  exists s', run_test whole file 20 (load_test vm_new t) = Ok s' /\ ended Through s' /\ vm_vars s' = [[(lit "x", lit "1")]; [(lit "x", lit "2")]].
Proof.
  cbv zeta. split; [repeat split|]. split; [reflexivity|]. split; [|split; [split|]].
  - refine (LayIf (st IIf ["1 == 1"]%string) (lit "1 == 1") [] _ _ _ [set_var "x" "1"] [st IEndIf []] [call_of "inner"] eq_refl eq_refl _ _ _);
      [constructor; [exact I|constructor]|now constructor|constructor; [reflexivity|constructor]].
  - intros name q H. destruct (str_eqb_spec name (lit "inner")) as [->|]; inversion H; subst. split; [reflexivity|].
    exists (a_script "inner" [set_var "x" "2"]). split; [exists [], []; repeat split; constructor|]. constructor; [exact I|constructor].
  - intros _ name sc (b & a & H & <- & _). destruct b as [|x [|y b]]; inversion H; subst. discriminate.
  - eexists. split; [vm_compute; reflexivity|]. split; [repeat split|reflexivity].
Qed.

Definition no_library : list N -> option prog := fun _ => None.
Lemma no_library_ok file p : calls p = false -> describes no_library file p.
Proof. intros H. split; [discriminate|congruence]. Qed.
Lemma straight_calls l p : calls (straight l p) = calls p.
Proof. induction l; auto. Qed.
Lemma clauses_calls bs els : calls_clauses (clause_prog bs els) = false.
Proof. induction bs as [|[c b] bs IH]; cbn [clause_prog calls_clauses]; [destruct els; auto; cbn; now rewrite straight_calls|]. now rewrite straight_calls, IH. Qed.

(** C46: a test without control flow executes its steps once, in order, up to a failed assertion. *)
Theorem C46_straight : forall E file s t e m', ready s -> Forall simple (sc_steps (te_script t)) ->
  ((exists fuel s', run_test E file fuel (load_test s t) = Ok s' /\ mem_of s' = m' /\ ended e s') <->
   in_order E (vm_layouts s) 1 (sc_steps (te_script t)) (start s) e m').
Proof.
  intros E file s t e m' Rd F.
  rewrite (test_runs_as_meant E file no_library s t (straight (sc_steps (te_script t)) Done) e m' Rd).
  - apply straight_only.
  - unfold respected. now rewrite straight_tame.
  - now apply straight_alone.
  - apply no_library_ok. now rewrite straight_calls.
Qed.
Print Assumptions C46_straight.
Example C46_straight_ex : ready vm_new /\ Forall simple [set_var "x" "1"; st IAssert ["x == 2"]%string; set_var "x" "3"] /\
  exists s', run_test whole fmpfile_new 9 (load_test vm_new (a_test "t" [set_var "x" "1"; st IAssert ["x == 2"]%string; set_var "x" "3"])) = Ok s' /\
    m_vars (mem_of s') = [[(lit "x", lit "1")]].
Proof. split; [repeat split|]. split; [repeat constructor|]. eexists. split; [vm_compute; reflexivity|reflexivity]. Qed.

(** C46: and it never goes on for ever. *)
Lemma straight_ends E file maps t code (F : Forall simple code) (R : sc_steps (te_script t) = code) name br lps :
  forall l pre m, code = pre ++ l -> run_test E file (S (length l)) (state maps t name [] (lenN pre) m br lps) <> NoFuel.
Proof.
  induction l as [|s l IH]; intros pre m Hc.
  - cbn [length run_test]. change (vm_pass (state maps t name [] (lenN pre) m br lps)) with (m_pass m). destruct (m_pass m) eqn:P; [|discriminate].
    cbn [vm_ip state]. rewrite (step_pop E file maps t name [] code) by (auto; rewrite Hc, app_nil_r; lia). cbn [bind vm_pass vm_ip]. rewrite P. discriminate.
  - cbn [length]. remember (S (length l)) as f eqn:Hf. cbn [run_test]. subst f. change (vm_pass (state maps t name [] (lenN pre) m br lps)) with (m_pass m).
    destruct (m_pass m) eqn:P; [|discriminate]. cbn [vm_ip state]. fold (state maps t name [] (lenN pre) m br lps).
    destruct (vm_step E file (state maps t name [] (lenN pre) m br lps)) as [s1| |] eqn:K; cbn [bind]; [|discriminate|].
    + apply (step_simple E file maps t name [] code (lenN pre) m br lps s s1) in K; [|exact R|rewrite Hc; apply nthN_app_len|].
      * destruct K as (m' & _ & ->). replace (lenN pre + 1) with (lenN (pre ++ [s])) by (rewrite lenN_app, lenN_cons, lenN_nil; lia).
        apply IH. rewrite Hc. now rewrite <- app_assoc.
      * rewrite Forall_forall in F. apply F. rewrite Hc. apply in_or_app. right. now left.
    + exfalso. eapply step_never_nofuel; eauto.
Qed.
Theorem C46_ends : forall E file s t fuel, ready s -> Forall simple (sc_steps (te_script t)) -> (length (sc_steps (te_script t)) < fuel)%nat ->
  run_test E file fuel (load_test s t) <> NoFuel.
Proof.
  intros E file s t fuel Rd F L H. rewrite (load_state s t Rd) in H.
  pose proof (straight_ends E file (vm_layouts s) t _ F eq_refl (sc_name (te_script t)) false (vm_loops s) (sc_steps (te_script t)) [] (start s) eq_refl) as K.
  change (lenN (@nil step)) with 0 in K.
  destruct (run_test E file (S (length (sc_steps (te_script t)))) (state (vm_layouts s) t (sc_name (te_script t)) [] 0 (start s) false (vm_loops s))) as [s'| |] eqn:Q.
  - apply run_more with (g := fuel) in Q; [congruence|lia].
  - rewrite (run_panics _ _ _ _ Q fuel) in H by lia. discriminate.
  - now apply K.
Qed.
Print Assumptions C46_ends.
Example C46_example : let t := a_test "t" [set_var "x" "1"; set_var "y" "x + 1"; st IAssert ["y == 2"]%string; set_var "x" "y"] in
  ready vm_new /\ Forall simple (sc_steps (te_script t)) /\
  exists s', run_test whole fmpfile_new 5 (load_test vm_new t) = Ok s' /\ m_vars (mem_of s') = [[(lit "x", lit "2"); (lit "y", lit "2")]] /\ ended Through s'.
Proof.
  split; [repeat split|]. split; [repeat constructor|]. eexists. split; [vm_compute; reflexivity|]. split; [reflexivity|]. repeat split.
Qed.

(** C43: of an if block without nesting, the steps of the first branch whose condition is true are executed, otherwise those of the
    else branch, and then the steps after the block. *)
Theorem C43_first_true_branch : forall E file s t c b bs els after e m', ready s ->
  sc_steps (te_script t) = if_steps c b bs els ++ after ->
  Forall simple b -> Forall (fun x => Forall simple (snd x)) bs -> match els with Some l => Forall simple l | None => True end -> Forall simple after ->
  ((exists fuel s', run_test E file fuel (load_test s t) = Ok s' /\ mem_of s' = m' /\ ended e s') <->
   exists body, picks E 1 (start s) (match els with Some l => l | None => [] end) ((c, b) :: bs) body /\
     in_order E (vm_layouts s) 1 (body ++ after) (start s) e m').
Proof.
  intros E file s t c b bs els after e m' Rd Hc F1 F2 F3 F4.
  rewrite (test_runs_as_meant E file no_library s t (flat_if c b bs els (straight after Done)) e m' Rd).
  - rewrite flat_if_exec. split; intros (body & H & K); exists body; (split; [exact H|]).
    + rewrite <- straight_only with (lib := no_library). rewrite straight_app, straight_exec. destruct K as [(m1 & K1 & K2)|K]; [left; eauto|auto].
    + rewrite <- straight_only with (lib := no_library) in K. rewrite straight_app, straight_exec in K. exact K.
  - unfold respected, flat_if. cbn [tame]. now rewrite !straight_tame, clauses_tame.
  - rewrite Hc. unfold flat_if, if_steps. cbn [app]. rewrite <- app_assoc. econstructor; try reflexivity.
    + now apply straight_alone.
    + now apply clauses_lays.
    + now apply straight_alone.
  - apply no_library_ok. unfold flat_if. cbn [calls]. now rewrite !straight_calls, clauses_calls.
Qed.
Print Assumptions C43_first_true_branch.
Example C43_example :
  let b i := [set_var "x" i] in
  let t := a_test "t" (if_steps (lit "1 == 2") (b "1"%string) [(lit "2 == 2", b "2"%string); (lit "3 == 3", b "3"%string)] (Some (b "4"%string)) ++ [set_var "y" "x"]) in
  picks whole 1 (start vm_new) (b "4"%string) [(lit "1 == 2", b "1"%string); (lit "2 == 2", b "2"%string); (lit "3 == 3", b "3"%string)] (b "2"%string) /\
  exists s', run_test whole fmpfile_new 20 (load_test vm_new t) = Ok s' /\ m_vars (mem_of s') = [[(lit "x", lit "2"); (lit "y", lit "2")]] /\ ended Through s'.
Proof.
  split.
  - eapply PickNext; [computed|not_true|]. apply PickHere. computed.
  - eexists. split; [vm_compute; reflexivity|]. split; [reflexivity|]. repeat split.
Qed.

(** C44: a loop without nesting repeats the steps before and after its exit condition, until that is true. *)
Theorem C44_loop : forall E file s t before x after rest e m', ready s ->
  sc_steps (te_script t) = loop_steps before x after ++ rest ->
  Forall simple before -> leaving x -> Forall simple after -> Forall simple rest ->
  ((exists fuel s', run_test E file fuel (load_test s t) = Ok s' /\ mem_of s' = m' /\ ended e s') <->
   (exists m1, rounds E (vm_layouts s) 1 before x after (start s) Through m1 /\ in_order E (vm_layouts s) 1 rest m1 e m') \/
   (e = Failed /\ rounds E (vm_layouts s) 1 before x after (start s) Failed m')).
Proof.
  intros E file s t before x after rest e m' Rd Hc F1 F2 F3 F4.
  rewrite (test_runs_as_meant E file no_library s t (flat_loop before x after (straight rest Done)) e m' Rd).
  - rewrite flat_loop_exec. split; (intros [(m1 & H & K)|H]; [left; exists m1; split; [exact H|]|auto]); eapply straight_only; eauto.
  - unfold respected, flat_loop. cbn [tame]. rewrite !straight_tame. cbn [tame]. now rewrite !straight_tame.
  - rewrite Hc. unfold flat_loop, loop_steps. cbn [app]. rewrite <- app_assoc. cbn [app]. econstructor; try reflexivity.
    + apply straight_lays; auto. constructor; auto. now apply straight_alone.
    + now apply straight_alone.
  - apply no_library_ok. unfold flat_loop. cbn [calls]. rewrite !straight_calls. cbn [calls]. now rewrite !straight_calls.
Qed.
Print Assumptions C44_loop.
Example C44_example : let t := a_test "t" (set_var "n" "0" :: loop_steps [set_var "n" "n + 1"] (exit_if "n == 3") [set_var "last" "n"] ++ [set_var "end" "n"]) in
  exists s', run_test whole fmpfile_new 40 (load_test vm_new t) = Ok s' /\
    m_vars (mem_of s') = [[(lit "n", lit "3"); (lit "last", lit "2"); (lit "end", lit "3")]] /\ ended Through s'.
Proof. eexists. split; [vm_compute; reflexivity|]. split; [reflexivity|]. repeat split. Qed.
Example C44_example' :
  exists m, rounds whole [] 1 [set_var "n" "1"] (exit_if "n == 1") [] (start vm_new) Through m /\ m_vars m = [[(lit "n", lit "1")]].
Proof.
  eexists. split.
  - eapply RoundExit.
    + eapply InStep; [eapply (DoVariable _ _ _ _ _ _ _ _ _ [] _ []); [reflexivity|reflexivity|computed|reflexivity|reflexivity]|reflexivity|constructor].
    + eapply LvExit; [reflexivity|reflexivity|computed].
  - vm_compute. reflexivity.
Qed.

(** C45: with a loop inside a loop, leaving the inner loop leads on after the first end of a loop, but the inner loop stays the one that
    is repeated: the outer loop body is not repeated. *)
Definition nested_loop : prog :=
  Do (set_var "n" "0") (Do (set_var "k" "0")
    (Loop (Do (set_var "n" "n + 1")
             (Loop (Do (set_var "k" "k + 1") (Leave (exit_if "1 == 1") Done))
                   (Leave (exit_if "k == 2") Done)))
          Done)).
Definition nested_loop_steps : list step :=
  [set_var "n" "0"; set_var "k" "0"; st ILoop []; set_var "n" "n + 1"; st ILoop []; set_var "k" "k + 1"; exit_if "1 == 1"; st IEndLoop [];
   exit_if "k == 2"; st IEndLoop []].
Theorem C45_nested_loop_refuted : exists p t m' s',
  lays p (sc_steps (te_script t)) /\ ready vm_new /\ exec whole [] no_library 1 p (start vm_new) Through m' /\
  m_vars m' = [[(lit "n", lit "2"); (lit "k", lit "2")]] /\
  run_test whole fmpfile_new 50 (load_test vm_new t) = Ok s' /\ ended Through s' /\ m_vars (mem_of s') = [[(lit "n", lit "1"); (lit "k", lit "2")]].
Proof.
  exists nested_loop, (a_test "t" nested_loop_steps). eexists. eexists. split; [|split; [repeat split|split; [|split; [|split; [vm_compute; reflexivity|split; [repeat split|reflexivity]]]]]].
  - cbn [te_script a_test sc_steps a_script]. unfold nested_loop, nested_loop_steps.
    constructor; [exact I|]. constructor; [exact I|].
    change (lays (Loop (Do (set_var "n" "n + 1") (Loop (Do (set_var "k" "k + 1") (Leave (exit_if "1 == 1") Done)) (Leave (exit_if "k == 2") Done))) Done)
      (st ILoop [] :: [set_var "n" "n + 1"; st ILoop []; set_var "k" "k + 1"; exit_if "1 == 1"; st IEndLoop []; exit_if "k == 2"] ++ st IEndLoop [] :: [])).
    constructor; [reflexivity|reflexivity| |constructor]. constructor; [exact I|].
    change (lays (Loop (Do (set_var "k" "k + 1") (Leave (exit_if "1 == 1") Done)) (Leave (exit_if "k == 2") Done))
      (st ILoop [] :: [set_var "k" "k + 1"; exit_if "1 == 1"] ++ st IEndLoop [] :: [exit_if "k == 2"])).
    constructor; [reflexivity|reflexivity| |]; repeat (constructor; [first [exact I|left; reflexivity]|]); constructor.
  - change (start vm_new) with (plain_mem [[]]). unfold nested_loop. set_step. set_step. eapply XLoop; [|constructor].
    eapply RpAgain.
    { set_step. eapply XLoop; [eapply RpExit; set_step; apply XLeave; eapply LvExit; [reflexivity|reflexivity|computed]|].
      eapply XStay; [eapply LvStay; [reflexivity|reflexivity|computed|not_true]|]. constructor. }
    eapply RpExit. set_step. eapply XLoop; [eapply RpExit; set_step; apply XLeave; eapply LvExit; [reflexivity|reflexivity|computed]|].
    apply XLeave. eapply LvExit; [reflexivity|reflexivity|computed].
  - vm_compute. reflexivity.
Qed.
Print Assumptions C45_nested_loop_refuted.

(** C45: with an if inside an if whose condition is false, the steps after the inner block are executed all the same. *)
Theorem C45_nested_if_refuted : exists p t m' s',
  lays p (sc_steps (te_script t)) /\ ready vm_new /\ exec whole [] no_library 1 p (start vm_new) Through m' /\ m_vars m' = [[]] /\
  run_test whole fmpfile_new 50 (load_test vm_new t) = Ok s' /\ ended Through s' /\ m_vars (mem_of s') = [[(lit "x", lit "2")]].
Proof.
  exists (If (lit "1 == 2") (If (lit "1 == 1") (Do (set_var "x" "1") Done) NoElse (Do (set_var "x" "2") Done)) NoElse Done),
    (a_test "t" [st IIf ["1 == 2"]%string; st IIf ["1 == 1"]%string; set_var "x" "1"; st IEndIf []; set_var "x" "2"; st IEndIf []]).
  eexists. eexists. split; [|split; [repeat split|split; [|split; [|split; [vm_compute; reflexivity|split; [repeat split|reflexivity]]]]]].
  - cbn [te_script a_test sc_steps a_script].
    refine (LayIf (st IIf ["1 == 2"]%string) (lit "1 == 2") [] _ _ _ [st IIf ["1 == 1"]%string; set_var "x" "1"; st IEndIf []; set_var "x" "2"] [st IEndIf []] [] eq_refl eq_refl _ _ _);
      [|now constructor|constructor].
    refine (LayIf (st IIf ["1 == 1"]%string) (lit "1 == 1") [] _ _ _ [set_var "x" "1"] [st IEndIf []] [set_var "x" "2"] eq_refl eq_refl _ _ _);
      [constructor; [exact I|constructor]|now constructor|constructor; [exact I|constructor]].
  - eapply XElse; [computed|not_true|constructor|constructor].
  - reflexivity.
Qed.
Print Assumptions C45_nested_if_refuted.

(** C45: leaving a loop inside an if keeps the note that a branch was taken: the else branch of the next block is passed over. *)
Theorem C45_exit_inside_if_refuted : exists p t m' s',
  lays p (sc_steps (te_script t)) /\ ready vm_new /\ exec whole [] no_library 1 p (start vm_new) Through m' /\ m_vars m' = [[(lit "x", lit "2")]] /\
  run_test whole fmpfile_new 50 (load_test vm_new t) = Ok s' /\ ended Through s' /\ m_vars (mem_of s') = [[]].
Proof.
  exists (Loop (If (lit "1 == 1") (Leave (exit_if "1 == 1") Done) NoElse Done)
           (If (lit "1 == 2") (Do (set_var "x" "1") Done) (Else (Do (set_var "x" "2") Done)) Done)),
    (a_test "t" [st ILoop []; st IIf ["1 == 1"]%string; exit_if "1 == 1"; st IEndIf []; st IEndLoop [];
                 st IIf ["1 == 2"]%string; set_var "x" "1"; st IElse []; set_var "x" "2"; st IEndIf []]).
  eexists. eexists. split; [|split; [repeat split|split; [|split; [|split; [vm_compute; reflexivity|split; [repeat split|reflexivity]]]]]].
  - cbn [te_script a_test sc_steps a_script].
    refine (LayLoop (st ILoop []) (st IEndLoop []) _ _ [st IIf ["1 == 1"]%string; exit_if "1 == 1"; st IEndIf []] _ eq_refl eq_refl _ _).
    + refine (LayIf (st IIf ["1 == 1"]%string) (lit "1 == 1") [] _ _ _ [exit_if "1 == 1"] [st IEndIf []] [] eq_refl eq_refl _ _ _);
        [constructor; [left; reflexivity|constructor]|now constructor|constructor].
    + refine (LayIf (st IIf ["1 == 2"]%string) (lit "1 == 2") [] _ _ _ [set_var "x" "1"] [st IElse []; set_var "x" "2"; st IEndIf []] [] eq_refl eq_refl _ _ _);
        [constructor; [exact I|constructor]| |constructor].
      refine (LayElse (st IElse []) _ [set_var "x" "2"] (st IEndIf []) eq_refl _ eq_refl). constructor; [exact I|constructor].
  - change (start vm_new) with (plain_mem [[]]). eapply XLoop.
    + apply RpExit. eapply XIfEnds; [computed| |discriminate]. apply XLeave. eapply LvExit; [reflexivity|reflexivity|computed].
    + eapply XElse; [computed|not_true| |constructor]. constructor. set_step. constructor.
  - vm_compute. reflexivity.
Qed.
Print Assumptions C45_exit_inside_if_refuted.

(** C45: after a call inside a loop of a script with a loop of its own, the end of the outer loop leads to the wrong step: the first step
    of the loop body is left out from then on. *)
Definition idle_step : step := st IUnsortRecords [].
Definition loop_script : prog := Do idle_step (Do idle_step (Do idle_step (Loop (Leave (exit_if "1 == 1") Done) Done))).
Definition loop_script_steps : list step := [idle_step; idle_step; idle_step; st ILoop []; exit_if "1 == 1"; st IEndLoop []].
Definition loop_library (name : list N) : option prog := if str_eqb name (lit "inner") then Some loop_script else None.
Theorem C45_loop_in_called_script_refuted : exists file p t m' s',
  lays p (sc_steps (te_script t)) /\ describes loop_library file p /\ ready vm_new /\ exec whole [] loop_library 1 p (start vm_new) Through m' /\
  hd_error (m_vars m') = Some [(lit "n", lit "2"); (lit "k", lit "2")] /\
  run_test whole file 50 (load_test vm_new t) = Ok s' /\ ended Through s' /\ hd_error (m_vars (mem_of s')) = Some [(lit "n", lit "1"); (lit "k", lit "2")].
Proof.
  exists (a_file [a_script "inner" loop_script_steps] []),
    (Do (set_var "n" "0") (Do (set_var "k" "0") (Loop (Do (set_var "n" "n + 1") (Do (set_var "k" "k + 1") (Call (call_of "inner") (Leave (exit_if "k == 2") Done)))) Done))),
    (a_test "t" [set_var "n" "0"; set_var "k" "0"; st ILoop []; set_var "n" "n + 1"; set_var "k" "k + 1"; call_of "inner"; exit_if "k == 2"; st IEndLoop []]).
  eexists. eexists. split; [|split; [|split; [repeat split|split; [|split; [|split; [vm_compute; reflexivity|split; [repeat split|reflexivity]]]]]]].
  - cbn [te_script a_test sc_steps a_script]. constructor; [exact I|]. constructor; [exact I|].
    refine (LayLoop (st ILoop []) (st IEndLoop []) _ _ [set_var "n" "n + 1"; set_var "k" "k + 1"; call_of "inner"; exit_if "k == 2"] [] eq_refl eq_refl _ _); [|constructor].
    constructor; [exact I|]. constructor; [exact I|]. constructor; [reflexivity|]. constructor; [left; reflexivity|]. constructor.
  - split.
    + intros name q H. unfold loop_library in H. destruct (str_eqb_spec name (lit "inner")) as [->|]; inversion H; subst. split; [reflexivity|].
      exists (a_script "inner" loop_script_steps). split; [exists [], []; repeat split; constructor|].
      do 3 (constructor; [exact I|]). refine (LayLoop (st ILoop []) (st IEndLoop []) _ _ [exit_if "1 == 1"] [] eq_refl eq_refl _ _); [|constructor].
      constructor; [left; reflexivity|constructor].
    + intros _ name sc (b & a & H & <- & _). unfold loop_library. destruct b as [|x [|y b]]; inversion H; subst. discriminate.
  - change (start vm_new) with (plain_mem [[]]). set_step. set_step. eapply XLoop; [|constructor].
    assert (SUB : forall n m, m_pass m = true -> exec whole [] loop_library n loop_script m Through m).
    { intros n m P. do 3 (eapply XDo; [apply DoNothing; unfold idle; cbn; intuition discriminate|exact P|]). eapply XLoop; [|constructor]. apply RpExit, XLeave. eapply LvExit; [reflexivity|reflexivity|]. apply (calc_gives_at _ _ 1); [reflexivity|discriminate]. }
    eapply RpAgain.
    { set_step. set_step. eapply call_goes with (q := loop_script); [reflexivity|computed|vm_compute; reflexivity|apply SUB; reflexivity|].
      eapply XStay; [eapply LvStay; [reflexivity|reflexivity|computed|not_true]|]. constructor. }
    eapply RpExit. set_in [@nil (list N * list N)]. set_in [@nil (list N * list N)].
    eapply call_goes with (q := loop_script); [reflexivity|computed|vm_compute; reflexivity|apply SUB; reflexivity|].
    apply XLeave. eapply LvExit; [reflexivity|reflexivity|computed].
  - vm_compute. reflexivity.
Qed.
Print Assumptions C45_loop_in_called_script_refuted.

(** C47: once a test has failed, every later test is reported as failed, and none of its steps is executed: all that happens is that the
    test is loaded. *)
Theorem C47_after_failure : forall E file fuel ts s, vm_pass s = false ->
  run_tests_loop E file fuel ts s = Ok (map (fun t => (te_name t, false)) ts, fold_left load_test ts s).
Proof.
  intros E file fuel. induction ts as [|t ts IH]; intros s P; [reflexivity|]. cbn [run_tests_loop map fold_left].
  assert (R : run_test E file fuel (load_test s t) = Ok (load_test s t)).
  { destruct fuel; cbn [run_test]; change (vm_pass (load_test s t)) with (vm_pass s); rewrite P; reflexivity. }
  rewrite R. cbn [bind]. rewrite (IH (load_test s t) P). cbn [bind]. change (vm_pass (load_test s t)) with (vm_pass s). now rewrite P.
Qed.
Print Assumptions C47_after_failure.
Example C47_after_failure_ex : exists s, run_test whole fmpfile_new 9 (load_test vm_new (a_test "t" [st IAssert ["1 == 2"]%string])) = Ok s /\ vm_pass s = false.
Proof. eexists. split; [vm_compute; reflexivity|reflexivity]. Qed.
(** C47: loading a test does not touch the data. *)
Theorem C47_loading : forall ts s, vm_db (fold_left load_test ts s) = vm_db s /\ vm_find (fold_left load_test ts s) = vm_find s /\
  vm_criteria (fold_left load_test ts s) = vm_criteria s /\ vm_vars (fold_left load_test ts s) = vm_vars s ++ repeat [] (length ts).
Proof.
  induction ts as [|t ts IH]; intros s; cbn [fold_left length repeat]; [now rewrite app_nil_r|].
  destruct (IH (load_test s t)) as (H1 & H2 & H3 & H4). rewrite H1, H2, H3, H4. repeat split. cbn. now rewrite <- app_assoc.
Qed.
Print Assumptions C47_loading.
Example C47_loading_ex : vm_vars (fold_left load_test [a_test "a" []; a_test "b" [set_var "x" "1"]] vm_new) = [[]; []].
Proof. reflexivity. Qed.
(** C47: so the reports of a file are successes up to the first failure, and failures from there on. *)
Theorem C47_reports : forall E file fuel ts s rs s', run_tests_loop E file fuel ts s = Ok (rs, s') ->
  exists passed failed, ts = passed ++ failed /\ rs = map (fun t => (te_name t, true)) passed ++ map (fun t => (te_name t, false)) failed /\
    (vm_pass s' = true <-> failed = [] /\ vm_pass s = true \/ ts <> [] /\ failed = []).
Proof.
  intros E file fuel. induction ts as [|t ts IH]; intros s rs s' H; cbn [run_tests_loop] in H.
  - inversion H; subst. exists [], []. repeat split; auto. intros [[_ K]|[K _]]; [exact K|now elim K].
  - apply bind_ok in H as (s1 & H1 & H). apply bind_ok in H as ([rs1 s2] & H2 & H). inversion H; subst. clear H.
    destruct (vm_pass s1) eqn:P.
    + destruct (IH _ _ _ H2) as (a & b & -> & -> & K). exists (t :: a), b. split; [reflexivity|]. split; [reflexivity|].
      rewrite K. split.
      * intros [[-> _]|[_ ->]]; right; (split; [discriminate|reflexivity]).
      * intros [[-> _]|[_ ->]]; left; auto.
    + rewrite (C47_after_failure E file fuel ts s1 P) in H2. inversion H2; subst. exists [], (t :: ts). split; [reflexivity|]. split; [reflexivity|].
      split; [|intros [[K _]|[_ K]]; discriminate]. intros K. exfalso. clear -P K.
      assert (F : forall l s, vm_pass (fold_left load_test l s) = vm_pass s) by (induction l as [|x l IH]; intros s; [reflexivity|]; cbn [fold_left]; rewrite IH; reflexivity).
      rewrite F in K. congruence.
Qed.
Print Assumptions C47_reports.
Example C47_example : exists s',
  run_tests whole (a_file [] [a_test "a" [set_var "x" "1"]; a_test "b" [st IAssert ["1 == 2"]%string; set_var "x" "2"]; a_test "c" [st IAssert ["1 == 1"]%string]]) 9 vm_new =
    Ok ([(lit "a", true); (lit "b", false); (lit "c", false)], s') /\ hd_error (vm_vars s') = Some [(lit "x", lit "1")].
Proof. eexists. split; [vm_compute; reflexivity|reflexivity]. Qed.

(** C48: an assertion makes the test fail exactly if its calculation gives the text false. *)
Theorem C48_assert : forall E file s cur c cs s', current file s cur -> opcode cur = IAssert -> switches cur = c :: cs ->
  (vm_step E file s = Ok s' <->
   exists v, computes E (lenN (vm_ip s)) (mem_of s) c v /\
     ((v = lit "false" /\ s' = moved_on s (mkMem (vm_db s) (vm_vars s) (vm_find s) (vm_criteria s) false)) \/
      (v <> lit "false" /\ s' = moved_on s (mem_of s)))).
Proof.
  intros E file s cur c cs s' C O S. rewrite (C65_step_effect E file s cur s' C) by (unfold simple; now rewrite O). split.
  - intros (m' & D & ->). inversion D; try congruence; subst.
    + assert (c0 = c) by congruence. subst c0. exists v. auto.
    + assert (c0 = c) by congruence. subst c0. exists (lit "false"). auto.
    + exfalso. match goal with K : idle _ |- _ => rewrite O in K; apply K; cbn; tauto end.
  - intros (v & V & [[-> ->]|[N ->]]); eexists; (split; [|reflexivity]).
    + eapply DoAssertFails; eauto.
    + eapply DoAssert; eauto.
Qed.
Print Assumptions C48_assert.
Example C48_example : forall c, In c ["1 == 2"; "1 == 1"; "nothing"; "1 + x"]%string ->
  current fmpfile_new (load_test vm_new (a_test "t" [st IAssert [c]])) (st IAssert [c]) /\
  exists s', vm_step whole fmpfile_new (load_test vm_new (a_test "t" [st IAssert [c]])) = Ok s' /\ vm_pass s' = negb (String.eqb c "1 == 2").
Proof.
  intros c H. split; [do 5 eexists; split; [reflexivity|]; split; [reflexivity|]; split; [|reflexivity]; reflexivity|].
  cbn in H. do 4 (destruct H as [<-|H]; [eexists; split; vm_compute; reflexivity|]). destruct H.
Qed.

(** C49: performing a script that does not exist keeps the runner at that step for ever. *)
Theorem C49_unknown_script : forall E file s cur c cs name fuel, current file s cur -> opcode cur = IPerformScript -> switches cur = c :: cs ->
  computes E (lenN (vm_ip s)) (mem_of s) c (in_quotes name) -> (forall sc, ~ first_script file name sc) ->
  vm_pass s = true -> lenN (vm_ip s) <= lenN (vm_vars s) -> run_test E file fuel s = NoFuel.
Proof.
  intros E file s cur c cs name fuel C O S V F P W. apply find_script_none in F.
  apply current_state in C as (t & nm & k & fr & code & Hs & Ht & Hip & Hn & Hk & R). rewrite Hn in *. rewrite Hs.
  eapply (unknown_runs E file (vm_layouts s) t nm fr code k (vm_branch s) (vm_loops s) cur c cs name); auto.
Qed.
Print Assumptions C49_unknown_script.
Example C49_unknown_script_ex : run_test whole (a_file [a_script "somebody" []] []) 50 (load_test vm_new (a_test "t" [call_of "nobody"])) = NoFuel /\
  exists s', run_test whole (a_file [a_script "somebody" []] []) 50 (load_test vm_new (a_test "t" [call_of "somebody"])) = Ok s'.
Proof. split; [vm_compute; reflexivity|eexists; vm_compute; reflexivity]. Qed.
(** C49: the last condition holds whenever tests are run: there is a scope for every running script. *)
Theorem C49_scopes : forall E file, (lenN (vm_ip vm_new) <= lenN (vm_vars vm_new)) /\
  (forall s t, lenN (vm_ip s) <= lenN (vm_vars s) -> lenN (vm_ip (load_test s t)) <= lenN (vm_vars (load_test s t))) /\
  (forall s s', lenN (vm_ip s) <= lenN (vm_vars s) -> vm_step E file s = Ok s' -> lenN (vm_ip s') <= lenN (vm_vars s')).
Proof.
  intros E file. split; [apply N.le_refl|]. split.
  - intros s t H. change (lenN ((sc_name (te_script t), 0) :: vm_ip s) <= lenN (vm_vars s ++ [[]])). rewrite lenN_app, !lenN_cons, lenN_nil. lia.
  - intros s s' H K. eapply scoped_step; eauto.
Qed.
Print Assumptions C49_scopes.
Example C49_example : let s := load_test vm_new (a_test "t" [call_of "nobody"]) in
  current (a_file [a_script "somebody" []] []) s (call_of "nobody") /\ computes whole (lenN (vm_ip s)) (mem_of s) (quoted_text "nobody") (quoted_text "nobody") /\
  (forall sc, ~ first_script (a_file [a_script "somebody" []] []) (lit "nobody") sc) /\ vm_pass s = true.
Proof.
  split; [do 5 eexists; split; [reflexivity|]; split; [reflexivity|]; split; [|reflexivity]; reflexivity|]. split; [computed|]. split; [|reflexivity].
  intros sc. apply find_script_none. reflexivity.
Qed.

(** C50: after a find, the found set of the current occurrence has the records that satisfy at least one criterion, ascending and
    without duplicates, and the pointer is at the first; without any such record it has all records of the table, and the pointer stays.
    The other occurrences and the stored values are unchanged; find mode ends and the criteria are forgotten. *)
Theorem C50_find : forall E file cl s cur s', reached cl (vm_db s) -> current file s cur -> opcode cur = IPerformFind -> vm_step E file s = Ok s' ->
  exists rs o o', finds (vm_db s) (vm_criteria s) rs /\ nthN (d_occs (vm_db s)) (d_handle (vm_db s)) = Some o /\
    d_occs (vm_db s') = updateN (d_occs (vm_db s)) (d_handle (vm_db s)) (fun _ => o') /\
    d_tables (vm_db s') = d_tables (vm_db s) /\ d_handle (vm_db s') = d_handle (vm_db s) /\
    to_table o' = to_table o /\ to_related o' = to_related o /\ StronglySorted N.lt (to_found o') /\
    (rs <> [] -> to_found o' = rs /\ to_ptr o' = 0) /\
    (rs = [] -> to_ptr o' = to_ptr o /\ forall r, In r (to_found o') <-> record_of (vm_db s) (to_table o) r) /\
    vm_find s' = false /\ vm_criteria s' = [] /\ vm_vars s' = vm_vars s /\ vm_pass s' = vm_pass s.
Proof.
  intros E file cl s cur s' R C O H. apply (C65_step_effect E file s cur s' C) in H as (m' & D & ->); [|unfold simple; now rewrite O].
  inversion D; try congruence; subst.
  2:{ exfalso. match goal with K : idle _ |- _ => rewrite O in K; apply K; cbn; tauto end. }
  match goal with K : finds _ _ ?r, L : apply_op _ (OFind ?r) = Ok ?d' |- _ => rename K into Hf; rename L into Ha; rename d' into dd; rename r into rr end.
  cbn [apply_op mem_of m_db m_criteria] in Ha, Hf. cbn [moved_on vm_db vm_find vm_criteria vm_vars vm_pass m_db m_vars m_find m_criteria m_pass mem_of].
  destruct rr as [|r0 rr].
  - apply reset_found_set_ok in Ha as (o & tb & f0 & fs & H1 & H2 & H3 & ->). exists [], o. eexists. split; [exact Hf|]. split; [exact H1|].
    split; [reflexivity|]. cbn [to_table to_related to_found to_ptr]. repeat apply conj; try reflexivity; try congruence.
    + apply below_sorted.
    + intros _. split; [reflexivity|]. intros r. rewrite below_In.
      apply reached_sound in R. destruct (s_rect _ R _ _ H2) as (n & Hn). pose proof Hn as Hn'. unfold holds in Hn'. rewrite H3 in Hn'. inversion Hn'; subst. split.
      * intros K. exists tb, (lenN (df_records f0)). repeat split; auto. congruence.
      * intros (tb' & n' & K1 & K2 & K3 & K4). assert (tb' = tb) by congruence. subst tb'. unfold holds in K3. rewrite H3 in K3. inversion K3; subst. lia.
  - apply update_found_set_ok in Ha as (o & tb & H1 & H2 & H3 & ->); [|discriminate]. exists (r0 :: rr), o. eexists. split; [exact Hf|]. split; [exact H1|].
    split; [reflexivity|]. cbn [to_table to_related to_found to_ptr]. repeat apply conj; try reflexivity; try congruence; auto.
    apply Hf.
Qed.
Print Assumptions C50_find.
(** C50: a find goes well whenever every criterion names a field of the current table, and that table has a field. *)
Theorem C50_find_total : forall E file s cur o tb, current file s cur -> opcode cur = IPerformFind ->
  nthN (d_occs (vm_db s)) (d_handle (vm_db s)) = Some o -> nthN (d_tables (vm_db s)) (to_table o) = Some tb -> dt_fields tb <> [] ->
  (forall c, In c (vm_criteria s) -> exists field values, second_part (fst c) field /\ column (vm_db s) field values) ->
  exists s', vm_step E file s = Ok s'.
Proof.
  intros E file s cur o tb C O Ho Ht Hf Hc.
  assert (A : forall cs, (forall c, In c cs -> exists field values, second_part (fst c) field /\ column (vm_db s) field values) -> exists ids, matching_any (vm_db s) cs = Ok ids).
  { induction cs as [|c cs IH]; intros K; [eexists; reflexivity|]. destruct IH as (ids & IH); [intros; apply K; now right|].
    destruct (K c (or_introl eq_refl)) as (field & vs & K1 & K3).
    destruct (matching_total _ _ _ _ K1 K3) as (a & Ka). exists (a ++ ids). cbn [matching_any]. rewrite Ka, IH. reflexivity. }
  destruct (A _ Hc) as (ids & Hi). pose proof (finds_found _ _ _ Hi) as Hfd.
  assert (U : exists d', apply_op (vm_db s) (OFind (sort_numbers ids)) = Ok d').
  { cbn [apply_op]. destruct (sort_numbers ids) as [|r rs] eqn:Es.
    - destruct (dt_fields tb) as [|f0 fs] eqn:Ef; [now elim Hf|]. eexists. cbn [update_found_set]. apply reset_found_set_ok. exists o, tb, f0, fs. eauto.
    - eexists. apply update_found_set_ok; [discriminate|]. exists o, tb. eauto. }
  destruct U as (d' & U). eexists. apply (C65_step_effect E file s cur _ C); [unfold simple; now rewrite O|]. eexists. split; [|reflexivity].
  eapply DoFind; eauto.
Qed.
Print Assumptions C50_find_total.

(** A small application: the shop with scripts and layouts. *)
Definition shop_file (scripts : list script) (tests : list test) : fmpfile :=
  let f := shop CEqual in
  mkFile (f_name f) (f_tables f) (f_relationships f) [(1, mkLayout (lit "customers") 1 [] []); (2, mkLayout (lit "orders") 2 [] [])] []
    (map (fun sc => (0, sc)) scripts) (f_occurrences f) [] tests.
Definition shop_vm (scripts : list script) (tests : list test) : outcome vm := generate_test_environment (shop_file scripts tests) vm_new.
Definition text_of (s : string) : string := String (ascii_of_nat 34) (s ++ String (ascii_of_nat 34) EmptyString).
Definition go_to (layout : string) : step := st IGoToLayout [text_of layout].
Definition new_record : step := st INewRecordRequest [].
Definition set_field (f c : string) : step := st ISetField [f; c].
Definition find_steps : list step :=
  [go_to "customers"; new_record; set_field "customer::id" "7"; new_record; set_field "customer::id" "8"; new_record; set_field "customer::id" "7";
   st IEnterFindMode []; set_field "customer::id" "7"; st IPerformFind []].
Example C50_example : exists s0 s s', shop_vm [] [a_test "t" find_steps] = Ok s0 /\
  Nat.iter 9 (fun o => bind o (vm_step whole (shop_file [] [a_test "t" find_steps]))) (Ok (load_test s0 (a_test "t" find_steps))) = Ok s /\
  current (shop_file [] [a_test "t" find_steps]) s (st IPerformFind []) /\ vm_criteria s = [(lit "customer::id", lit "7")] /\
  vm_step whole (shop_file [] [a_test "t" find_steps]) s = Ok s' /\
  exists o, nthN (d_occs (vm_db s')) (d_handle (vm_db s')) = Some o /\ to_found o = [0; 2].
Proof.
  do 3 eexists. split; [vm_compute; reflexivity|]. split; [vm_compute; reflexivity|].
  split; [do 5 eexists; split; [reflexivity|]; split; [reflexivity|]; split; [|reflexivity]; reflexivity|].
  split; [reflexivity|]. split; [vm_compute; reflexivity|]. eexists. split; reflexivity.
Qed.

(** C56: looking up a layout gives the occurrence inserted last under its name. *)
Theorem C56_lookup : forall ins m name,
  let after_all := fold_left (fun m e => add_mapping m (fst e) (snd e)) ins m in
  (forall before o after, ins = before ++ (name, o) :: after -> ~ In name (map fst after) -> layout_lookup after_all name = Some o) /\
  (~ In name (map fst ins) -> layout_lookup after_all name = layout_lookup m name).
Proof.
  assert (A : forall ins m name, ~ In name (map fst ins) ->
    layout_lookup (fold_left (fun m e => add_mapping m (fst e) (snd e)) ins m) name = layout_lookup m name).
  { induction ins as [|[n o] ins IH]; intros m name H; [reflexivity|]. cbn [fold_left fst snd]. cbn [map fst] in H. rewrite IH by (intros K; apply H; now right).
    unfold layout_lookup, add_mapping. rewrite sget_sset. destruct (str_eqb_spec n name); [elim H; now left|reflexivity]. }
  intros ins m name. split; [|apply A]. intros before o after -> H. rewrite fold_left_app. cbn [fold_left fst snd]. rewrite A by auto.
  unfold layout_lookup, add_mapping. rewrite sget_sset. destruct (str_eqb_spec name name); [reflexivity|congruence].
Qed.
Print Assumptions C56_lookup.
Example C56_lookup_ex : layout_lookup (fold_left (fun m e => add_mapping m (fst e) (snd e)) [(lit "a", 1); (lit "b", 2); (lit "a", 3)] layouts_new) (lit "a") = Some 3.
Proof. reflexivity. Qed.
(** C56: in a generated environment, a layout whose name is not used twice is found with its occurrence, in whatever order the layouts
    are visited; and nothing else is found. *)
Theorem C56_generated : forall file s name o, vm_layouts s = layouts_new -> NoDup (map (fun e => ly_name (snd e)) (f_layouts file)) ->
  (layout_lookup (vm_layouts (generate_layout_mgr file s)) name = Some o <->
   exists id l, In (id, l) (f_layouts file) /\ ly_name l = name /\ ly_occurrence l = o).
Proof.
  intros file s name o Hs ND. unfold generate_layout_mgr. cbn [vm_layouts with_layouts]. rewrite Hs.
  assert (Q : forall ls m, fold_left (fun m e => add_mapping m (ly_name (snd e)) (ly_occurrence (snd e))) ls m =
    fold_left (fun m e => add_mapping m (fst e) (snd e)) (map (fun e : N * layout => (ly_name (snd e), ly_occurrence (snd e))) ls) m).
  { induction ls as [|e ls IH]; intros m; [reflexivity|]. cbn. apply IH. }
  rewrite Q. set (ins := map (fun e : N * layout => (ly_name (snd e), ly_occurrence (snd e))) (f_layouts file)).
  assert (ND' : NoDup (map fst ins)) by (unfold ins; rewrite map_map; exact ND).
  destruct (C56_lookup ins layouts_new name) as [L1 L2]. cbv zeta in *.
  assert (I : In (name, o) ins <-> exists id l, In (id, l) (f_layouts file) /\ ly_name l = name /\ ly_occurrence l = o).
  { unfold ins. rewrite in_map_iff. split.
    - intros ([id l] & K & K'). inversion K; subst. eauto.
    - intros (id & l & K & <- & <-). exists (id, l). auto. }
  rewrite <- I. split.
  - intros K. destruct (in_dec (list_eq_dec N.eq_dec) name (map fst ins)) as [Hi|Hi]; [|rewrite (L2 Hi) in K; discriminate].
    apply in_map_iff in Hi as ([n o'] & <- & Hi). cbn [fst] in *. apply in_split in Hi as (b & a & Hi).
    assert (Ha : ~ In n (map fst a)).
    { rewrite Hi, map_app in ND'. cbn [map fst] in ND'. apply NoDup_remove in ND' as [_ ND']. intros Z. apply ND'. apply in_or_app. now right. }
    rewrite (L1 _ _ _ Hi Ha) in K. inversion K; subst. rewrite Hi. apply in_or_app. right. now left.
  - intros K. apply in_split in K as (b & a & K). apply (L1 _ _ _ K). rewrite K, map_app in ND'. cbn [map fst] in ND'.
    apply NoDup_remove in ND' as [_ ND']. intros Z. apply ND'. apply in_or_app. now right.
Qed.
Print Assumptions C56_generated.
Example C56_example : NoDup (map (fun e => ly_name (snd e)) (f_layouts (shop_file [] []))) /\
  layout_lookup (vm_layouts (generate_layout_mgr (shop_file [] []) vm_new)) (lit "orders") = Some 2.
Proof. split; [nodup|reflexivity]. Qed.
(** C56: with a name used twice, the layout found depends on the order in which the hash map is visited. *)
Theorem C56_duplicates_refuted : exists f g name, (forall e, In e (f_layouts f) <-> In e (f_layouts g)) /\ f_scripts f = f_scripts g /\
  layout_lookup (vm_layouts (generate_layout_mgr f vm_new)) name <> layout_lookup (vm_layouts (generate_layout_mgr g vm_new)) name.
Proof.
  exists (mkFile [] [] [] [(1, mkLayout (lit "a") 1 [] []); (2, mkLayout (lit "a") 2 [] [])] [] [] [] [] []),
         (mkFile [] [] [] [(2, mkLayout (lit "a") 2 [] []); (1, mkLayout (lit "a") 1 [] [])] [] [] [] [] []), (lit "a").
  split; [intros e; cbn; tauto|]. split; [reflexivity|]. vm_compute. discriminate.
Qed.
Print Assumptions C56_duplicates_refuted.

(** C66: performing a script that exists starts it at its first step, one level deeper; the caller goes on after the call later.  One more
    scope is put after all there are, but the variables of the called script are those of the scope whose number is its depth. *)
Theorem C66_call : forall E file s cur c cs name sc, current file s cur -> opcode cur = IPerformScript -> switches cur = c :: cs ->
  computes E (lenN (vm_ip s)) (mem_of s) c (in_quotes name) -> first_script file name sc ->
  exists s', vm_step E file s = Ok s' /\ vm_ip s' = (name, 0) :: vm_ip (moved_on s (mem_of s)) /\ vm_vars s' = vm_vars s ++ [[]] /\
    vm_db s' = vm_db s /\ vm_find s' = vm_find s /\ vm_criteria s' = vm_criteria s /\ vm_pass s' = vm_pass s /\
    (lenN (vm_vars s) = lenN (vm_ip s) -> current_scope (view_of s') = Ok []) /\
    (forall sp, nthN (vm_vars s) (lenN (vm_ip s)) = Some sp -> current_scope (view_of s') = Ok sp).
Proof.
  intros E file s cur c cs name sc C O S V F. apply first_script_spec in F.
  apply current_state in C as (t & nm & k & fr & code & Hs & Ht & Hip & Hn & Hk & R). rewrite Hn in *.
  exists (state (vm_layouts s) t name ((nm, k + 1) :: fr) 0 (mkMem (vm_db s) (vm_vars s ++ [[]]) (vm_find s) (vm_criteria s) (vm_pass s)) (vm_branch s) (vm_loops s)).
  split; [rewrite Hs at 1; exact (step_call E file (vm_layouts s) t nm fr code k (mem_of s) (vm_branch s) (vm_loops s) cur c cs name sc R Hk O S V F)|].
  cbn [vm_ip vm_vars vm_db vm_find vm_criteria vm_pass state mem_of m_db m_vars m_find m_criteria m_pass].
  split; [unfold moved_on; cbn [vm_ip]; now rewrite Hip|]. repeat apply conj; try reflexivity.
  - intros L. unfold current_scope, view_of. cbn [vw_vars vw_depth vm_ip vm_vars m_vars state]. rewrite !lenN_cons. unfold subU.
    replace (1 <=? lenN fr + 1 + 1) with true by (symmetry; apply N.leb_le; lia). cbn [bind]. replace (lenN fr + 1 + 1 - 1) with (lenN (vm_vars s)) by lia.
    apply at_ok. apply nthN_app_len.
  - intros sp L. unfold current_scope, view_of. cbn [vw_vars vw_depth vm_ip vm_vars m_vars state]. rewrite !lenN_cons. unfold subU.
    replace (1 <=? lenN fr + 1 + 1) with true by (symmetry; apply N.leb_le; lia). cbn [bind]. replace (lenN fr + 1 + 1 - 1) with (lenN fr + 1) by lia.
    apply at_ok. pose proof (nthN_lt _ _ _ L). rewrite nthN_app_l; auto.
Qed.
Print Assumptions C66_call.
(** C66: so the second call of a script at the same depth finds the variables of the first. *)
Theorem C66_fresh_variables_refuted : exists file t s', 
  f_scripts file = [(0, a_script "inner" [set_var "seen" "x"; set_var "x" "5"])] /\
  sc_steps (te_script t) = [call_of "inner"; call_of "inner"] /\
  run_test whole file 20 (load_test vm_new t) = Ok s' /\ ended Through s' /\ nthN (vm_vars s') 1 = Some [(lit "seen", lit "5"); (lit "x", lit "5")].
Proof.
  exists (a_file [a_script "inner" [set_var "seen" "x"; set_var "x" "5"]] []), (a_test "t" [call_of "inner"; call_of "inner"]). eexists.
  split; [reflexivity|]. split; [reflexivity|]. split; [vm_compute; reflexivity|]. split; [repeat split|reflexivity].
Qed.
Print Assumptions C66_fresh_variables_refuted.
Example C66_example : let s := load_test vm_new (a_test "t" [call_of "inner"]) in let f := a_file [a_script "inner" [set_var "x" "1"]] [] in
  current f s (call_of "inner") /\ computes whole (lenN (vm_ip s)) (mem_of s) (quoted_text "inner") (in_quotes (lit "inner")) /\
  first_script f (lit "inner") (a_script "inner" [set_var "x" "1"]) /\ lenN (vm_vars s) = lenN (vm_ip s).
Proof.
  split; [do 5 eexists; split; [reflexivity|]; split; [reflexivity|]; split; [|reflexivity]; reflexivity|]. split; [computed|].
  split; [apply first_script_spec; reflexivity|reflexivity].
Qed.

(** C67: whatever tests do, the database stays one that is reached from a generated one by its operations, with proper found sets; so all
    that is proved of such databases holds while and after tests run. *)
Theorem C67_database_of_tests : forall E file fuel s0 rs s', maps_ok file -> generate_test_environment file vm_new = Ok s0 ->
  (run_tests E file fuel s0 = Ok (rs, s') -> reached false (vm_db s')) /\
  (run_tests_with_cleanup E file fuel s0 = Ok (rs, s') -> reached true (vm_db s')).
Proof.
  intros E file fuel s0 rs s' M G. unfold generate_test_environment, generate_database in G. apply bind_ok in G as (s1 & G & Q).
  apply bind_ok in G as (d & G & Q'). inversion Q'; subst s1. inversion Q; subst s0. clear Q Q'.
  assert (R : forall cl, reached cl (vm_db (generate_layout_mgr file (with_db vm_new d)))) by (intros cl; eapply ReachGenerated; eauto).
  split.
  - intros H. eapply tests_reached; [|exact H]. apply R.
  - intros H. unfold run_tests_with_cleanup in H. apply bind_ok in H as ([rs1 s1] & H & K). inversion K; subst. cbn [vm_db with_db].
    refine (ReachStep _ (vm_db s1) OClear _ _ I (fun _ => eq_refl) eq_refl). eapply tests_reached; [|exact H]. apply R.
Qed.
Print Assumptions C67_database_of_tests.
(** C67: for one step of any script. *)
Theorem C67_step : forall E file cl s s', reached cl (vm_db s) -> vm_step E file s = Ok s' -> reached cl (vm_db s').
Proof. intros E file cl s s'. apply step_reached. Qed.
Print Assumptions C67_step.
Example C67_example : exists s0 s' d, maps_ok (shop_file [] [a_test "t" find_steps]) /\ shop_vm [] [a_test "t" find_steps] = Ok s0 /\
  run_tests whole (shop_file [] [a_test "t" find_steps]) 20 s0 = Ok ([(lit "t", true)], s') /\ vm_db s' = d /\ reached false d /\
  cell d (1, 1, 1) = Some (lit "8").
Proof.
  assert (M : maps_ok (shop_file [] [a_test "t" find_steps])) by exact (shop_maps CEqual).
  do 3 eexists. split; [exact M|]. split; [vm_compute; reflexivity|]. split; [vm_compute; reflexivity|]. split; [reflexivity|]. split; [|reflexivity].
  eapply (C67_database_of_tests whole (shop_file [] [a_test "t" find_steps]) 20); [exact M|vm_compute; reflexivity|vm_compute; reflexivity].
Qed.

(** C68: tests depend on those before them, as variables and records are kept. *)
Theorem C68_variables_refuted : exists t1 t2 s1 s2,
  run_tests whole (a_file [] [t2]) 20 vm_new = Ok ([(te_name t2, false)], s1) /\
  run_tests whole (a_file [] [t1; t2]) 20 vm_new = Ok ([(te_name t1, true); (te_name t2, true)], s2).
Proof.
  exists (a_test "a" [set_var "x" "1"]), (a_test "b" [st IAssert ["x == 1"]%string]). do 2 eexists. split; vm_compute; reflexivity.
Qed.
Print Assumptions C68_variables_refuted.
Theorem C68_records_refuted : exists t1 t2 s0 s1 s2 s3,
  shop_vm [] [t2] = Ok s0 /\ run_tests_with_cleanup whole (shop_file [] [t2]) 20 s0 = Ok ([(te_name t2, true)], s1) /\
  shop_vm [] [t1; t2] = Ok s2 /\ run_tests_with_cleanup whole (shop_file [] [t1; t2]) 20 s2 = Ok ([(te_name t1, true); (te_name t2, false)], s3).
Proof.
  exists (a_test "a" [go_to "customers"; new_record; set_field "customer::id" "1"]),
    (a_test "b" [go_to "customers"; new_record; set_field "customer::id" "2"; st IGoToRecordRequestPage [text_of "first"]; st IAssert ["customer::id == 2"]%string]).
  do 4 eexists. do 3 (split; [vm_compute; reflexivity|]). vm_compute. reflexivity.
Qed.
Print Assumptions C68_records_refuted.
