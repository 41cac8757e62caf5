(** The clock is never read, for what is printed. *)
From Coq Require Import Ascii String NArith List Bool Lia.
From Verif Require Import Prelude PreludeFacts CalcModel CalcSpec CalcProps EvalModel ComponentModel RelModel DbModel InstrModel SchemaModel VmModel DecompModel AsmModel AsmProofs MainModel.
From Verif Require Import GripeModel SourceModel PrintModel TalkModel TraceModel ReportModel WholeModel WordsModel MutterModel ClockSpec Clock.
Import ListNotations.
Local Open Scope N_scope.

Section Talk.
Context (E : fenv) (t : list N).
Local Notation T := (at_time E t).

Lemma tell_ext {A B} (x : told E A) (f g : A -> told E B) : (forall a, f a = g a) -> and_tell E x f = and_tell E x g.
Proof. intros H. unfold and_tell. destruct x as [l [a| |]]; cbn [fst snd]; [|reflexivity..]. cbv zeta. now rewrite H. Qed.
Lemma tell_time {A B} (x y : told E A) (f g : A -> told E B) : x = y -> (forall a, f a = g a) -> and_tell T x f = and_tell E y g.
Proof. intros -> H. exact (tell_ext y f g H). Qed.
Lemma evaluate_told_time v f : forall n : node (f64 E), ~ odd_node E n -> evaluate_told T v f n = evaluate_told E v f n.
Proof.
  fix IH 1. intros n O.
  destruct n as [value c|l op r|l r|l op r|l op r|name args|x|name|name|s].
  - reflexivity.
  - cbn [evaluate_told]. apply tell_time; [apply IH; intros H; apply O; now constructor|intros a]. apply tell_time; [apply IH; intros H; apply O; now constructor|intros b]. reflexivity.
  - cbn [evaluate_told]. apply tell_time; [apply IH; intros H; apply O; now constructor|intros a]. apply tell_time; [apply IH; intros H; apply O; now constructor|intros b]. reflexivity.
  - cbn [evaluate_told]. destruct op; try reflexivity; (apply tell_time; [apply IH; intros H; apply O; now constructor|intros a]; apply tell_time; [apply IH; intros H; apply O; now constructor|intros b]; reflexivity).
  - exfalso. apply O. constructor.
  - assert (A : Forall (fun n => evaluate_told T v f n = evaluate_told E v f n) args).
    { assert (O' : forall a, In a args -> ~ odd_node E a) by (intros a Ha H; apply O; now apply (OddArg E name args a)). clear name O. revert args O'.
      fix IHl 1. intros [|a args] O'; constructor; [apply IH; apply O'; now left|apply IHl; intros b Hb; apply O'; now right]. }
    cbn [evaluate_told].
    destruct (str_eqb name (lit "Abs")). { destruct args as [|a args]; [reflexivity|]. apply tell_time; [exact (Forall_inv A)|reflexivity]. }
    destruct (str_eqb name (lit "Acos")). { destruct args as [|a args]; [reflexivity|]. apply tell_time; [exact (Forall_inv A)|reflexivity]. }
    destruct (str_eqb name (lit "Asin")).
    { destruct args as [|a [|b args]]; [reflexivity|..]; (apply tell_time; [exact (Forall_inv A)|intros x]); [reflexivity|]. apply tell_time; [exact (Forall_inv (Forall_inv_tail A))|reflexivity]. }
    destruct (str_eqb name (lit "Char")). { destruct args as [|a args]; [reflexivity|]. apply tell_time; [exact (Forall_inv A)|reflexivity]. }
    destruct (str_eqb name (lit "Min")).
    { destruct args as [|a args]; [reflexivity|]. apply tell_time; [exact (Forall_inv A)|]. intros s. apply Forall_inv_tail in A. clear - A. revert s. induction A as [|b args Hb A IHA]; intros s; [reflexivity|].
      apply tell_time; [exact Hb|]. intros x. apply tell_time; [reflexivity|]. intros o. apply IHA. }
    destruct (str_eqb name (lit "Get")); [|reflexivity]. destruct args as [|a args]; [reflexivity|]. destruct a; try reflexivity. exfalso. apply O. eapply OddArg; [now left|constructor].
  - reflexivity.
  - reflexivity.
  - reflexivity.
  - reflexivity.
Qed.
Lemma calculation_told_time v f s : calculation_told T v f s = calculation_told E v f s.
Proof.
  unfold calculation_told. apply tell_time; [reflexivity|]. intros ts. change (parse T (10 * length ts) ts) with (parse E (10 * length ts) ts).
  destruct (parse E (10 * length ts) ts) as [n| |] eqn:P; [|reflexivity..]. unfold quiet, and_tell at 1 3. cbn [fst snd]. cbv zeta. rewrite !app_nil_l, <- !surjective_pairing. apply tell_time; [reflexivity|]. intros _.
  apply evaluate_told_time. exact (C36_no_odd_nodes _ _ _ _ P).
Qed.
Lemma calc_told_time s x : calc_told T s x = calc_told E s x.
Proof. unfold calc_told. cbv zeta. now rewrite calculation_told_time. Qed.
Context (file : fmpfile).
Lemma switch_time s cur i : switch_said T s cur i = switch_said E s cur i.
Proof. unfold switch_said. destruct (nthN (switches cur) i); [|reflexivity]. now rewrite calc_told_time. Qed.
Lemma step_said_time s : step_said T file s = step_said E file s.
Proof.
  unfold step_said. destruct (running file s) as [sc| |]; [|reflexivity..]. destruct (nthN (sc_steps sc) (here s)) as [cur|]; [|reflexivity].
  pose proof switch_time as W. pose proof calc_told_time as K. generalize dependent (switch_said T). intros w W. generalize dependent (calc_told T). intros c K.
  destruct (opcode cur); try reflexivity; try apply W.
  - destruct (nthN (switches cur) 0); [|reflexivity]. rewrite K. now rewrite W.
  - destruct (vm_branch s); [|apply W]. destruct (scan is_end_if _ _); [reflexivity|]. destruct (nthN (sc_steps sc) _); [apply W|reflexivity].
Qed.
Lemma step_lines_time s : step_lines T file s = step_lines E file s.
Proof.
  unfold step_lines. destruct (running file s) as [sc| |]; [|reflexivity..]. destruct (nthN (sc_steps sc) (here s)) as [cur|]; [|reflexivity].
  pose proof (calc_time E t) as K. generalize dependent (calc T). intros c K.
  destruct (opcode cur); try reflexivity; destruct (at_ (switches cur) 0); cbn [bind]; try reflexivity; now rewrite K.
Qed.

(** The same lines in the other surroundings. *)
Definition recast (x : spoken T) : spoken E := match x with OfCalculation _ y => OfCalculation E y | OfRunner _ l => OfRunner E l end.
Definition reshow (x : shown T) : shown E :=
  match x with WComplaint g => WComplaint g | WFile f => WFile f | WTests y => WTests (recast y) | WAssembler n => WAssembler n | WWritten a b => WWritten a b | WDecompiler r => WDecompiler r end.
Lemma step_spoken_time s : step_spoken E file s = map recast (step_spoken T file s).
Proof. unfold step_spoken. rewrite map_app, !map_map, step_said_time, step_lines_time. reflexivity. Qed.
Lemma run_spoken_time : forall f s, run_spoken E file f s = (map recast (fst (run_spoken T file f s)), snd (run_spoken T file f s)).
Proof.
  induction f as [|f IH]; intros s; cbn [run_spoken]; (destruct (vm_pass s); [|reflexivity]); (destruct (vm_ip s); [reflexivity|]); [reflexivity|]. rewrite vm_step_time, step_spoken_time.
  destruct (vm_step E file s) as [s1| |]; [|reflexivity..]. cbv zeta. rewrite IH. cbn [fst snd]. now rewrite map_app.
Qed.
Lemma tests_spoken_time f : forall ts s, tests_spoken E file f ts s = (map recast (fst (tests_spoken T file f ts s)), snd (tests_spoken T file f ts s)).
Proof.
  induction ts as [|x ts IH]; intros s; cbn [tests_spoken]; [reflexivity|]. cbv zeta. rewrite run_spoken_time. cbn [fst snd]. destruct (snd (run_spoken T file f (load_test s x))) as [s1| |]; [|reflexivity..].
  rewrite IH. cbn [fst snd map]. now rewrite map_app.
Qed.
End Talk.

Section Program.
Context (E : fenv) (t : list N) (order : fmpfile -> fmpfile) (segments : list (N * list (N * list N)) -> list (N * list (N * list N))) (fuel : nat) (no_testing : bool).
Local Notation T := (at_time E t).
Definition recalled {A} (x : showing T A) : showing E A := (map (reshow E t) (fst x), snd x).
Lemma show_time {A B} (x : showing T A) (f : A -> showing T B) (y : showing E A) (g : A -> showing E B) : y = recalled x -> (forall a, g a = recalled (f a)) -> and_show E y g = recalled (and_show T x f).
Proof. intros -> H. unfold and_show, recalled. destruct x as [l [a| |]]; cbn [fst snd]; [|reflexivity..]. cbv zeta. rewrite H. cbn [fst snd recalled]. unfold recalled. cbn [fst snd]. now rewrite map_app. Qed.
Lemma through_time {L A} (c : L -> shown T) (d : L -> shown E) (x : list L * outcome A) : (forall l, d l = reshow E t (c l)) -> through E d x = recalled (through T c x).
Proof. intros H. unfold through, recalled. cbn [fst snd]. rewrite map_map. f_equal. now apply map_ext. Qed.
Lemma testing_shown_time file : testing_shown E order fuel no_testing file = recalled (testing_shown T order fuel no_testing file).
Proof.
  unfold testing_shown. destruct (_ && _); [|reflexivity]. apply show_time; [reflexivity|]. intros s. apply show_time; [|reflexivity]. rewrite (tests_spoken_time E t). unfold through, recalled. cbn [fst snd]. now rewrite !map_map.
Qed.
Lemma source_time s : source_told T s = source_told E s.
Proof. reflexivity. Qed.
Lemma inputs_shown_time f g : (forall a b, g a b = recalled (f a b)) -> forall inputs file, inputs_shown E g inputs file = recalled (inputs_shown T f inputs file).
Proof. intros H. induction inputs as [|i inputs IH]; intros file; cbn [inputs_shown]; [reflexivity|]. now apply show_time. Qed.
Lemma test_files_shown_time : forall inputs file, test_files_shown E inputs file = recalled (test_files_shown T inputs file).
Proof. induction inputs as [|i inputs IH]; intros file; cbn [test_files_shown]; [reflexivity|]. apply show_time; [|intros; apply IH]. rewrite source_time. now apply through_time. Qed.
Lemma whole_compile_time tests inputs : whole_compile E order fuel no_testing tests inputs = recalled (whole_compile T order fuel no_testing tests inputs).
Proof.
  unfold whole_compile. apply show_time; [apply test_files_shown_time|]. apply inputs_shown_time. intros file i. unfold compile_one_shown.
  apply show_time; [rewrite source_time; now apply through_time|intros tmp]. apply show_time; [reflexivity|intros name]. cbv zeta. apply show_time; [reflexivity|intros _]. apply show_time; [apply testing_shown_time|intros _].
  apply show_time; [now apply through_time|intros b]. apply show_time; reflexivity.
Qed.
Lemma whole_decompile_time tests inputs : whole_decompile E order segments fuel no_testing tests inputs = recalled (whole_decompile T order segments fuel no_testing tests inputs).
Proof.
  unfold whole_decompile. apply show_time; [apply test_files_shown_time|]. apply inputs_shown_time. intros file i. unfold decompile_one_shown.
  apply show_time; [now apply through_time|intros tmp]. cbv zeta. apply show_time; [reflexivity|intros _]. apply show_time; [apply testing_shown_time|reflexivity].
Qed.
Lemma stdout_time C l : stdout E C (map (reshow E t) l) = stdout T C l.
Proof. unfold stdout, put_out. induction l as [|x l IH]; [reflexivity|]. cbn [map flat_map]. rewrite IH. f_equal. destruct x as [g|f|[y|y]|n|a b|r]; reflexivity. Qed.
Lemma stderr_time D l : stderr E D (map (reshow E t) l) = stderr T D l.
Proof. unfold stderr, put_out. induction l as [|x l IH]; [reflexivity|]. cbn [map flat_map]. rewrite IH. f_equal. destruct x as [g|f|[y|y]|n|a b|r]; reflexivity. Qed.
End Program.
