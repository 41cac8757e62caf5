(** C93: what calculations print.  C94: everything a run of tests prints. *)
From Coq Require Import Ascii String NArith ZArith List Bool Lia Arith.
From Verif Require Import Prelude PreludeFacts InstrModel ComponentModel CalcModel CalcSpec CalcFacts CalcParse CalcEnds CalcProps CalcDemo DbModel EvalModel EvalSpec EvalCycle EvalFuel EvalProps TreeSpec TokensSpec TokensProps PhraseSpec PhraseProps
  VmModel VmSpec VmTestSpec VmTextSpec VmProps RunsSpec Runs RunsProps PrintModel PrintSpec Print PrintProps TalkModel TalkSpec Talk Speech TalkRun.
Import ListNotations.
Local Open Scope N_scope.

Lemma no_colon s : ~ In 58 s -> ~ field_name s.
Proof. intros H (a & b & -> & _). apply H, in_or_app. right. now left. Qed.
Definition sum_tree (a b : string) : node (f64 whole) := NBinary (NVariable (lit a)) TPlus (NVariable (lit b)).

(** C93: a calculation with a value prints a complaint for each misplaced colon, then its tree, then complaints about exactly the unset names that its
    evaluation meets, and about arithmetic with operands that are no numbers. *)
Theorem C93_lines : forall E v fuel s l r, calculation_told E v fuel s = (l, Ok r) -> calculation_says E v s l /\ calc_gives E v s (Ok r).
Proof. exact told_says. Qed.
Print Assumptions C93_lines.
Example C93_lines_ex : calculation_told whole desk 9 (lit "z + w") =
  ([STree (sum_tree "z" "w"); SUnknown (lit "w"); SUnknown []; SNotNumbers], Ok (lit "undefined")) /\
  calculation_told whole desk 9 (lit "1 a:b") = ([SColon; STree (NNumber 1%Z)], Ok (lit "1")).
Proof. split; vm_compute; reflexivity. Qed.

(** C93: the lines of a calculation in their order, whether or not it has a value, and whether or not it can be read. *)
Theorem C93_exact : forall E v s l, calculation_recites E v s l <-> exists f, forall g, (f <= g)%nat -> fst (calculation_told E v g s) = l.
Proof.
  intros E v s l. split.
  - intros H. exists (S (length (held v))). intros g G. destruct (calculation_told E v g s) as [l' o] eqn:Q. apply (calculation_exact E v g s l' o Q (or_intror G)) in H. now subst.
  - intros (f & H). destruct (calculation_told E v (f + S (length (held v))) s) as [l' o] eqn:Q. apply (calculation_exact E v _ s l' o Q (or_intror (Nat.le_add_l _ _))).
    rewrite <- (H (f + S (length (held v)))%nat) by lia. now rewrite Q.
Qed.
Print Assumptions C93_exact.
Definition texts (l : list (said (f64 whole))) : list (list N) := map (fun x => match x with SColon => lit ":" | STree _ => lit "tree" | SUnknown u => lit "? " ++ u | SNotNumbers => lit "no number" end) l.
Example C93_exact_ex : texts (fst (calculation_told whole desk 9 (lit "(p != q) & (r + s)"))) = map lit ["tree"; "? p"; "? q"; "? r"; "? s"; "? "; "? "; "no number"]%string /\
  texts (fst (evaluate_told whole desk 9 (NCall (lit "Min") (map (fun x => NVariable (lit x)) ["p"; "q"; "s"]%string)))) = map lit ["? p"; "? q"; "? "; "? "; "? s"; "? "; "? "]%string /\
  calculation_told whole desk 9 (lit "1 a:b c:d + ") = ([SColon; SColon; STree (NNumber 1%Z)], Ok (lit "1")) /\
  (exists n, calculation_told whole desk 9 (lit "(Abs(p)) & q") = ([STree n; SUnknown (lit "p")], Panic)) /\
  calculation_told whole desk 9 (lit "a:b !") = ([SColon], Panic).
Proof. repeat split; try (vm_compute; reflexivity). eexists. vm_compute. reflexivity. Qed.

(** C93: printing changes nothing: the values, and whether there is one, are those of C78, C79 and C86. *)
Theorem C93_same : forall E v fuel s, snd (calculation_told E v fuel s) = eval_calculation E v fuel s.
Proof. exact calculation_snd. Qed.
Print Assumptions C93_same.
Example C93_same_ex : snd (calculation_told whole desk 9 (lit "z + w")) = Ok (lit "undefined") /\ fst (calculation_told whole desk 9 (lit "z + w")) <> [].
Proof. split; [vm_compute; reflexivity|]. vm_compute. discriminate. Qed.
Theorem C93_value : forall E v s r, calc_gives E v s (Ok r) <-> exists fuel l, calculation_told E v fuel s = (l, Ok r).
Proof.
  intros E v s r. split.
  - intros [_ (k & K)]. specialize (K k (le_n k)). rewrite <- C93_same in K. exists k, (fst (calculation_told E v k s)). destruct (calculation_told E v k s); cbn in *; congruence.
  - intros (fuel & l & H). now apply told_says in H.
Qed.
Print Assumptions C93_value.
Example C93_value_ex : calc_gives whole desk (lit "nope") (Ok []) /\ eval_calculation whole desk 9 (lit "1 + ") = Panic.
Proof. split; [apply (calc_gives_at _ _ 9); [vm_compute; reflexivity|discriminate]|vm_compute; reflexivity]. Qed.

(** C93: text that cannot be read as a calculation prints no tree; the tree of any other is printed even if it has no value. *)
Theorem C93_unread : forall E v fuel s ts, splits E s ts -> (~ exists n, tree_of E ts n) -> exists k, strays E s k /\ fst (calculation_told E v fuel s) = repeat SColon k.
Proof.
  intros E v fuel s ts S T. pose proof (told_cases E v fuel s _ _ (surjective_pairing _)) as H. rewrite (proj2 (C79_tokens E s ts) S) in H. destruct H as (k & K & H). exists k. split; [exact K|].
  destruct (parse E (10 * length ts) ts) as [n| |] eqn:P; [|exact H|exact H]. elim T. exists n. now apply C86_tree.
Qed.
Print Assumptions C93_unread.
Example C93_unread_ex : exists ts, splits whole (lit "a:bc + ") ts /\ (~ exists n, tree_of whole ts n) /\ fst (calculation_told whole desk 9 (lit "a:bc + ")) = [SColon].
Proof.
  exists [ident "a:::c"; tok TPlus]. split; [apply C79_tokens; vm_compute; reflexivity|]. split; [|vm_compute; reflexivity]. intros (n & H). apply C86_tree in H. vm_compute in H. discriminate.
Qed.
Theorem C93_read : forall E v fuel s ts n, splits E s ts -> tree_of E ts n ->
  exists k rest, strays E s k /\ fst (calculation_told E v fuel s) = repeat SColon k ++ STree n :: rest.
Proof.
  intros E v fuel s ts n S T. pose proof (told_cases E v fuel s _ _ (surjective_pairing _)) as H. rewrite (proj2 (C79_tokens E s ts) S) in H. destruct H as (k & K & H).
  apply C86_tree in T. unfold parsed in T. rewrite T in H. destruct H as [H _]. exists k, (fst (evaluate_told E v fuel n)). auto.
Qed.
Print Assumptions C93_read.
Example C93_read_ex : exists ts n, splits whole (lit "Abs(y)") ts /\ tree_of whole ts n /\ eval_calculation whole desk 9 (lit "Abs(y)") = Panic /\
  fst (calculation_told whole desk 9 (lit "Abs(y)")) = [STree n].
Proof.
  exists [ident "Abs"; tok TOpenParen; ident "y"; tok TCloseParen]. eexists. split; [apply C79_tokens; vm_compute; reflexivity|]. split; [apply C86_tree; vm_compute; reflexivity|].
  split; vm_compute; reflexivity.
Qed.

(** C93: an unset variable in a part of the calculation that is evaluated is always named, and nothing is complained about otherwise. *)
Theorem C93_unset_named : forall E v fuel s l r ts n u, calculation_told E v fuel s = (l, Ok r) -> splits E s ts -> tree_of E ts n ->
  inside E n (NVariable u) -> unset E v u -> In (SUnknown u) l.
Proof.
  intros E v fuel s l r ts n u H S T I U. apply told_says in H as [(k & ts' & n' & r' & c & -> & S' & T' & V & K & _ & C) _].
  rewrite (C79_one E s ts' ts S' S) in T'. rewrite (C86_one E ts n' n T' T) in *. apply in_or_app. right. right. apply C. left. exists u. split; [reflexivity|].
  exists (NVariable u), u. split; [exact I|]. split; [constructor|]. split; [now left|exact U].
Qed.
Print Assumptions C93_unset_named.
Example C93_unset_named_ex : exists l r n, calculation_told whole desk 9 (lit "x != nope") = (l, Ok r) /\ tree_of whole [ident "x"; tok TNeq; ident "nope"] n /\
  inside whole n (NVariable (lit "nope")) /\ unset whole desk (lit "nope") /\ r = lit "true".
Proof.
  do 3 eexists. split; [vm_compute; reflexivity|]. split; [apply C86_tree; vm_compute; reflexivity|]. split; [eapply InPart; [apply PaCompareR|apply InSelf]|]. split; [|reflexivity].
  split; [vm_compute; reflexivity|]. split; [|split].
  - intros [H|(b & H)]; discriminate H.
  - apply no_colon. cbn. intuition discriminate.
  - exists (nth 0 (vw_vars desk) []). split; [vm_compute; discriminate|]. split; vm_compute; reflexivity.
Qed.
Theorem C93_quiet : forall E v fuel s l r ts n, calculation_told E v fuel s = (l, Ok r) -> splits E s ts -> tree_of E ts n ->
  (forall u, ~ meets E v n u) -> ~ mixes E v n -> strays E s 0 -> l = [STree n].
Proof.
  intros E v fuel s l r ts n H S T M X Z. apply told_says in H as [(k & ts' & n' & r' & c & -> & S' & T' & V & K & _ & C) _].
  rewrite (C79_one E s ts' ts S' S) in T'. rewrite (C86_one E ts n' n T' T) in *.
  rewrite (strays_one E s 0 Z k K) in *.
  cbn [repeat app]. f_equal. destruct c as [|x c]; [reflexivity|]. exfalso. destruct (proj1 (C x) (or_introl eq_refl)) as [(u & _ & Hu)|[_ Hx]]; [exact (M u Hu)|exact (X Hx)].
Qed.
Print Assumptions C93_quiet.
Example C93_quiet_ex : exists n, calculation_told whole desk 9 (lit "x == 5") = ([STree n], Ok (lit "true")) /\ tree_of whole [ident "x"; tok TEq; num "5"] n /\
  (forall u, ~ meets whole desk n u) /\ ~ mixes whole desk n /\ strays whole (lit "x == 5") 0.
Proof.
  exists (NCompare (NVariable (lit "x")) TEq (NNumber 5%Z)). split; [vm_compute; reflexivity|]. split; [apply C86_tree; vm_compute; reflexivity|].
  assert (A : forall x, In x [] <-> about whole desk (NCompare (NVariable (lit "x")) TEq (NNumber 5%Z)) x).
  { apply (evaluate_lines whole desk 9 _ [] (lit "true")); [|vm_compute; reflexivity]. intros H. inversion H as [| | | | | |? ? ? K|? ? ? K|]; inversion K. }
  split; [intros u H; apply (A (SUnknown u)); left; now exists u|]. split; [intros H; apply (A SNotNumbers); now right|].
  cbn. do 6 (apply StOther; [discriminate|discriminate|]). apply StEnd.
Qed.

(** C93: each text has one number of misplaced colons, and if the first colon outside of string literals stands alone, it is complained about. *)
Theorem C93_colons : forall E s k j, strays E s k -> strays E s j -> j = k.
Proof. intros E s k j H K. now apply (strays_one E s). Qed.
Print Assumptions C93_colons.
Example C93_colons_ex : strays whole (lit "a:") 1 /\ strays whole (lit "a::b") 0.
Proof.
  split; cbn.
  - apply StOther; [discriminate|discriminate|]. apply StLast.
  - apply StOther; [discriminate|discriminate|]. apply (StField whole [98] [] 0); [constructor; [constructor|reflexivity]|]. apply StEnd.
Qed.
Theorem C93_colon : forall E v fuel a r l w, calculation_told E v fuel (a ++ 58 :: r) = (l, Ok w) -> ~ In 34 a -> ~ In 58 a -> hd_error r <> Some 58 -> In SColon l.
Proof.
  intros E v fuel a r l w H H1 H2 Hr. apply told_says in H as [(k & ts & n & r' & c & -> & S & T & V & K & _ & C) _]. apply first_stray in K; auto.
  destruct k; [easy|]. now left.
Qed.
Print Assumptions C93_colon.
Example C93_colon_ex : fst (calculation_told whole desk 9 (lit "1 a:b c::d e:")) = [SColon; SColon; STree (NNumber 1%Z)] /\ strays whole (lit "1 a:b c::d e:") 2 /\
  calculation_told whole desk 9 (34 :: lit "a:b" ++ [34]) = ([STree (NString (34 :: lit "a:b" ++ [34]))], Ok (34 :: lit "a:b" ++ [34])).
Proof.
  split; [vm_compute; reflexivity|]. split; [|vm_compute; reflexivity]. cbn. do 3 (apply StOther; [discriminate|discriminate|]).
  apply (StColon whole 98 [32; 99] (lit "::d e:") 1); [discriminate| |].
  - constructor; [repeat constructor|reflexivity].
  - apply (StField whole [100] (lit " e:") 1); [constructor; [constructor|reflexivity]|]. cbn. do 2 (apply StOther; [discriminate|discriminate|]). apply StLast.
Qed.

(** C93: it is not true that a misspelt name is always complained about: for a function there is just a text, which is the value. *)
Theorem C93_misspelt_refuted : exists s n, s = lit "Mni(1, 2)" /\ calculation_told whole desk 9 s = ([STree n], Ok (lit "Unimplemented function: Mni")).
Proof. do 2 eexists. split; [reflexivity|]. vm_compute. reflexivity. Qed.
Print Assumptions C93_misspelt_refuted.
(** C93: nor that only names are complained about that stand in the calculation: values are looked up as well. *)
Theorem C93_written_refuted : exists s l r, s = lit "(1 == 1) + 1" /\ calculation_told whole desk 9 s = (l, Ok r) /\ In (SUnknown (lit "true")) l.
Proof. do 3 eexists. split; [reflexivity|]. split; [vm_compute; reflexivity|]. cbn. auto. Qed.
Print Assumptions C93_written_refuted.

(** C94: the tests that come to an end print what C91 says, and before the lines of each move those of the calculations that it evaluates. *)
Theorem C94_lines : forall E file fuel ts s ls s', tests_spoken E file fuel ts s = (ls, Ok s') -> tests_speak E file ts s ls s'.
Proof. intros E file fuel ts s ls s'. apply tests_speak_ok. Qed.
Print Assumptions C94_lines.
Definition unset_test : test := a_test "u" [st IAssert ["x != 5"%string]; dialog "1"].
Example C94_lines_ex : exists n s', tests_spoken whole (a_file [] []) 9 [unset_test] vm_new =
  ([OfRunner whole (LRunning (lit "u")); OfCalculation whole (STree n); OfCalculation whole (SUnknown (lit "x")); OfCalculation whole (STree (NNumber 1%Z));
    OfRunner whole (LDialog (lit "1")); OfRunner whole (LPopping (lit "u")); OfRunner whole (LOutcome (lit "u") true)], Ok s').
Proof. do 2 eexists. vm_compute. reflexivity. Qed.

(** C94: and these lines are all there is to it: a list of tests comes to an end with exactly the lines of the specification. *)
Theorem C94_exact : forall E file ts s ls s', tests_speak E file ts s ls s' <-> exists fuel, tests_spoken E file fuel ts s = (ls, Ok s').
Proof. intros. symmetry. apply tests_speak_exact. Qed.
Print Assumptions C94_exact.
Example C94_exact_ex : exists ls s', tests_speak whole (a_file [] []) [unset_test; unset_test] vm_new ls s' /\ length ls = 14%nat.
Proof. do 2 eexists. split; [apply C94_exact; exists 9%nat; vm_compute; reflexivity|reflexivity]. Qed.
(** C94: a list of tests that breaks off prints the lines of the tests before the one that does, then those of its moves up to the step that cannot be
    done, and last those of the calculations of that step up to the first that has no value. *)
Theorem C94_breaks : forall E file ts s ls, (exists fuel, tests_spoken E file fuel ts s = (ls, Panic)) <->
  exists before t after l1 s1 l2, ts = before ++ t :: after /\ tests_speak E file before s l1 s1 /\ stuck_speaks E file (begun s1 t) l2 /\ ls = l1 ++ OfRunner E (LRunning (te_name t)) :: l2.
Proof. intros. apply tests_stuck_exact. Qed.
Print Assumptions C94_breaks.
Definition broken_test : test := a_test "b" [dialog "1"; st IAssert ["p + Abs(q)"%string]; dialog "2"].
Example C94_breaks_ex : exists n, tests_spoken whole (a_file [] []) 9 [a_test "a" []; broken_test; unset_test] vm_new =
  ([OfRunner whole (LRunning (lit "a")); OfRunner whole (LPopping (lit "a")); OfRunner whole (LOutcome (lit "a") true); OfRunner whole (LRunning (lit "b")); OfCalculation whole (STree (NNumber 1%Z)); OfRunner whole (LDialog (lit "1"));
    OfCalculation whole (STree n); OfCalculation whole (SUnknown (lit "p")); OfCalculation whole (SUnknown (lit "q"))], Panic).
Proof. eexists. vm_compute. reflexivity. Qed.

(** C94: without the lines of calculations these are the lines of C91, however the run ends. *)
Theorem C94_runner : forall E file fuel ts s, flat_map (of_runner E) (fst (tests_spoken E file fuel ts s)) = fst (tests_lines E file fuel ts s) /\
  snd (tests_spoken E file fuel ts s) = snd (tests_lines E file fuel ts s).
Proof. intros. apply tests_runner. Qed.
Print Assumptions C94_runner.
Example C94_runner_ex : fst (tests_lines whole (a_file [] []) 9 [unset_test] vm_new) =
  [LRunning (lit "u"); LDialog (lit "1"); LPopping (lit "u"); LOutcome (lit "u") true] /\ length (fst (tests_spoken whole (a_file [] []) 9 [unset_test] vm_new)) = 7%nat.
Proof. split; vm_compute; reflexivity. Qed.
(** C94: every run of C91 that comes to an end is one of these. *)
Theorem C94_complete : forall E file ts s ls s', tests_print E file ts s ls s' ->
  exists sp, tests_speak E file ts s sp s' /\ flat_map (of_runner E) sp = ls.
Proof.
  intros E file ts s ls s' H. apply tests_lines_ok in H as (fuel & H). exists (fst (tests_spoken E file fuel ts s)).
  destruct (tests_runner E file fuel ts s) as [A B]. rewrite H in A, B. cbn [fst snd] in A, B. split; [|exact A].
  apply (tests_speak_ok E file fuel). destruct (tests_spoken E file fuel ts s); cbn in *; congruence.
Qed.
Print Assumptions C94_complete.
Example C94_complete_ex : exists s', tests_print whole (talk_file []) [talk] vm_new (LRunning (lit "t") :: talk_lines ++ [LOutcome (lit "t") true]) s'.
Proof. exact C91_lines_ex. Qed.

(** C94: every calculation that a run evaluates on its way has its lines among those of the run. *)
Theorem C94_every : forall E file s ls s' n s1 cs c, run_speaks E file s ls s' -> comes_to E file n s s1 -> under_way s1 -> asks file s1 cs -> In c cs ->
  exists l before after, calculation_says E (view_of s1) c l /\ ls = before ++ map (OfCalculation E) l ++ after.
Proof. exact run_every. Qed.
Print Assumptions C94_every.
Example C94_every_ex : exists ls s', run_speaks whole (a_file [] []) (begun vm_new unset_test) ls s' /\
  comes_to whole (a_file [] []) 0 (begun vm_new unset_test) (begun vm_new unset_test) /\ under_way (begun vm_new unset_test) /\
  asks (a_file [] []) (begun vm_new unset_test) [lit "x != 5"].
Proof.
  do 2 eexists. split; [apply (run_speaks_ok _ _ 9); vm_compute; reflexivity|]. split; [constructor|]. split; [split; [reflexivity|vm_compute; discriminate]|].
  eapply AsStep; [do 4 eexists; split; [reflexivity|]; split; [reflexivity|]; reflexivity|reflexivity|vm_compute; reflexivity|]. apply (EvFirst _ _ _ _ _ []); [cbn; auto 10|reflexivity].
Qed.
(** C94: so each unset variable in the calculations of a run that comes to an end is named, even where the test passes. *)
Theorem C94_unset_named : forall E file s ls s' n s1 cs c ts t u, run_speaks E file s ls s' -> comes_to E file n s s1 -> under_way s1 -> asks file s1 cs -> In c cs ->
  splits E c ts -> tree_of E ts t -> inside E t (NVariable u) -> unset E (view_of s1) u -> In (OfCalculation E (SUnknown u)) ls.
Proof.
  intros E file s ls s' n s1 cs c ts t u R C U A I S T Hi Hu. destruct (run_every E file _ _ _ _ _ _ _ R C U A I) as (l & b & a & (k & ts' & n' & r' & q & -> & S' & T' & V & K & _ & Q) & ->).
  rewrite (C79_one E c ts' ts S' S) in T'. rewrite (C86_one E ts n' t T' T) in *. apply in_or_app. right. apply in_or_app. left. apply in_map.
  apply in_or_app. right. right. apply Q. left. exists u. split; [reflexivity|]. exists (NVariable u), u. split; [exact Hi|]. split; [constructor|]. split; [now left|exact Hu].
Qed.
Print Assumptions C94_unset_named.
Example C94_unset_named_ex : exists ls s' n, run_speaks whole (a_file [] []) (begun vm_new unset_test) ls s' /\ vm_pass s' = true /\
  asks (a_file [] []) (begun vm_new unset_test) [lit "x != 5"] /\ tree_of whole [ident "x"; tok TNeq; num "5"] n /\ inside whole n (NVariable (lit "x")) /\
  unset whole (view_of (begun vm_new unset_test)) (lit "x").
Proof.
  do 3 eexists. split; [apply (run_speaks_ok _ _ 9); vm_compute; reflexivity|]. split; [reflexivity|]. split.
  { eapply AsStep; [do 4 eexists; split; [reflexivity|]; split; [reflexivity|]; reflexivity|reflexivity|vm_compute; reflexivity|]. apply (EvFirst _ _ _ _ _ []); [cbn; auto 10|reflexivity]. }
  split; [apply C86_tree; vm_compute; reflexivity|]. split; [eapply InPart; [apply PaCompareL|apply InSelf]|].
  split; [vm_compute; reflexivity|]. split; [|split].
  - intros [H|(b & H)]; discriminate H.
  - apply no_colon. cbn. intuition discriminate.
  - exists []. split; [vm_compute; discriminate|]. split; reflexivity.
Qed.
(** C94: it is not true that a test fails if what it asserts depends on a variable that was never set. *)
Theorem C94_unset_fails_refuted : exists t ls s', tests_spoken whole (a_file [] []) 9 [t] vm_new = (ls, Ok s') /\ vm_pass s' = true /\ In (OfCalculation whole (SUnknown (lit "x"))) ls /\
  switches (nth 0 (sc_steps (te_script t)) (mkStep IBeep 0 [])) = [lit "x != 5"].
Proof. exists unset_test. do 2 eexists. split; [vm_compute; reflexivity|]. split; [reflexivity|]. split; [cbn; auto|reflexivity]. Qed.
Print Assumptions C94_unset_fails_refuted.
