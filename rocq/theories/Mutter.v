(** Proofs about the error stream; the theorems are in MutterProps.v. *)
From Coq Require Import Ascii String NArith List Bool Lia Arith.
From Verif Require Import Prelude PreludeFacts InstrModel ComponentModel CalcModel JsonModel BurnModel BurnSpec BurnLex SchemaModel.
From Verif Require Import GripeModel SourceModel PrintModel TalkModel TraceModel ReportModel WholeModel WordsModel WordsSpec Words HeardSpec Heard MutterModel MutterSpec.
Import ListNotations.
Local Open Scope N_scope.

(** ** One reading *)
Ltac spell_out := repeat match goal with H : context [lit ?s] |- _ => let v := eval vm_compute in (lit s) in change (lit s) with v in H end.
Lemma mutters_one l x y : mutters l x -> mutters l y -> x = y.
Proof.
  intros H K. destruct H as [|w| |t| | |n| | |t| |wp p wl l wc c A B D]; (match type of K with mutters ?l _ => remember l as m eqn:Q end);
    destruct K as [|w'| |t'| | |n'| | |t'| |wp' p' wl' l' wc' c' A' B' D']; try reflexivity; try (exfalso; spell_out; cbn [app] in Q; discriminate Q); apply app_inv_head in Q; try (now subst).
  apply (numeral_end 10 10 _ _ _ _ _ _ ltac:(lia) ltac:(lia) A' A) in Q; [|unfold figured; cbn; lia..]. destruct Q as [-> Q]. apply app_inv_head in Q.
  apply (numeral_end 10 10 _ _ _ _ _ _ ltac:(lia) ltac:(lia) B' B) in Q; [|unfold figured; cbn; lia..]. destruct Q as [-> Q]. apply app_inv_head in Q. subst wc'.
  rewrite (numeral_one 10 _ _ _ ltac:(lia) A' A), (numeral_one 10 _ _ _ ltac:(lia) B' B), (numeral_one 16 _ _ _ ltac:(lia) D' D). reflexivity.
Qed.
Lemma overheard_one text os ps : overheard_as text os -> overheard_as text ps -> os = ps.
Proof.
  intros (ls & L & H) (ls' & L' & K). rewrite <- (lines_one _ _ _ L L') in K. clear L L'. revert ps K. induction H as [|l x ls os A H IH]; intros ps K; inversion K as [|? y ? ? B K']; subst; [reflexivity|].
  f_equal; [exact (mutters_one _ _ _ A B)|now apply IH].
Qed.
Lemma overheard_app a os b ps : overheard_as a os -> overheard_as b ps -> overheard_as (a ++ b) (os ++ ps).
Proof. intros (ls & A & B) (ms & A' & B'). exists (ls ++ ms). split; [now apply text_lines_app|now apply Forall2_app]. Qed.
Lemma overheard_line l x : one_line l -> mutters l x -> overheard_as (l ++ [10]) [x].
Proof. intros L H. exists [l]. split; [apply TlLine; [exact L|constructor]|]. now repeat constructor. Qed.
Lemma overheard_none : overheard_as [] [].
Proof. exists []. split; constructor. Qed.

(** ** The words follow the rules *)
Ltac split_line := repeat apply one_line_app; auto; try (now apply one_line_lit).
Lemma muttered_overheard E D (x : shown E) : debugs_ok D -> terse x -> overheard_as (match muttered E D x with Some w => w ++ [10] | None => [] end) (to_overhear D x).
Proof.
  intros [T I] H. destruct x as [g|f|[y|l]|n|n c|r]; cbn [muttered]; try apply overheard_none.
  - destruct g; cbn [gripe_words to_overhear]; (apply overheard_line; [split_line|constructor]).
  - destruct y; cbn [calculation_mutters to_overhear]; try apply overheard_none; (apply overheard_line; [split_line|constructor]).
  - destruct l; cbn [runner_mutters to_overhear]; try apply overheard_none; (apply overheard_line; [split_line|constructor]).
  - destruct r; cbn [decompiler_mutters to_overhear]; try apply overheard_none; (apply overheard_line; [split_line; auto using digits_line, hex_line|constructor; auto using digits_numeral, hex_numeral]).
Qed.
Lemma stderr_overheard E D (l : list (shown E)) : debugs_ok D -> Forall terse l -> overheard_as (stderr E D l) (flat_map (to_overhear D) l).
Proof.
  intros T. unfold stderr, put_out. induction 1 as [|x l H _ IH]; [apply overheard_none|]. cbn [flat_map]. apply overheard_app; [now apply muttered_overheard|exact IH].
Qed.

(** ** The words of scripts that are complained about are on one line *)
Definition small (g : gripe) : Prop := match g with GStep w => one_line w | _ => True end.
Definition named (t : btoken) : Prop := bt_type t = BIdentifier -> one_line (bt_value t).
Lemma word_line w : is_word w -> one_line w.
Proof. intros [_ F] I. rewrite Forall_forall in F. destruct (F 10 I) as [W _]. discriminate W. Qed.
Lemma reads_named E code ts : reads E code ts -> Forall named ts.
Proof.
  assert (A : forall vs, Forall named (args vs)) by (intros vs; apply Forall_forall; intros t I; apply in_map_iff in I as (v & <- & _); discriminate).
  induction 1 as [|c s ts W H IH|w t c s ts W R Q H IH|w W|a vs s ts Ha H IH|a vs Ha|c t s ts I H IH|c t s ts I H IH|c d s ts I Q H IH|c t d s ts I Q H IH]; auto.
  - constructor; [|exact IH]. intros _. destruct R; cbn [bt_value btok]; [intros []|now apply word_line..].
  - apply Forall_app. auto.
  - constructor; [|exact IH]. intros _ [].
  - constructor; [|exact IH]. intros _ [].
  - constructor; [|exact IH]. intros _ [].
  - constructor; [|exact IH]. intros _ [].
Qed.
Lemma first_small {A} l (x : griping A) : Forall small l -> Forall small (fst x) -> Forall small (fst (first l x)).
Proof. intros H K. cbn [first fst]. apply Forall_app. auto. Qed.
Lemma switches_rest stop op ts : forall sw st r, Forall named ts -> parse_switches stop op ts sw = Ok (st, r) -> Forall named r.
Proof.
  induction ts as [|t ts IH]; intros sw st r F H; cbn [parse_switches] in H; [injection H as <- <-; exact F|]. inversion F; subst.
  destruct (bt_type t); try (eapply IH; eassumption); (destruct (btype_eqb _ stop); [injection H as <- <-; assumption|discriminate]).
Qed.
Lemma parameters_small ts : forall a, Forall named ts -> Forall small (fst (parameters_told ts a)) /\ Forall named (snd (snd (parameters_told ts a))).
Proof.
  induction ts as [|t ts IH]; intros a F; cbn [parameters_told]; [split; constructor|]. inversion F; subst.
  destruct (bt_type t); try (now apply IH); try (now split); cbn [fst snd]; destruct (IH a ltac:(assumption)); (split; [now constructor|assumption]).
Qed.
Definition tidy (x : griping (result (list step * list instruction * list btoken) (list N))) : Prop :=
  Forall small (fst x) /\ forall s q r, snd x = Ok (ROk (s, q, r)) -> Forall named r.
Lemma tidy_first g x : Forall small g -> tidy x -> tidy (first g x).
Proof. intros G [X Y]. split; [now apply first_small|exact Y]. Qed.
Lemma tidy_stop g (o : outcome (result (list step * list instruction * list btoken) (list N))) : Forall small g -> (forall s q r, o = Ok (ROk (s, q, r)) -> Forall named r) -> tidy (g, o).
Proof. split; auto. Qed.
Lemma tidy_switches stop op ts (k : list step -> list btoken -> griping (result (list step * list instruction * list btoken) (list N))) : Forall named ts ->
  (forall st' ts', Forall named ts' -> tidy (k st' ts')) -> tidy (match parse_switches stop op ts [] with Ok (st, ts) => k st ts | Panic => ([], Panic) | NoFuel => ([], NoFuel) end).
Proof.
  intros F K. destruct (parse_switches stop op ts []) as [[st' ts']| |] eqn:P; [|apply tidy_stop; [constructor|discriminate]..]. apply K. eapply switches_rest; eassumption.
Qed.
Lemma body_small fuel : forall ts p st, Forall named ts -> tidy (body_told fuel ts p st).
Proof.
  induction fuel as [|fuel IH]; intros ts p st F; cbn [body_told]; [apply tidy_stop; [constructor|discriminate]|].
  destruct ts as [|t ts]; [apply tidy_stop; [constructor|intros s q r H; injection H as <- <- <-; constructor]|]. inversion F as [|? ? N0 F']; subst.
  assert (O : tidy (first [GToken t] (body_told fuel ts p st))) by (apply tidy_first; [now repeat constructor|now apply IH]).
  destruct (bt_type t) eqn:T; try exact O; try (apply IH; assumption); try (apply (tidy_switches _ _ ts (fun st' ts' => body_told fuel ts' _ (st ++ st'))); [assumption|intros; now apply IH]).
  all: try (destruct ts as [|check ts']; [apply tidy_stop; [constructor|discriminate]|]; inversion F'; subst; destruct (btype_eqb _ _); [apply IH; assumption|apply tidy_stop; [repeat constructor|intros s q r H; injection H as <- <- <-; assumption]]).
  - destruct (instr_from_str (bt_value t)) as [op|]; [apply (tidy_switches _ _ ts (fun st' ts' => body_told fuel ts' p (st ++ st'))); [assumption|intros; now apply IH]|].
    apply tidy_first; [|now apply IH]. constructor; [|constructor]. now apply N0.
  - destruct p as [|top p']; [apply tidy_stop; [constructor|intros s q r H; injection H as <- <- <-; assumption]|].
    match goal with |- context [if ?b then _ else _] => destruct b end; [apply IH; assumption|]. destruct top; try (apply tidy_stop; [constructor|discriminate]); apply IH; assumption.
Qed.
Lemma scripts_small fuel : forall ts p scs, Forall named ts -> Forall small (fst (scripts_told fuel ts p scs)).
Proof.
  induction fuel as [|fuel IH]; intros ts p scs F; cbn [scripts_told]; [constructor|]. destruct ts as [|t ts]; [constructor|]. inversion F as [|? ? _ F']; subst.
  assert (O : Forall small (fst (first [GBetween] (scripts_told fuel ts p scs)))) by (apply first_small; [now repeat constructor|now apply IH]).
  destruct (bt_type t); try exact O. destruct ts as [|n ts]; [constructor|]. inversion F' as [|? ? _ F'']; subst.
  cbv zeta. destruct (parameters_small ts [] F'') as [A B]. destruct (snd (parameters_told ts [])) as [a r]. cbn [snd] in B. destruct (body_small (S (length r)) r p [] B) as [C D].
  apply first_small; [apply Forall_app; auto|]. destruct (snd (body_told (S (length r)) r p [])) as [[[[s q] r']|e]| |]; cbn [fst]; try constructor. apply IH. eapply D. reflexivity.
Qed.
Lemma compile_small E code : Forall small (fst (compile_told E code)).
Proof.
  unfold compile_told. destruct (get_tokens E code) as [ts| |] eqn:T; [|constructor..]. cbv zeta. cbn [fst]. apply scripts_small. apply (reads_named E code). now apply tokens_exact.
Qed.
Lemma hears_small {A B} (x : griping A) (k : A -> griping B) : Forall small (fst x) -> (forall a, Forall small (fst (k a))) -> Forall small (fst (hears x k)).
Proof. intros H K. unfold hears. destruct (snd x); [now apply first_small|exact H..]. Qed.
Lemma mum_small {A} (x : outcome A) : Forall small (fst (mum x)).
Proof. constructor. Qed.
Lemma rhears_small {A B} (x : griping (result A (list N))) (k : A -> griping (result B (list N))) : Forall small (fst x) -> (forall a, Forall small (fst (k a))) -> Forall small (fst (rhears x k)).
Proof. intros H K. apply hears_small; [exact H|]. intros [a|e]; [apply K|apply mum_small]. Qed.
Ltac small_tac IH := repeat first [apply mum_small | apply compile_small | apply IH | apply rhears_small | apply hears_small; [|intros; try match goal with a : _ * _ |- _ => destruct a end] |
  match goal with |- Forall small (fst (if ?b then _ else _)) => destruct b end | match goal with |- Forall small (fst (let '(_, _) := ?p in _)) => destruct p end | progress intros].
Lemma test_small E fuel : forall ts t, Forall small (fst (test_told E fuel ts t)).
Proof.
  induction fuel as [|fuel IH]; intros ts t; cbn [test_told]; [apply mum_small|]. destruct ts as [|n ts]; [apply mum_small|]. small_tac IH.
Qed.
Lemma component_small E t ts f : Forall small (fst (component_told E t ts f)).
Proof. unfold component_told. destruct (k_kind t); try apply mum_small; small_tac test_small. Qed.
Lemma components_small E fuel : forall ts f, Forall small (fst (components_told E fuel ts f)).
Proof.
  induction fuel as [|fuel IH]; intros ts f; cbn [components_told]; [apply mum_small|]. destruct ts as [|t ts]; [apply mum_small|]. apply rhears_small; [apply component_small|]. intros [f' ts']. apply IH.
Qed.
Lemma source_small E code : Forall small (fst (source_told E code)).
Proof. unfold source_told. apply hears_small; [apply mum_small|]. intros ts. apply hears_small; [apply components_small|]. intros [f|e]; apply mum_small. Qed.
Lemma source_terse E code : Forall (@terse E) (map WComplaint (fst (source_told E code))).
Proof. apply Forall_forall. intros x I. apply in_map_iff in I as (g & <- & I). pose proof (source_small E code) as F. rewrite Forall_forall in F. specialize (F g I). destruct g; auto. Qed.

(** ** The whole program *)
Section Session.
Context (E : fenv) (order : fmpfile -> fmpfile) (segment_order : list (N * list (N * list N)) -> list (N * list (N * list N))) (fuel : nat) (no_testing : bool) (P : shown E -> Prop).
Hypothesis complaints : forall code, Forall P (map WComplaint (fst (source_told E code))).
Hypothesis others : forall x, match x with WComplaint _ | WTests _ => True | _ => P x end.
Hypothesis tests : no_testing = false -> forall x, P (WTests x).
Lemma each_and {A B} (x : showing E A) (k : A -> showing E B) : Forall P (fst x) -> (forall a, Forall P (fst (k a))) -> Forall P (fst (and_show E x k)).
Proof. intros H K. unfold and_show. destruct (snd x); cbn [fst]; [apply Forall_app; auto|exact H..]. Qed.
Lemma each_hidden {A} (x : outcome A) : Forall P (fst (hidden E x)).
Proof. constructor. Qed.
Lemma each_through {L A} (c : L -> shown E) (x : list L * outcome A) : (forall l, P (c l)) -> Forall P (fst (through E c x)).
Proof. intros H. apply Forall_forall. intros y I. apply in_map_iff in I as (l & <- & _). apply H. Qed.
Lemma each_put x : P x -> Forall P (fst (puts E [x])).
Proof. intros H. now repeat constructor. Qed.
Lemma each_testing f : Forall P (fst (testing_shown E order fuel no_testing f)).
Proof.
  unfold testing_shown. destruct no_testing eqn:T; cbn [negb andb]; [constructor|]. destruct (f_tests f); [constructor|].
  apply each_and; [apply each_hidden|]. intros s. apply each_and; [|intros; apply each_hidden]. apply each_through. now apply tests.
Qed.
Lemma each_file i f : (forall f j, In j i -> Forall P (fst (compile_one_shown E order fuel no_testing f j))) /\ (forall f j, In j i -> Forall P (fst (decompile_one_shown E order segment_order fuel no_testing f j))) /\
  Forall P (fst (test_files_shown E i f)).
Proof.
  split; [|split].
  - intros g j _. unfold compile_one_shown. apply each_and; [apply complaints|]. intros tmp. apply each_and; [apply each_hidden|]. intros name. cbv zeta. apply each_and; [apply each_put, (others (WFile _))|]. intros _.
    apply each_and; [apply each_testing|]. intros _. apply each_and; [apply each_through; intros l; apply (others (WAssembler l))|]. intros b. apply each_and; [apply each_put, (others (WWritten _ _))|]. intros _. apply each_hidden.
  - intros g j _. unfold decompile_one_shown. apply each_and; [apply each_through; intros l; apply (others (WDecompiler l))|]. intros tmp. apply each_and; [apply each_put, (others (WFile _))|]. intros _. cbv zeta.
    apply each_and; [apply each_testing|]. intros _. apply each_hidden.
  - revert f. induction i as [|j i IH]; intros f; cbn [test_files_shown]; [apply each_hidden|]. apply each_and; [apply complaints|]. intros tmp. apply IH.
Qed.
Lemma each_inputs body i : (forall f j, In j i -> Forall P (fst (body f j))) -> forall f, Forall P (fst (inputs_shown E body i f)).
Proof.
  induction i as [|j i IH]; intros H f; cbn [inputs_shown]; [apply each_hidden|]. apply each_and; [apply H; now left|]. intros g. apply IH. intros h k K. apply H. now right.
Qed.
Lemma each_compile ts is : Forall P (fst (whole_compile E order fuel no_testing ts is)).
Proof. apply each_and; [apply each_file|]. intros f. apply each_inputs. apply each_file. exact f. Qed.
Lemma each_decompile ts is : Forall P (fst (whole_decompile E order segment_order fuel no_testing ts is)).
Proof. apply each_and; [apply each_file|]. intros f. apply each_inputs. apply each_file. exact f. Qed.
End Session.
Definition modest {E : fenv} (x : shown E) : Prop := match x with WComplaint (GStep w) => one_line w | _ => True end.
Lemma modest_complaints E code : Forall (@modest E) (map WComplaint (fst (source_told E code))).
Proof. eapply Forall_impl; [|apply source_terse]. intros x H. destruct x as [[]| | | | |]; exact H || exact I. Qed.
Definition names_fit {E : fenv} (es : list (shown E)) : Prop := forall n, In (WTests (OfCalculation E (SUnknown n))) es -> one_line n.
Lemma modest_terse E (es : list (shown E)) : Forall modest es -> names_fit es -> Forall terse es.
Proof.
  intros M H. apply Forall_forall. intros x I. rewrite Forall_forall in M. specialize (M x I). destruct x as [[]| |[[]|]| | |]; auto. now apply H.
Qed.
