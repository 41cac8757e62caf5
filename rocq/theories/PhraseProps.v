(** C86: the tree of every list of tokens. *)
From Coq Require Import Ascii String NArith ZArith List Bool Lia Arith.
From Verif Require Import Prelude PreludeFacts CalcModel CalcSpec CalcFacts CalcParse CalcEnds CalcDemo CalcProps LexSpec LexProofs DbModel EvalModel EvalSpec
  EvalProofs EvalCycle EvalFuel EvalProps TreeSpec Tree TreeProps TokensSpec Tokens TokensProps PhraseSpec Phrase.
Import ListNotations.
Local Open Scope N_scope.

Local Notation plus := (tok TPlus). Local Notation star := (tok TMultiply). Local Notation open := (tok TOpenParen).
Local Notation close := (tok TCloseParen). Local Notation comma := (tok TComma).
Local Ltac ended := intros (? & ? & [= <- <-] & I & K); cbn in I; first [intuition discriminate|now elim K].
Local Ltac single := repeat (apply PhFirst; [discriminate| |ended]; cbn [tighter]).

(** C86: a list of tokens has the tree the rules of the language say, and no other list has one. *)
Theorem C86_tree : forall E ts n, parsed E ts = Ok n <-> tree_of E ts n.
Proof.
  intros E ts n. rewrite <- parse_exact. split; [intros H; now exists (10 * length ts)%nat|].
  intros (f & H). unfold parsed. destruct (Nat.le_ge_cases (10 * length ts) f) as [L|L]; [now rewrite <- (parse_decided E ts f L)|].
  destruct ts as [|t r]; [discriminate|]. cbn [parse] in H |- *.
  destruct (parse_comparison E f (t, r)) as [a| |] eqn:P; try discriminate.
  pose proof (mono_le _ (parse_at_mono E LCompare (t, r)) f _ L) as M. cbn [parse_at] in M. rewrite M by congruence. now rewrite P.
Qed.
Print Assumptions C86_tree.
(** Two arguments, and a product that follows the call. *)
Example C86_tree_ex : exists ts n, ts = [ident "Min"; open; ident "x"; close; star; num "2"; comma; num "3"; close] /\
  n = NCall (lit "Min") [NBinary (NVariable (lit "x")) TMultiply (NNumber 2%Z); NNumber 3%Z] /\ tree_of whole ts n.
Proof. do 2 eexists. split; [reflexivity|]. split; [reflexivity|]. apply C86_tree. vm_compute. reflexivity. Qed.

(** C86: the recursion is endless exactly if reading gets to an opening parenthesis that is the last token. *)
Theorem C86_endless : forall E ts, (forall fuel, parse E fuel ts = NoFuel) <-> dangles E LCompare ts.
Proof. exact parse_endless. Qed.
Print Assumptions C86_endless.
Example C86_endless_ex : dangles whole LCompare [num "1"; plus; ident "Abs"; open].
Proof.
  apply DgFirst; [discriminate|]. apply DgFirst; [discriminate|]. cbn [tighter].
  apply (DgJoin whole LExpr _ (NNumber 1%Z) plus (ident "Abs") [open]).
  - single. exact (PhNumber whole (lit "1") 1%Z [plus; ident "Abs"; open] eq_refl).
  - exists plus, [ident "Abs"; open]. split; [reflexivity|]. split; [cbn; tauto|discriminate].
  - apply DgFirst; [discriminate|]. apply DgCall; [|reflexivity|].
    + rewrite <- split_field_b. vm_compute. discriminate.
    + apply DgArg. repeat (apply DgFirst; [discriminate|]; cbn [tighter]). now apply DgLast.
Qed.

(** C86: in all other cases the program stops. *)
Theorem C86_stops : forall E ts, parsed E ts = Panic <-> (~ exists n, tree_of E ts n) /\ ~ dangles E LCompare ts.
Proof.
  intros E ts. split.
  - intros H. split.
    + intros (n & K). apply C86_tree in K. congruence.
    + intros K. apply C86_endless with (fuel := (10 * length ts)%nat) in K. unfold parsed in H. congruence.
  - intros (H & K). destruct (parsed E ts) as [n| |] eqn:P; [|reflexivity|].
    + elim H. exists n. now apply C86_tree.
    + elim K. apply C86_endless. intros fuel. destruct (Nat.le_ge_cases (10 * length ts) fuel) as [L|L]; [now rewrite (parse_decided E ts fuel L)|].
      destruct (parse E fuel ts) as [n| |] eqn:Q; [| |reflexivity]; exfalso; unfold parsed in P; destruct ts as [|t r]; try discriminate; cbn [parse] in P, Q;
        pose proof (mono_le _ (parse_at_mono E LCompare (t, r)) fuel _ L) as M; cbn [parse_at] in M;
        (destruct (parse_comparison E fuel (t, r)) as [[]| |] eqn:R; try discriminate); rewrite M in P by congruence; discriminate.
Qed.
Print Assumptions C86_stops.
Example C86_stops_ex : (~ exists n, tree_of whole [num "1"; plus; close] n) /\ ~ dangles whole LCompare [num "1"; plus; close].
Proof. apply C86_stops. vm_compute. reflexivity. Qed.

(** C86: there is at most one tree. *)
Theorem C86_one : forall E ts n m, tree_of E ts n -> tree_of E ts m -> n = m.
Proof. intros E ts n m H K. apply C86_tree in H. apply C86_tree in K. congruence. Qed.
Print Assumptions C86_one.
Example C86_one_ex : tree_of whole [num "1"; num "2"] (NNumber 1%Z).
Proof. apply C86_tree. vm_compute. reflexivity. Qed.

(** C86: calculations without calls have the tree of the usual grammar. *)
Theorem C86_usual : forall E ts n, spells E LCompare ts n -> tree_of E ts n.
Proof. intros E ts n H. apply C86_tree. now apply C34_precedence. Qed.
Print Assumptions C86_usual.
Example C86_usual_ex : exists n, spells whole LCompare [num "1"; plus; num "2"] n.
Proof.
  exists (NBinary (NNumber 1%Z) TPlus (NNumber 2%Z)). constructor. constructor.
  apply (SpExpr whole [num "1"] (NNumber 1%Z) TPlus [num "2"] (NNumber 2%Z)); [do 3 constructor; reflexivity|now left|do 2 constructor; reflexivity].
Qed.

(** C86: with C78 and C79, the value of every calculation from its characters. *)
Theorem C86_value : forall E v s r,
  calc_gives E v s (Ok r) <-> exists ts n, splits E s ts /\ tree_of E ts n /\ value_is E v n r.
Proof.
  intros E v s r. rewrite C79_value. split; intros (ts & n & H1 & H2 & H3); exists ts, n; (split; [exact H1|split; [now apply C86_tree|exact H3]]).
Qed.
Print Assumptions C86_value.
Example C86_value_ex : exists ts n, splits whole (lit "Abs(x - 7) + 1") ts /\ tree_of whole ts n /\ value_is whole desk n (lit "1").
Proof. apply C86_value. apply (calc_gives_at _ _ 9); [vm_compute; reflexivity|discriminate]. Qed.

(** C86: a text whose tokens have no tree stops the program, or goes into endless recursion if a parenthesis is left open at the end. *)
Theorem C86_text : forall E v s ts, splits E s ts -> (~ exists n, tree_of E ts n) ->
  (dangles E LCompare ts -> forall fuel, eval_calculation E v fuel s = NoFuel) /\ (~ dangles E LCompare ts -> calc_gives E v s Panic).
Proof.
  intros E v s ts Hs Hn. apply C79_tokens in Hs. split.
  - intros D fuel. unfold eval_calculation. rewrite Hs. cbn [bind]. now rewrite (proj2 (C86_endless E ts) D).
  - intros D. apply (calc_gives_at _ _ 0); [|discriminate]. unfold eval_calculation. rewrite Hs. cbn [bind].
    pose proof (proj2 (C86_stops E ts) (conj Hn D)) as P. unfold parsed in P. now rewrite P.
Qed.
Print Assumptions C86_text.
Example C86_text_ex : exists s t us ws, s = lit "2 * (" /\ t = lit "2 * )" /\ splits whole s us /\ splits whole t ws /\
  (~ exists n, tree_of whole us n) /\ dangles whole LCompare us /\ (~ exists n, tree_of whole ws n) /\ ~ dangles whole LCompare ws.
Proof.
  exists (lit "2 * ("), (lit "2 * )"), [num "2"; star; open], [num "2"; star; close]. split; [reflexivity|]. split; [reflexivity|].
  split; [apply lex_exact; vm_compute; reflexivity|]. split; [apply lex_exact; vm_compute; reflexivity|].
  split; [|split].
  - intros (n & H). apply C86_tree in H. vm_compute in H. discriminate.
  - do 3 (apply DgFirst; [discriminate|]). cbn [tighter]. apply (DgJoin whole LTerm _ (NNumber 2%Z) star open []).
    + single. exact (PhNumber whole (lit "2") 2%Z [star; open] eq_refl).
    + exists star, [open]. split; [reflexivity|]. split; [cbn; tauto|discriminate].
    + now apply DgLast.
  - apply C86_stops. vm_compute. reflexivity.
Qed.
