(** C38-C42, C62-C64: tokenising and evaluating calculations; the evaluation half of C36. *)
From Coq Require Import Ascii String NArith ZArith List Bool Lia Arith.
From Verif Require Import Prelude PreludeFacts StrOrder StrOrderFacts Utf8 CalcModel CalcSpec CalcFacts CalcParse CalcEnds CalcRound CalcDemo
  CalcProps LexSpec LexProofs DbModel EvalModel EvalSpec EvalProofs EvalCycle EvalFuel.
Import ListNotations.
Local Open Scope N_scope.

(** An environment with variables [x], [y] and [loop], and no table. *)
Definition desk : view :=
  mkView db_new [[(lit "x", lit "5"); (lit "y", 34 :: lit "hi" ++ [34]); (lit "loop", lit "loop"); (lit "z", lit "x")]] 1.

(** C36: Get always answers with its error text. *)
Theorem C36_get : forall E v fuel ts a args, parse E (10 * length ts) ts = Ok (NCall (lit "Get") (a :: args)) ->
  evaluate E v fuel (NCall (lit "Get") (a :: args)) = Ok (lit "Unknown argument for Get(): " ++ debug E a).
Proof.
  intros E v fuel ts a args H. apply parse_yields in H as (ys & Hy & _). apply yields_plain in Hy.
  destruct a; try reflexivity. exfalso. apply Hy. apply (OddArg _ _ _ (NUnary value child)); [now left|constructor].
Qed.
Print Assumptions C36_get.
Example C36_get_example : eval_calculation whole desk 9 (lit "Get(AccountName)") = Ok (lit "Unknown argument for Get(): node").
Proof. vm_compute. reflexivity. Qed.

(** C38: the four operations on numbers. *)
Theorem C38_numbers : forall E v l r a b x y, gives E v l (Ok a) -> gives E v r (Ok b) -> parse64 E a = Some x -> parse64 E b = Some y ->
  gives E v (NBinary l TPlus r) (Ok (show64 E (add64 E x y))) /\ gives E v (NBinary l TMinus r) (Ok (show64 E (sub64 E x y))) /\
  gives E v (NBinary l TMultiply r) (Ok (show64 E (mul64 E x y))) /\ gives E v (NBinary l TDivide r) (Ok (show64 E (div64 E x y))).
Proof.
  intros E v l r a b x y Hl Hr Hx Hy. destruct (gives_both _ _ _ _ _ _ Hl Hr) as (k & Hk & K). destruct (K k (le_n k)) as [K1 K2].
  split; [|split; [|split]]; (apply (gives_at _ _ k); [|discriminate]; eapply arith_numbers; eauto; reflexivity).
Qed.
Print Assumptions C38_numbers.
Example C38_numbers_ex : gives whole desk (NVariable (lit "x")) (Ok (lit "5")) /\ gives whole desk (NNumber 12%Z) (Ok (lit "12")) /\
  parse64 whole (lit "5") = Some 5%Z /\ parse64 whole (lit "12") = Some 12%Z.
Proof. split; [|split; [|split; reflexivity]]; (apply (gives_at _ _ 5); [vm_compute; reflexivity|discriminate]). Qed.

(** C38: with an operand that stands for a text, the result is undefined; otherwise it is the operation on what the operands stand for. *)
Theorem C38_operands : forall E v l r a b ta sa tb sb op f, gives E v l (Ok a) -> gives E v r (Ok b) ->
  stands_for E v a ta sa -> stands_for E v b tb sb ->
  In (op, f) [(TPlus, add64 E); (TMinus, sub64 E); (TMultiply, mul64 E); (TDivide, div64 E)] ->
  (ta = OText \/ tb = OText -> gives E v (NBinary l op r) (Ok (lit "undefined"))) /\
  (ta = ONumber -> tb = ONumber -> exists x y, parse64 E sa = Some x /\ parse64 E sb = Some y /\ gives E v (NBinary l op r) (Ok (show64 E (f x y)))).
Proof.
  intros E v l r a b ta sa tb sb op f Hl Hr Ha Hb Hop.
  assert (Ho : operation E op = Some f) by (cbn in Hop; repeat destruct Hop as [Hop|Hop]; try (inversion Hop; reflexivity); destruct Hop).
  destruct (gives_both _ _ _ _ _ _ Hl Hr) as (k & Hk & K). destruct (stands_at _ _ _ _ _ Ha) as (ka & Ka). destruct (stands_at _ _ _ _ _ Hb) as (kb & Kb).
  set (m := Nat.max k (Nat.max ka kb)). destruct (K m ltac:(lia)) as [K1 K2].
  pose proof (arith_operands E v m l op f r a b ta sa tb sb Ho K1 K2 (Ka m ltac:(lia)) (Kb m ltac:(lia))) as R.
  split.
  - intros Ht. apply (gives_at _ _ m); [|discriminate]. rewrite R. destruct Ht; subst; [reflexivity|destruct ta; reflexivity].
  - intros -> ->.
    assert (N : forall s r', stands_for E v s ONumber r' -> exists x, parse64 E r' = Some x).
    { clear. intros s r'. intros H. remember ONumber as t. induction H; try discriminate; eauto. }
    destruct (N _ _ Ha) as (x & Hx). destruct (N _ _ Hb) as (y & Hy). exists x, y. split; [exact Hx|]. split; [exact Hy|].
    apply (gives_at _ _ m); [|discriminate]. rewrite R, Hx, Hy. reflexivity.
Qed.
Print Assumptions C38_operands.
Example C38_operands_ex : gives whole desk (NVariable (lit "x")) (Ok (lit "5")) /\ stands_for whole desk (lit "5") ONumber (lit "5") /\
  gives whole desk (NVariable (lit "y")) (Ok (34 :: lit "hi" ++ [34])) /\ stands_for whole desk (34 :: lit "hi" ++ [34]) OText (34 :: lit "hi" ++ [34]).
Proof.
  split; [apply (gives_at _ _ 5); [vm_compute; reflexivity|discriminate]|]. split; [apply (SfNumber whole desk _ 5%Z); reflexivity|].
  split; [apply (gives_at _ _ 5); [vm_compute; reflexivity|discriminate]|]. apply SfText; [reflexivity|]. right. exists (lit "hi"). reflexivity.
Qed.

(** C38: the text of a whole arithmetic expression evaluates to its value, if the numbers met on the way read back as they are written. *)
Theorem C38_calculation : forall E v s ts n x,
  written E ts s -> spells E LCompare ts n -> arith E n x -> calc_gives E v s (Ok (show64 E x)).
Proof.
  intros E v s ts n x Hw Hs Ha. apply (calc_gives_at _ _ 1); [|discriminate]. rewrite (calculation_value E v 1 s ts n Hw Hs).
  apply arith_value; auto.
Qed.
Print Assumptions C38_calculation.

Lemma whole_name s c t : lit s = c :: t -> read_Z (lit s) = None -> word (lit s) -> whitespace c = false -> ~ (48 <= c <= 57) ->
  prints whole (ident s) (lit s) ends_word.
Proof. intros H. unfold ident. rewrite H. intros. now apply PName. Qed.

(** 2 * (3 + 4)-1 *)
Example C38_example : exists ts n, written whole ts (lit "2 * (3 + 4)-1") /\ spells whole LCompare ts n /\ arith whole n 13%Z /\
  calc_gives whole desk (lit "2 * (3 + 4)-1") (Ok (lit "13")).
Proof.
  assert (N2 : forall s x, read_Z (lit s) = Some x -> lit s = show_Z x -> lit s <> [] -> Forall (fun c => ~ In c specials) (lit s) -> starts_solid (lit s) -> prints whole (num s) (lit s) ends_word).
  { intros s x H1 H2 H3 H4 H5. unfold num. rewrite H2 at 1. change show_Z with (show64 whole). now apply (PNumber whole). }
  exists [num "2"; tok TMultiply; tok TOpenParen; num "3"; tok TPlus; num "4"; tok TCloseParen; tok TMinus; num "1"].
  exists (NBinary (NBinary (NNumber 2%Z) TMultiply (NBinary (NNumber 3%Z) TPlus (NNumber 4%Z))) TMinus (NNumber 1%Z)).
  assert (A : written whole [num "2"; tok TMultiply; tok TOpenParen; num "3"; tok TPlus; num "4"; tok TCloseParen; tok TMinus; num "1"] (lit "2 * (3 + 4)-1")).
  { apply (WToken whole _ (lit "2") ends_word _ (lit " * (3 + 4)-1")).
    { apply (N2 "2"%string 2%Z); try reflexivity; [discriminate|repeat constructor; cbn; intuition discriminate]. } { cbn; intuition discriminate. }
    apply WSpace; [reflexivity|]. apply (WToken whole (tok TMultiply) [42] anything _ (lit " (3 + 4)-1")); [apply PPunct; cbn; auto 10|exact I|].
    apply WSpace; [reflexivity|]. apply (WToken whole (tok TOpenParen) [40] anything _ (lit "3 + 4)-1")); [apply PPunct; cbn; auto 10|exact I|].
    apply (WToken whole _ (lit "3") ends_word _ (lit " + 4)-1")).
    { apply (N2 "3"%string 3%Z); try reflexivity; [discriminate|repeat constructor; cbn; intuition discriminate]. } { cbn; intuition discriminate. }
    apply WSpace; [reflexivity|]. apply (WToken whole (tok TPlus) [43] anything _ (lit " 4)-1")); [apply PPunct; cbn; auto 10|exact I|].
    apply WSpace; [reflexivity|]. apply (WToken whole _ (lit "4") ends_word _ (lit ")-1")).
    { apply (N2 "4"%string 4%Z); try reflexivity; [discriminate|repeat constructor; cbn; intuition discriminate]. } { cbn; intuition discriminate. }
    apply (WToken whole (tok TCloseParen) [41] anything _ (lit "-1")); [apply PPunct; cbn; auto 10|exact I|].
    apply (WToken whole (tok TMinus) [45] anything _ (lit "1")); [apply PPunct; cbn; auto 10|exact I|].
    apply (WToken whole _ (lit "1") ends_word _ []); [|exact I|constructor].
    apply (N2 "1"%string 1%Z); try reflexivity; [discriminate|repeat constructor; cbn; intuition discriminate]. }
  split; [exact A|]. split; [|split].
  - apply SpCompare1, SpConcat1.
    apply (SpExpr whole [num "2"; tok TMultiply; tok TOpenParen; num "3"; tok TPlus; num "4"; tok TCloseParen] _ TMinus [num "1"]); auto.
    + apply SpExpr1. apply (SpTerm whole [num "2"] _ TMultiply [tok TOpenParen; num "3"; tok TPlus; num "4"; tok TCloseParen]); auto.
      * apply SpTerm1. now apply whole_number.
      * apply (SpParen whole [num "3"; tok TPlus; num "4"]). apply SpCompare1, SpConcat1.
        apply (SpExpr whole [num "3"] _ TPlus [num "4"]); auto; [apply SpExpr1|]; apply SpTerm1; now apply whole_number.
    + apply SpTerm1. now apply whole_number.
  - apply (ArSub whole _ _ 14%Z 1%Z); [|constructor|reflexivity..]. apply (ArMul whole _ _ 2%Z 7%Z); [constructor| |reflexivity..].
    apply (ArAdd whole _ _ 3%Z 4%Z); [constructor..|reflexivity|reflexivity].
  - apply (calc_gives_at _ _ 5); [|discriminate]. vm_compute. reflexivity.
Qed.

Example C38_undefined_example : exists a, gives whole desk (NString (34 :: lit "a" ++ [34])) (Ok a) /\ stands_for whole desk a OText a /\
  eval_calculation whole desk 9 (34 :: lit "a" ++ 34 :: lit "+ 1") = Ok (lit "undefined").
Proof.
  exists (34 :: lit "a" ++ [34]). split; [apply (gives_at _ _ 1); [reflexivity|discriminate]|]. split; [|vm_compute; reflexivity].
  apply SfText; [reflexivity|]. right. exists (lit "a"). reflexivity.
Qed.

(** C39: comparisons are on texts, in dictionary order of their characters, which is that of their bytes. *)
Theorem C39_textual : forall E v l r a b, gives E v l (Ok a) -> gives E v r (Ok b) ->
  let answers op (P : Prop) := (P -> gives E v (NCompare l op r) (Ok (lit "true"))) /\ (~ P -> gives E v (NCompare l op r) (Ok (lit "false"))) in
  answers TEq (a = b) /\ answers TNeq (a <> b) /\ answers TLt (before_in_order a b) /\ answers TLtq (before_in_order a b \/ a = b) /\
  answers TGt (before_in_order b a) /\ answers TGtq (before_in_order b a \/ a = b).
Proof.
  intros E v l r a b Hl Hr. cbv zeta. destruct (gives_both _ _ _ _ _ _ Hl Hr) as (k & Hk & K). destruct (K k (le_n k)) as [K1 K2].
  assert (G : forall op c (P : Prop), evaluate E v k (NCompare l op r) = Ok (show_bool c) -> (c = true <-> P) ->
    (P -> gives E v (NCompare l op r) (Ok (lit "true"))) /\ (~ P -> gives E v (NCompare l op r) (Ok (lit "false")))).
  { intros op c P Hc Hp. split; intros H.
    - apply Hp in H. subst c. apply (gives_at _ _ k); [exact Hc|discriminate].
    - destruct c; [exfalso; apply H; now apply Hp|]. apply (gives_at _ _ k); [exact Hc|discriminate]. }
  repeat apply conj; intros H;
    match goal with |- gives _ _ (NCompare _ ?op _) _ =>
      destruct (compare_text E v k l op r a b K1 K2 eq_refl) as (c & C1 & C2); cbv beta iota in C2; destruct (G op c _ C1 C2) as [G1 G2]; (now apply G1) || (now apply G2) end.
Qed.
Print Assumptions C39_textual.
Example C39_textual_ex : gives whole desk (NVariable (lit "x")) (Ok (lit "5")) /\ gives whole desk (NNumber 12%Z) (Ok (lit "12")) /\
  calc_gives whole desk (lit "x > 12") (Ok (lit "true")).
Proof. split; [|split]; first [apply (gives_at _ _ 5); [vm_compute; reflexivity|discriminate]|apply (calc_gives_at _ _ 5); [vm_compute; reflexivity|discriminate]]. Qed.
Theorem C39_bytes : forall a b, is_str a -> is_str b -> (before_in_order (utf8 a) (utf8 b) <-> before_in_order a b).
Proof. exact order_utf8. Qed.
Print Assumptions C39_bytes.
Example C39_example : exists a b, gives whole desk (NVariable (lit "x")) (Ok a) /\ gives whole desk (NNumber 12%Z) (Ok b) /\ before_in_order b a.
Proof.
  exists (lit "5"), (lit "12"). split; [apply (gives_at _ _ 5); [vm_compute; reflexivity|discriminate]|].
  split; [apply (gives_at _ _ 5); [vm_compute; reflexivity|discriminate]|].
  exists []. right. exists 49, [50], 53, []. repeat split.
Qed.

(** C39: the numeric expectation is false. *)
Theorem C39_numeric_refuted : exists s x y, parse64 whole (lit "9") = Some x /\ parse64 whole (lit "10") = Some y /\ cmp64 whole x y = Some Lt /\
  s = lit "9 < 10" /\ calc_gives whole desk s (Ok (lit "false")).
Proof.
  exists (lit "9 < 10"), 9%Z, 10%Z. repeat split; try reflexivity; try discriminate.
  apply (calc_gives_at _ _ 5); [|discriminate]. vm_compute. reflexivity.
Qed.
Print Assumptions C39_numeric_refuted.

(** C40: joining texts. *)
Theorem C40_join : forall E v l r a b a' b', gives E v l (Ok a) -> gives E v r (Ok b) -> without_quotes a a' -> without_quotes b b' ->
  gives E v (NConcat l r) (Ok (34 :: a' ++ b' ++ [34])).
Proof.
  intros E v l r a b a' b' Hl Hr Ha Hb. destruct (gives_both _ _ _ _ _ _ Hl Hr) as (k & Hk & K). destruct (K k (le_n k)) as [K1 K2].
  apply (gives_at _ _ k); [|discriminate]. eapply concat_text; eauto.
Qed.
Print Assumptions C40_join.
Example C40_join_ex : gives whole desk (NVariable (lit "y")) (Ok (34 :: lit "hi" ++ [34])) /\ without_quotes (34 :: lit "hi" ++ [34]) (lit "hi").
Proof.
  split; [apply (gives_at _ _ 5); [vm_compute; reflexivity|discriminate]|].
  change (lit "hi") with (unquote (34 :: lit "hi" ++ [34])) at 2. apply unquote_spec.
Qed.

(** The texts themselves, with or without the quotes around them. *)
Corollary C40_plain : forall E v l r s t, ~ In 34 s -> ~ In 34 t -> 
  gives E v l (Ok (34 :: s ++ [34])) \/ gives E v l (Ok s) -> gives E v r (Ok (34 :: t ++ [34])) \/ gives E v r (Ok t) ->
  gives E v (NConcat l r) (Ok (34 :: (s ++ t) ++ [34])).
Proof.
  intros E v l r s t Hs Ht Hl Hr.
  assert (P : forall s, ~ In 34 s -> without_quotes s s) by (intros u Hu; rewrite <- (unquote_same u Hu) at 2; apply unquote_spec).
  assert (Q : forall s, ~ In 34 s -> without_quotes (34 :: s ++ [34]) s).
  { intros u Hu. constructor. assert (H : unquote (u ++ [34]) = u) by (rewrite unquote_app, unquote_same by auto; apply app_nil_r).
    rewrite <- H at 2. apply unquote_spec. }
  rewrite <- app_assoc. destruct Hl as [Hl|Hl], Hr as [Hr|Hr]; eapply C40_join; eauto.
Qed.
Print Assumptions C40_plain.
Theorem C40_assoc : forall E v x y z o, gives E v (NConcat (NConcat x y) z) o <-> gives E v (NConcat x (NConcat y z)) o.
Proof.
  intros E v x y z o. unfold gives. setoid_rewrite concat_assoc. reflexivity.
Qed.
Print Assumptions C40_assoc.
Example C40_example : calc_gives whole desk (lit "y & 1 & " ++ 34 :: lit "b c" ++ [34]) (Ok (34 :: lit "hi1b c" ++ [34])).
Proof. apply (calc_gives_at _ _ 5); [|discriminate]. vm_compute. reflexivity. Qed.

(** C40: that nothing is lost is false: a double quote made with Char is. *)
Theorem C40_quote_lost_refuted : exists s c, calc_gives whole desk (lit "Char(34)") (Ok [34; c; 34]) /\ c = 34 /\
  s = (34 :: lit "a" ++ [34]) ++ lit " & Char(34)" /\ calc_gives whole desk s (Ok (34 :: lit "a" ++ [34])).
Proof.
  eexists. exists 34. split; [|split; [reflexivity|split; [reflexivity|]]]; (apply (calc_gives_at _ _ 5); [|discriminate]); vm_compute; reflexivity.
Qed.
Print Assumptions C40_quote_lost_refuted.

(** C41: a string literal without a letter or digit leaves no token ([written] has it as [WBlank]), so that a comparison with
    the empty text is the other side. *)
Theorem C41_comparison_vanishes : forall E v fuel ts n op s, spells E LCompare ts n -> In op [TEq; TNeq; TGt; TGtq; TLt; TLtq] ->
  written E (ts ++ [tok op]) s -> eval_calculation E v fuel s = evaluate E v fuel n.
Proof.
  intros E v fuel ts n op s Hs Hop Hw. unfold eval_calculation. rewrite (lex_reads _ _ _ Hw). cbn [bind].
  assert (K : parse E (10 * length (ts ++ [tok op])) (ts ++ [tok op]) = Ok n); [|now rewrite K].
  apply (evt_parse _ _ _ (tok op, [])); [eapply nonempty_app; eauto|].
  apply (spells_goal _ _ _ _ Hs [tok op]); [cbn in Hop; intuition (subst; reflexivity)|]. apply comparison_loop_last.
Qed.
Print Assumptions C41_comparison_vanishes.
Example C41_comparison_vanishes_ex : spells whole LCompare [ident "x"] (NVariable (lit "x")) /\ eval_calculation whole desk 9 (lit "x >" ++ [34; 34]) = Ok (lit "5").
Proof.
  split; [|vm_compute; reflexivity]. apply SpCompare1, SpConcat1, SpExpr1, SpTerm1. apply (variable whole "x"%string). vm_compute. intuition discriminate.
Qed.

Theorem C41_name_and_empty : forall E v fuel name ok, prints E (mkTok TIdentifier name) name ok -> ok None -> ok (Some 61) -> alnum E 34 = false ->
  eval_calculation E v fuel (name ++ [61; 61; 34; 34]) = eval_calculation E v fuel name.
Proof.
  intros E v fuel name ok Hp H0 H1 Ha.
  assert (Hs : exists n, spells E LCompare [mkTok TIdentifier name] n).
  { destruct (split_cases name) as [(a & b & _ & H & H' & H'')|[H _]]; eexists; apply SpCompare1, SpConcat1, SpExpr1, SpTerm1;
      [apply SpField; now exists a, b|now apply SpVariable]. }
  destruct Hs as (n & Hs).
  rewrite (C41_comparison_vanishes E v fuel [mkTok TIdentifier name] n TEq); [|exact Hs|cbn; auto|].
  - rewrite <- (app_nil_r name) at 1. symmetry. eapply calculation_value; [|exact Hs]. eapply WToken; eauto. constructor.
  - eapply WToken; [exact Hp|exact H1|]. apply (WToken E _ [61; 61] not_equals); [apply PEq|exists 34; split; [reflexivity|discriminate]|].
    apply (WBlank E [] [] []); [cbn; tauto|repeat constructor; exact Ha|constructor].
Qed.
Print Assumptions C41_name_and_empty.
Example C41_example : prints whole (ident "x") (lit "x") ends_word /\
  eval_calculation whole desk 9 (lit "x==" ++ [34; 34]) = Ok (lit "5").
Proof.
  split; [|vm_compute; reflexivity]. apply (whole_name "x"%string 120 []); try reflexivity; [|lia].
  constructor; [cbn; intuition discriminate|constructor].
Qed.

(** C41: so that testing a name against the empty text gives neither true nor false... *)
Theorem C41_empty_test_refuted : exists name r, eval_calculation whole desk 9 (name ++ [61; 61; 34; 34]) = Ok r /\ r <> lit "true" /\ r <> lit "false".
Proof. exists (lit "x"), (lit "5"). vm_compute. repeat split; discriminate. Qed.
Print Assumptions C41_empty_test_refuted.
(** ... and joining the empty text aborts. *)
Theorem C41_empty_join_refuted : exists s, s = lit "x&" ++ [34; 34] /\ calc_gives whole desk s Panic.
Proof. eexists. split; [reflexivity|]. apply (calc_gives_at _ _ 5); [|discriminate]. vm_compute. reflexivity. Qed.
Print Assumptions C41_empty_join_refuted.

(** C42: a written token list is read back. *)
Theorem C42_read_back : forall E ts s, written E ts s -> lex E s = Ok ts.
Proof. exact lex_reads. Qed.
Print Assumptions C42_read_back.
Example C42_read_back_ex : written whole [tok TOpenParen; tok TPlus] (lit "( +").
Proof.
  apply (WToken whole (tok TOpenParen) [40] anything _ (lit " +")); [apply PPunct; cbn; auto 10|exact I|]. apply WSpace; [reflexivity|].
  apply (WToken whole (tok TPlus) [43] anything _ []); [apply PPunct; cbn; auto 10|exact I|constructor].
Qed.
Theorem C42_ends : forall E s, lex E s <> NoFuel.
Proof. intros E s. apply lex_ends. lia. Qed.
Print Assumptions C42_ends.
Example C42_example : written whole [ident "T::f"; tok TLtq; ident "x"; tok TAmpersand; text "a b"] (lit "T::f<= x &" ++ 34 :: lit "a b" ++ [34]).
Proof.
  apply (WToken whole _ (lit "T::f") (not_alnum whole) _ (lit "<= x &" ++ 34 :: lit "a b" ++ [34])).
  { apply (PField whole (lit "T") 102 []); [repeat constructor; cbn; intuition discriminate|reflexivity|constructor]. } { reflexivity. }
  apply (WToken whole (tok TLtq) [60; 61] not_equals); [apply PLtq|exists 32; split; [reflexivity|discriminate]|].
  apply WSpace; [reflexivity|]. apply (WToken whole _ (lit "x") ends_word _ (lit " &" ++ 34 :: lit "a b" ++ [34])).
  { apply (whole_name "x"%string 120 []); try reflexivity; [|lia]. constructor; [cbn; intuition discriminate|constructor]. } { cbn; intuition discriminate. }
  apply WSpace; [reflexivity|]. apply (WToken whole (tok TAmpersand) [38] anything); [apply PPunct; cbn; auto 10|exact I|].
  apply (WToken whole (text "a b") (34 :: lit "a b" ++ [34]) anything _ []); [|exact I|constructor].
  apply (PString whole (lit "a b")); [cbn; intuition discriminate|]. now left.
Qed.

(** C42: white space other than the space does not separate words. *)
Theorem C42_tab_refuted : exists a b s, s = a ++ 9 :: b /\ whitespace 9 = true /\ lex whole a = Ok [mkTok TIdentifier a] /\
  lex whole b = Ok [mkTok TIdentifier b] /\ lex whole s = Ok [mkTok TIdentifier s].
Proof. exists (lit "a"), (lit "b"). eexists. split; [reflexivity|]. vm_compute. repeat split. Qed.
Print Assumptions C42_tab_refuted.
(** C42: a single equals sign leaves no token, and one at the very end aborts. *)
Theorem C42_equals_refuted : exists s, s = lit "x = 5" /\ lex whole s = Ok [ident "x"; num "5"] /\ lex whole (lit "x =") = Panic.
Proof. eexists. split; [reflexivity|]. vm_compute. repeat split. Qed.
Print Assumptions C42_equals_refuted.

(** C62: what an operand stands for. *)
Theorem C62_lookup : forall E v s t r, (exists fuel, get_operand_val E v fuel s = Ok (t, r)) <-> stands_for E v s t r.
Proof. exact operand_spec. Qed.
Print Assumptions C62_lookup.
Example C62_lookup_ex : get_operand_val whole desk 9 (lit "z") = Ok (ONumber, lit "5").
Proof. vm_compute. reflexivity. Qed.
Theorem C62_single_answer : forall E v s t r t' r', stands_for E v s t r -> stands_for E v s t' r' -> t = t' /\ r = r'.
Proof. exact stands_for_fun. Qed.
Print Assumptions C62_single_answer.
Example C62_single_answer_ex : stands_for whole desk (lit "z") ONumber (lit "5") /\ stands_for whole desk (lit "5") ONumber (lit "5").
Proof. split; apply operand_spec; exists 9%nat; vm_compute; reflexivity. Qed.
(** The lookup never ends exactly if it comes upon a name that leads back to itself. *)
Theorem C62_never_ends : forall E v s, (forall fuel, get_operand_val E v fuel s = NoFuel) <->
  exists u, (u = s \/ leads_far E v s u) /\ leads_far E v u u.
Proof. exact never_ends. Qed.
Print Assumptions C62_never_ends.
Example C62_never_ends_ex : get_operand_val whole desk 50 (lit "loop") = NoFuel /\ get_operand_val whole desk 3 (lit "z") <> NoFuel.
Proof. split; [vm_compute; reflexivity|vm_compute; discriminate]. Qed.
Theorem C62_bound : forall E v s fuel, (S (length (held v)) <= fuel)%nat ->
  eval_calculation E v fuel s = eval_calculation E v (S (length (held v))) s.
Proof. intros E v s fuel. apply calculation_decided. Qed.
Print Assumptions C62_bound.
Example C62_example : stands_for whole desk (lit "z") ONumber (lit "5") /\ leads_far whole desk (lit "loop") (lit "loop").
Proof.
  assert (N : forall s, ~ In 58 (lit s) -> ~ field_name (lit s)) by (intros s; apply not_field).
  assert (Q : forall c s, c <> 34 -> ~ is_quoted (c :: s)) by (intros c s Hc [H|(b & H)]; inversion H; congruence).
  split.
  - apply (SfVariable whole desk _ (lit "x")); [reflexivity|apply Q; discriminate|apply N; cbn; intuition discriminate| |].
    { eexists. repeat split; [cbn; lia]. }
    apply (SfVariable whole desk _ (lit "5")); [reflexivity|apply Q; discriminate|apply N; cbn; intuition discriminate| |].
    { eexists. repeat split; [cbn; lia]. }
    apply (SfNumber whole desk _ 5%Z). reflexivity.
  - apply LfOne. apply LtVariable; [reflexivity|apply Q; discriminate|apply N; cbn; intuition discriminate|].
    eexists. repeat split; [cbn; lia].
Qed.
(** C62: so the expectation that every calculation gets an answer is false. *)
Theorem C62_answer_refuted : exists s, forall fuel, eval_calculation whole desk fuel s = NoFuel.
Proof.
  exists (lit "loop"). intros fuel. unfold eval_calculation.
  replace (lex whole (lit "loop")) with (Ok [ident "loop"]) by (vm_compute; reflexivity). cbn [bind].
  replace (parse whole (10 * length [ident "loop"]) [ident "loop"]) with (Ok (@NVariable (f64 whole) (lit "loop"))) by (vm_compute; reflexivity).
  cbn [bind evaluate]. unfold operand_text, operand.
  rewrite (proj2 (never_ends whole desk (lit "loop"))); [reflexivity|]. exists (lit "loop"). split; [now left|]. apply C62_example.
Qed.
Print Assumptions C62_answer_refuted.

(** C63: Min is a least argument, wherever the order on numbers is total; [num] stands for all numbers but NaN. *)
Theorem C63_min : forall E v (num : f64 E -> Prop) fuel a args s x vs, (0 < fuel)%nat ->
  (forall x y, num x -> num y -> cmp64 E x y <> None) -> (forall x, num x -> cmp64 E x x = Some Eq) ->
  (forall x y, num x -> num y -> cmp64 E x y = Some Gt -> cmp64 E y x = Some Lt) ->
  (forall x y z, num x -> num y -> num z -> cmp64 E x y <> Some Gt -> cmp64 E y z <> Some Gt -> cmp64 E x z <> Some Gt) ->
  evaluate E v fuel a = Ok s -> parse64 E s = Some x -> num x ->
  Forall2 (fun n sx => evaluate E v fuel n = Ok (fst sx) /\ parse64 E (fst sx) = Some (snd sx)) args vs -> Forall (fun q => num (snd q)) vs ->
  exists r z, evaluate E v fuel (NCall (lit "Min") (a :: args)) = Ok r /\ In (r, z) ((s, x) :: vs) /\
    forall q, In q ((s, x) :: vs) -> cmp64 E z (snd q) <> Some Gt.
Proof.
  intros E v num fuel a args s x vs Hf T R A Tr Hs Hx Nx HF Nv. rewrite min_eq, Hs. cbn [bind]. now apply (least_numbers E v num).
Qed.
Print Assumptions C63_min.
Example C63_example : evaluate whole desk 3 (NCall (lit "Min") [NNumber 10%Z; NVariable (lit "z"); NNumber 9%Z]) = Ok (lit "5") /\
  (forall x y, cmp64 whole x y <> None) /\ (forall x, cmp64 whole x x = Some Eq) /\
  (forall x y, cmp64 whole x y = Some Gt -> cmp64 whole y x = Some Lt) /\
  (forall x y z, cmp64 whole x y <> Some Gt -> cmp64 whole y z <> Some Gt -> cmp64 whole x z <> Some Gt).
Proof.
  split; [vm_compute; reflexivity|]. cbn. repeat split.
  - discriminate.
  - intros x. now rewrite Z.compare_refl.
  - intros x y H. inversion H as [K]. rewrite Z.compare_antisym, K. reflexivity.
  - intros x y z H1 H2 H. inversion H as [K]. rewrite Z.compare_gt_iff in K.
    assert (x <= y)%Z by (intros C; apply H1; now rewrite C). assert (y <= z)%Z by (intros C; apply H2; now rewrite C). lia.
Qed.
(** C63: as it is written, with a comma, Min gives its first argument ([C35_second_argument_dropped]). *)
Theorem C63_min_refuted : exists s, s = lit "Min(2, 1)" /\ calc_gives whole desk s (Ok (lit "2")).
Proof. eexists. split; [reflexivity|]. apply (calc_gives_at _ _ 5); [|discriminate]. vm_compute. reflexivity. Qed.
Print Assumptions C63_min_refuted.

(** C64: Char gives the character with that number. *)
Theorem C64_char : forall E v a s c, gives E v a (Ok s) -> numeral s c -> scalar c = true ->
  gives E v (NCall (lit "Char") [a]) (Ok [34; c; 34]).
Proof.
  intros E v a s c [_ (k & H)] Hn Hs. apply (gives_at _ _ k); [|discriminate].
  change (evaluate E v k (NCall (lit "Char") [a])) with
    (bind (evaluate E v k a) (fun s => bind (unwrap (parse_u32 s)) (fun n => bind (unwrap (from_u32 n)) (fun c => Ok [34; c; 34])))).
  rewrite H by lia. cbn [bind]. destruct (numeral_decimal _ _ Hn) as (Hd & c0 & t & Hc & Hr).
  unfold parse_u32, parse_unsigned. rewrite Hc. destruct (N.eqb_spec c0 43); [lia|]. rewrite <- Hc, Hd.
  unfold scalar in Hs. apply orb_true_iff in Hs. rewrite andb_true_iff, !N.ltb_lt, N.leb_le in Hs.
  replace (c <? 4294967296) with true by (symmetry; apply N.ltb_lt; lia). cbn [unwrap bind]. unfold from_u32.
  replace ((c <? 55296) || ((57344 <=? c) && (c <=? 1114111))) with true; [reflexivity|]. symmetry.
  rewrite orb_true_iff, andb_true_iff, N.ltb_lt, !N.leb_le. lia.
Qed.
Print Assumptions C64_char.
Example C64_example : numeral (lit "233") 233 /\ calc_gives whole desk (lit "Char(233)") (Ok [34; 233; 34]).
Proof.
  split; [|apply (calc_gives_at _ _ 5); [|discriminate]; vm_compute; reflexivity].
  apply (NumMore [50; 51] 23 3); [|lia]. apply (NumMore [50] 2 3); [|lia]. apply (NumOne 2). lia.
Qed.
