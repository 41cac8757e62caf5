(** C78: the value of every calculation. *)
From Coq Require Import Ascii String NArith ZArith List Bool Lia Arith.
From Verif Require Import Prelude PreludeFacts StrOrder StrOrderFacts Utf8 CalcModel CalcSpec CalcFacts CalcParse CalcEnds CalcRound CalcDemo
  CalcProps LexSpec LexProofs DbModel EvalModel EvalSpec EvalProofs EvalCycle EvalFuel EvalProps TreeSpec Tree.
Import ListNotations.
Local Open Scope N_scope.

(** C78: a tree evaluates to a text exactly if that is its value. *)
Theorem C78_value : forall E v n r, ~ odd_node E n -> (gives E v n (Ok r) <-> value_is E v n r).
Proof.
  intros E v n r Ho. split.
  - intros [_ (k & K)]. apply (value_sound E v k); auto.
  - intros H. split; [discriminate|]. now apply value_complete.
Qed.
Print Assumptions C78_value.
Example C78_value_ex : let n := NCall (lit "Min") [NNumber 12%Z; NBinary (NVariable (lit "x")) TPlus (NNumber 3%Z); NNumber 8%Z] in
  ~ odd_node whole n /\ value_is whole desk n (lit "8").
Proof.
  assert (O : ~ odd_node whole (NCall (lit "Min") [NNumber 12%Z; NBinary (NVariable (lit "x")) TPlus (NNumber 3%Z); NNumber 8%Z])).
  { intros K. inversion K as [| | | | | | | |f args n Hn K']; subst. cbn in Hn. destruct Hn as [<-|[<-|[<-|[]]]]; inversion K' as [| |? ? ? K2|? ? ? K2| | | | |]; subst; inversion K2. }
  split; [exact O|]. apply (C78_value whole desk _ _ O). apply (gives_at _ _ 5); [vm_compute; reflexivity|discriminate].
Qed.

(** C78: so the text of a calculation evaluates to the value of the tree it is parsed to... *)
Theorem C78_calculation : forall E v s r,
  calc_gives E v s (Ok r) <-> exists ts n, lex E s = Ok ts /\ parsed E ts = Ok n /\ value_is E v n r.
Proof.
  intros E v s r. split.
  - intros [_ (k & K)]. specialize (K k (le_n k)). unfold eval_calculation in K.
    apply bind_ok in K as (ts & Hts & K). apply bind_ok in K as (n & Hn & K). exists ts, n. split; [exact Hts|]. split; [exact Hn|].
    apply (value_sound E v k); [|exact K]. apply parse_yields in Hn as (ys & Hy & _). now apply yields_plain in Hy.
  - intros (ts & n & Hts & Hn & H). destruct (value_complete E v n r H) as (k & K). split; [discriminate|]. exists k. intros f Hf.
    unfold eval_calculation. rewrite Hts. cbn [bind]. unfold parsed in Hn. rewrite Hn. cbn [bind]. now apply K.
Qed.
Print Assumptions C78_calculation.
Example C78_calculation_ex : calc_gives whole desk (lit "Abs(x) + 1") (Ok (lit "6")) /\ calc_gives whole desk (lit "Round(x)") (Ok (lit "Unimplemented function: Round")).
Proof. split; (apply (calc_gives_at _ _ 9); [vm_compute; reflexivity|discriminate]). Qed.

(** C78: ... which for a text written by the rules is the tree with the usual precedence. *)
Theorem C78_written : forall E v s ts n r, written E ts s -> spells E LCompare ts n -> value_is E v n r -> calc_gives E v s (Ok r).
Proof.
  intros E v s ts n r Hw Hs H. destruct (value_complete E v n r H) as (k & K). apply (calc_gives_at _ _ k); [|discriminate].
  rewrite (calculation_value E v k s ts n Hw Hs). now apply K.
Qed.
Print Assumptions C78_written.
Example C78_written_ex : exists ts n, written whole ts (lit "2 * (3 + 4)-1") /\ spells whole LCompare ts n /\ value_is whole desk n (lit "13").
Proof.
  destruct C38_example as (ts & n & Hw & Hs & _ & [_ (k & K)]). exists ts, n. split; [exact Hw|]. split; [exact Hs|].
  pose proof (C34_precedence _ _ _ Hs) as P. apply parse_yields in P as (ys & Hy & _). apply yields_plain in Hy.
  specialize (K k (le_n k)). rewrite (calculation_value whole desk k _ ts n Hw Hs) in K. now apply (value_sound whole desk k).
Qed.

(** C78: there is only one value. *)
Theorem C78_one_value : forall E v n r r', value_is E v n r -> value_is E v n r' -> r = r'.
Proof.
  intros E v n r r' H H'. destruct (value_complete E v n r H) as (k & K). destruct (value_complete E v n r' H') as (m & M).
  specialize (K (Nat.max k m) ltac:(lia)). specialize (M (Nat.max k m) ltac:(lia)). congruence.
Qed.
Print Assumptions C78_one_value.
Example C78_one_value_ex : value_is whole desk (NCompare (NNumber 9%Z) TLt (NNumber 10%Z)) (lit "false").
Proof. apply (value_sound whole desk 3); [intros K; inversion K as [| | | | | |? ? ? K'|? ? ? K'|]; inversion K'|vm_compute; reflexivity]. Qed.

(** C78: Asin is no arc sine.  With one argument it aborts, with two it gives the smaller text. *)
Theorem C78_asin : forall E v a r, ~ odd_node E a -> ~ gives E v (NCall (lit "Asin") [a]) (Ok r).
Proof.
  intros E v a r _ [_ (k & K)]. specialize (K k (le_n k)).
  change (bind (evaluate E v k a) (fun _ => @Panic (list N)) = Ok r) in K. apply bind_ok in K as (? & _ & K). discriminate.
Qed.
Print Assumptions C78_asin.
Example C78_asin_ex : ~ odd_node whole (NNumber 0%Z) /\ evaluate whole desk 5 (NCall (lit "Asin") [NNumber 0%Z]) = Panic.
Proof. split; [intros K; inversion K|vm_compute; reflexivity]. Qed.
Theorem C78_asin_refuted : exists s t, s = lit "Asin(0)" /\ t = lit "Asin(10), 9" /\ calc_gives whole desk s Panic /\ calc_gives whole desk t (Ok (lit "10")).
Proof.
  do 2 eexists. split; [reflexivity|]. split; [reflexivity|]. split; (apply (calc_gives_at _ _ 9); [vm_compute; reflexivity|discriminate]).
Qed.
Print Assumptions C78_asin_refuted.
