(** C34-C37, C61: the parser of calculations. *)
From Coq Require Import Ascii String NArith ZArith List Bool Lia Arith.
From Verif Require Import Prelude PreludeFacts CalcModel CalcSpec CalcFacts CalcParse CalcEnds CalcRound CalcDemo.
Import ListNotations.
Local Open Scope N_scope.

(** What the parser makes of a token list: ten units of fuel per token are enough ([C37_bound]). *)
Definition parsed (E : fenv) (ts : list token) : outcome (node (f64 E)) := parse E (10 * length ts) ts.

(** C34: the usual precedence and associativity. *)
Theorem C34_precedence : forall E ts n, spells E LCompare ts n -> parsed E ts = Ok n.
Proof. intros E ts n. apply parse_spells. Qed.
Print Assumptions C34_precedence.
Example C34_precedence_ex : spells whole LCompare [num "1"; tok TPlus; num "2"; tok TMultiply; num "3"]
  (NBinary (NNumber 1%Z) TPlus (NBinary (NNumber 2%Z) TMultiply (NNumber 3%Z))).
Proof.
  apply SpCompare1, SpConcat1. apply (SpExpr whole [num "1"] _ TPlus [num "2"; tok TMultiply; num "3"]); auto.
  - apply SpExpr1, SpTerm1, (SpNumber whole). reflexivity.
  - apply (SpTerm whole [num "2"] _ TMultiply [num "3"]); auto; [apply SpTerm1|]; apply (SpNumber whole); reflexivity.
Qed.

(** The grammar gives each token list at most one tree. *)
Theorem C34_unambiguous : forall E ts n n', spells E LCompare ts n -> spells E LCompare ts n' -> n = n'.
Proof. intros E ts n n' H H'. apply parse_spells in H. apply parse_spells in H'. congruence. Qed.
Print Assumptions C34_unambiguous.

Local Notation plus := (tok TPlus). Local Notation star := (tok TMultiply). Local Notation minus := (tok TMinus).
Local Notation open := (tok TOpenParen). Local Notation close := (tok TCloseParen). Local Notation comma := (tok TComma).

Lemma whole_number s x : read_Z (lit s) = Some x -> spells whole LFactor [num s] (NNumber x).
Proof. apply (SpNumber whole). Qed.
Lemma not_field v : ~ In 58 v -> ~ field_name v.
Proof. intros H (a & b & -> & _). apply H. apply in_or_app. right. now left. Qed.
Lemma variable E s : ~ In 58 (lit s) -> spells E LFactor [ident s] (NVariable (lit s)).
Proof. intros H. apply (SpVariable E). now apply not_field. Qed.

(** a - 2 * 3 - (b & c) = 7 *)
Example C34_example : exists n, spells whole LCompare
    [ident "a"; minus; num "2"; star; num "3"; minus; open; ident "b"; tok TAmpersand; ident "c"; close; tok TEq; num "7"] n /\
  n = NCompare (NBinary (NBinary (NVariable (lit "a")) TMinus (NBinary (NNumber 2%Z) TMultiply (NNumber 3%Z))) TMinus
        (NConcat (NVariable (lit "b")) (NVariable (lit "c")))) TEq (NNumber 7%Z).
Proof.
  eexists. split; [|reflexivity].
  assert (a : spells whole LFactor [ident "a"] (NVariable (lit "a"))) by (apply variable; vm_compute; intuition discriminate).
  assert (b : spells whole LFactor [ident "b"] (NVariable (lit "b"))) by (apply variable; vm_compute; intuition discriminate).
  assert (c : spells whole LFactor [ident "c"] (NVariable (lit "c"))) by (apply variable; vm_compute; intuition discriminate).
  apply (SpCompare whole [ident "a"; minus; num "2"; star; num "3"; minus; open; ident "b"; tok TAmpersand; ident "c"; close] _ TEq [num "7"]).
  - apply SpCompare1, SpConcat1.
    apply (SpExpr whole [ident "a"; minus; num "2"; star; num "3"] _ TMinus [open; ident "b"; tok TAmpersand; ident "c"; close]); auto.
    + apply (SpExpr whole [ident "a"] _ TMinus [num "2"; star; num "3"]); auto.
      * now apply SpExpr1, SpTerm1.
      * apply (SpTerm whole [num "2"] _ TMultiply [num "3"]); auto; [apply SpTerm1|]; now apply whole_number.
    + apply SpTerm1. apply (SpParen whole [ident "b"; tok TAmpersand; ident "c"]).
      apply SpCompare1. apply (SpConcat whole [ident "b"] _ [ident "c"]); [apply SpConcat1|]; now apply SpExpr1, SpTerm1.
  - cbn. auto.
  - apply SpConcat1, SpExpr1, SpTerm1. now apply whole_number.
Qed.

(** C34: what follows a complete calculation is ignored, so that two calculations in a row are taken for the first. *)
Theorem C34_rest_ignored : forall E ts n t r, spells E LCompare ts n ->
  In (tk_type t) [TCloseParen; TIdentifier; TNumericLiteral; TString; TSemiColon; TComma; TOpenSquare; TCloseSquare] ->
  parsed E (ts ++ t :: r) = Ok n.
Proof.
  intros E ts n t r H Ht. apply parse_spells_rest; auto; cbn in Ht;
    repeat destruct Ht as [Ht|Ht]; try (rewrite <- Ht; reflexivity); destruct Ht.
Qed.
Print Assumptions C34_rest_ignored.
Example C34_rest_example : parsed whole [num "1"; num "2"] = Ok (NNumber 1%Z).
Proof. apply (C34_rest_ignored whole [num "1"]); [|cbn; auto]. apply SpCompare1, SpConcat1, SpExpr1, SpTerm1. now apply whole_number. Qed.

(** C34: the expectation that a list of tokens outside the grammar is refused is false. *)
Theorem C34_refuses_refuted : exists ts n, parsed whole ts = Ok n /\ ~ exists n', spells whole LCompare ts n'.
Proof.
  exists [num "1"; num "2"], (NNumber 1%Z). split; [vm_compute; reflexivity|].
  intros (n & H).
  assert (K : forall l ts n, spells whole l ts n -> ts = [num "1"; num "2"] -> False); [|now apply (K _ _ _ H)].
  clear. induction 1; intros X; try discriminate; auto.
  all: destruct (spells_head _ _ _ _ H) as (? & ? & -> & _); inversion X as [[X1 X2]];
    match type of X2 with ?u ++ _ :: _ = [_] => destruct u as [|? [|? ?]]; inversion X2 end.
Qed.
Print Assumptions C34_refuses_refuted.

(** C35: a call takes in the sums and products that follow it. *)
Theorem C35_call_swallows : forall E f ts e, ~ field_name f -> spells E LExpr (open :: ts) e ->
  parsed E (mkTok TIdentifier f :: open :: ts) = Ok (NCall f [e]).
Proof. intros E f ts e Hf Hs. now apply call_swallows. Qed.
Print Assumptions C35_call_swallows.
Example C35_call_swallows_ex : ~ field_name (lit "Abs") /\ spells whole LExpr [open; num "1"; close] (NNumber 1%Z).
Proof.
  split; [apply not_field; vm_compute; intuition discriminate|]. apply SpExpr1, SpTerm1, (SpParen whole [num "1"]).
  apply SpCompare1, SpConcat1, SpExpr1, SpTerm1. now apply whole_number.
Qed.

Theorem C35_sum_in_argument : forall E f a x op b y, ~ field_name f -> spells E LCompare a x -> spells E LTerm b y ->
  In op [TPlus; TMinus] ->
  parsed E (mkTok TIdentifier f :: open :: a ++ close :: tok op :: b) = Ok (NCall f [NBinary x op y]).
Proof.
  intros E f a x op b y Hf Ha Hb Hop. apply C35_call_swallows; auto.
  replace (open :: a ++ close :: tok op :: b) with ((open :: a ++ [close]) ++ tok op :: b) by (cbn; now rewrite <- app_assoc).
  apply SpExpr; auto; [|cbn in Hop; intuition]. now apply SpExpr1, SpTerm1, SpParen.
Qed.
Print Assumptions C35_sum_in_argument.
Example C35_sum_in_argument_ex : ~ field_name (lit "Abs") /\ spells whole LCompare [num "1"] (NNumber 1%Z) /\ spells whole LTerm [num "2"] (NNumber 2%Z) /\
  parsed whole [ident "Abs"; open; num "1"; close; minus; num "2"] = Ok (NCall (lit "Abs") [NBinary (NNumber 1%Z) TMinus (NNumber 2%Z)]).
Proof.
  split; [apply not_field; vm_compute; intuition discriminate|]. split; [apply SpCompare1, SpConcat1, SpExpr1, SpTerm1; now apply whole_number|].
  split; [apply SpTerm1; now apply whole_number|vm_compute; reflexivity].
Qed.

Theorem C35_product_in_argument : forall E f a x op b y, ~ field_name f -> spells E LCompare a x -> spells E LFactor b y ->
  In op [TMultiply; TDivide] ->
  parsed E (mkTok TIdentifier f :: open :: a ++ close :: tok op :: b) = Ok (NCall f [NBinary x op y]).
Proof.
  intros E f a x op b y Hf Ha Hb Hop. apply C35_call_swallows; auto.
  replace (open :: a ++ close :: tok op :: b) with ((open :: a ++ [close]) ++ tok op :: b) by (cbn; now rewrite <- app_assoc).
  apply SpExpr1, SpTerm; auto; [|cbn in Hop; intuition]. now apply SpTerm1, SpParen.
Qed.
Print Assumptions C35_product_in_argument.
Example C35_product_in_argument_ex : ~ field_name (lit "Abs") /\ spells whole LCompare [num "1"] (NNumber 1%Z) /\ spells whole LFactor [num "2"] (NNumber 2%Z) /\
  parsed whole [ident "Abs"; open; num "1"; close; star; num "2"] = Ok (NCall (lit "Abs") [NBinary (NNumber 1%Z) TMultiply (NNumber 2%Z)]).
Proof.
  split; [apply not_field; vm_compute; intuition discriminate|]. split; [apply SpCompare1, SpConcat1, SpExpr1, SpTerm1; now apply whole_number|].
  split; [now apply whole_number|vm_compute; reflexivity].
Qed.

(** C35: a comparison with a call or a text joined to it is dropped. *)
Theorem C35_comparison_dropped : forall E f a x op b r, ~ field_name f -> spells E LCompare a x ->
  In op [TAmpersand; TEq; TNeq; TGt; TGtq; TLt; TLtq] ->
  In (tk_type b) [TOpenParen; TIdentifier; TNumericLiteral; TString] ->
  parsed E (mkTok TIdentifier f :: open :: a ++ close :: tok op :: b :: r) = Ok (NCall f [x]).
Proof.
  intros E f a x op b r Hf Ha Hop Hb.
  replace (open :: a ++ close :: tok op :: b :: r) with ((open :: a ++ [close]) ++ tok op :: b :: r) by (cbn; now rewrite <- app_assoc).
  apply call_drops; auto.
  - now apply SpExpr1, SpTerm1, SpParen.
  - cbn in *. intuition (subst; auto).
  - cbn in Hb. repeat destruct Hb as [Hb|Hb]; try (rewrite <- Hb; reflexivity). destruct Hb.
Qed.
Print Assumptions C35_comparison_dropped.
Example C35_comparison_dropped_ex : ~ field_name (lit "Abs") /\ spells whole LCompare [num "1"] (NNumber 1%Z) /\
  parsed whole [ident "Abs"; open; num "1"; close; tok TNeq; ident "x"] = Ok (NCall (lit "Abs") [NNumber 1%Z]).
Proof.
  split; [apply not_field; vm_compute; intuition discriminate|]. split; [apply SpCompare1, SpConcat1, SpExpr1, SpTerm1; now apply whole_number|vm_compute; reflexivity].
Qed.

(** C35: a second argument made of one token is dropped. *)
Theorem C35_second_argument_dropped : forall E f a x b, ~ field_name f -> spells E LCompare a x ->
  In (tk_type b) [TIdentifier; TNumericLiteral; TString] ->
  parsed E (mkTok TIdentifier f :: open :: a ++ [comma; b; close]) = Ok (NCall f [x]).
Proof.
  intros E f a x b Hf Ha Hb. apply call_second_lost; auto; cbn in Hb;
    repeat destruct Hb as [Hb|Hb]; try (rewrite <- Hb; reflexivity); try (rewrite <- Hb; discriminate); destruct Hb.
Qed.
Print Assumptions C35_second_argument_dropped.

Definition at_number (s : string) (x : Z) (H : read_Z (lit s) = Some x) : spells whole LCompare [num s] (NNumber x) :=
  SpCompare1 _ _ _ (SpConcat1 _ _ _ (SpExpr1 _ _ _ (SpTerm1 _ _ _ (whole_number s x H)))).
Example C35_example :
  parsed whole [ident "Abs"; open; num "1"; close; plus; num "2"] = Ok (NCall (lit "Abs") [NBinary (NNumber 1%Z) TPlus (NNumber 2%Z)]) /\
  parsed whole [ident "Abs"; open; num "1"; close; tok TEq; num "2"] = Ok (NCall (lit "Abs") [NNumber 1%Z]) /\
  parsed whole [ident "Min"; open; num "2"; comma; num "1"; close] = Ok (NCall (lit "Min") [NNumber 2%Z]).
Proof.
  assert (A : ~ field_name (lit "Abs")) by (apply not_field; vm_compute; intuition discriminate).
  assert (M : ~ field_name (lit "Min")) by (apply not_field; vm_compute; intuition discriminate).
  split; [|split].
  - apply (C35_sum_in_argument whole (lit "Abs") [num "1"] _ TPlus [num "2"]); auto; [now apply at_number| |cbn; auto].
    apply SpTerm1. now apply whole_number.
  - apply (C35_comparison_dropped whole (lit "Abs") [num "1"] _ TEq (num "2") []); auto; [now apply at_number|cbn; auto|cbn; auto].
  - apply (C35_second_argument_dropped whole (lit "Min") [num "2"] _ (num "1")); auto; [now apply at_number|cbn; auto].
Qed.

(** C35: so the usual reading of a call as an operand is false, even for the sum of a call and a number... *)
Theorem C35_call_operand_refuted : exists f a x b y, ~ field_name f /\ spells whole LCompare a x /\ spells whole LTerm b y /\
  parsed whole (mkTok TIdentifier f :: open :: a ++ close :: plus :: b) <> Ok (NBinary (NCall f [x]) TPlus y).
Proof.
  exists (lit "Abs"), [num "1"], (NNumber 1%Z), [num "2"], (NNumber 2%Z).
  split; [apply not_field; vm_compute; intuition discriminate|]. split; [now apply at_number|].
  split; [apply SpTerm1; now apply whole_number|]. vm_compute. discriminate.
Qed.
Print Assumptions C35_call_operand_refuted.

(** ... and the rest of a second argument ends up outside the call. *)
Theorem C35_argument_escapes_refuted : exists f a b c,
  parsed whole [ident f; open; num a; comma; num b; plus; num c; close] = Ok (NBinary (NCall (lit f) [NNumber 1%Z]) TPlus (NNumber 3%Z)) /\
  read_Z (lit a) = Some 1%Z /\ read_Z (lit c) = Some 3%Z.
Proof. exists "Min"%string, "1"%string, "2"%string, "3"%string. vm_compute. repeat split. Qed.
Print Assumptions C35_argument_escapes_refuted.

(** C36: no unary or grouping nodes. *)
Theorem C36_no_odd_nodes : forall E fuel ts n, parse E fuel ts = Ok n -> ~ odd_node E n.
Proof. intros E fuel ts n H. apply parse_yields in H as (ys & Hy & _). now apply yields_plain in Hy. Qed.
Print Assumptions C36_no_odd_nodes.
Example C36_example : exists n, parsed whole [ident "Get"; open; ident "AccountName"; close] = Ok n /\
  n = NCall (lit "Get") [NVariable (lit "AccountName")].
Proof. vm_compute. eauto. Qed.

(** C61: everything in the tree was written, in that order. *)
Theorem C61_nothing_invented : forall E fuel ts n, parse E fuel ts = Ok n -> exists ys, yields E n ys /\ subseq ys ts.
Proof. exact parse_yields. Qed.
Print Assumptions C61_nothing_invented.
Example C61_example : exists n, parsed whole [num "1"; plus; open; num "2"; star; ident "x"; close; num "9"] = Ok n /\
  yields whole n [num "1"; plus; num "2"; star; ident "x"].
Proof.
  eexists. split; [vm_compute; reflexivity|].
  apply (YBinary whole _ plus _ [num "1"] [num "2"; star; ident "x"]); [now apply (YNumber whole)|cbn; auto|].
  apply (YBinary whole _ star _ [num "2"] [ident "x"]); [now apply (YNumber whole)|cbn; auto|]. apply (YVariable whole).
Qed.

(** C37: the number of steps is linear in the number of tokens: more fuel than ten units per token changes nothing... *)
Theorem C37_bound : forall E ts fuel, (10 * length ts <= fuel)%nat -> parse E fuel ts = parse E (10 * length ts) ts.
Proof. exact parse_decided. Qed.
Print Assumptions C37_bound.
Example C37_bound_ex : parse whole 1000 [num "1"; plus; num "2"] = parse whole 30 [num "1"; plus; num "2"] /\
  parse whole 30 [num "1"; plus; num "2"] = Ok (NBinary (NNumber 1%Z) TPlus (NNumber 2%Z)).
Proof. split; [apply (C37_bound whole [num "1"; plus; num "2"]); cbn; lia|vm_compute; reflexivity]. Qed.

(** ... and there is an answer unless the last token is an opening parenthesis. *)
Theorem C37_ends : forall E ts, (forall us v, ts <> us ++ [mkTok TOpenParen v]) ->
  exists r, (forall fuel, (10 * length ts <= fuel)%nat -> parse E fuel ts = r) /\ r <> NoFuel.
Proof.
  intros E ts H. exists (parsed E ts). split; [apply parse_decided|]. apply parse_ends.
  destruct ts as [|t l]; [discriminate|]. intros K. destruct (exists_last (l := t :: l)) as (u & x & Hx); [discriminate|].
  cbn [last_type] in K. rewrite Hx, last_last in K. injection K as K. destruct x as [ty v]. cbn in K. subst ty. now apply (H u v).
Qed.
Print Assumptions C37_ends.
Example C37_example : exists n, parsed whole [open; open; num "1"] = Ok n.
Proof. vm_compute. eauto. Qed.

(** C37: after an opening parenthesis at the end the parser never stops. *)
Theorem C37_dangling : forall E n fuel, parse E fuel (repeat open (S n)) = NoFuel.
Proof.
  intros E n fuel. cbn [repeat]. unfold parse.
  assert (H : forall n f, parse_comparison E f (open, repeat open n) = NoFuel /\ parse_concatenation E f (open, repeat open n) = NoFuel /\
    parse_expr E f (open, repeat open n) = NoFuel /\ parse_term E f (open, repeat open n) = NoFuel /\ parse_factor E f (open, repeat open n) = NoFuel).
  { clear. induction n as [|n IH]; [now apply hang|].
    induction f as [|f (H1 & H2 & H3 & H4 & H5)]; [repeat split|].
    rewrite comparison_S, H2, concatenation_S, H3, expr_S, H4, term_S, H5, factor_S. cbn [current fst tk_type tok repeat].
    change (skip (open, open :: repeat open n)) with (open, repeat open n). destruct (IH f) as (-> & _). repeat split. }
  now rewrite (proj1 (H n fuel)).
Qed.
Print Assumptions C37_dangling.
Example C37_dangling_ex : parse whole 100 [open; open; open] = NoFuel /\ exists n, parse whole 100 [open; open; num "1"] = Ok n.
Proof. split; [exact (C37_dangling whole 2 100)|vm_compute; eauto]. Qed.

(** C37: so the expectation that parsing always ends is false. *)
Theorem C37_always_ends_refuted : exists ts, forall fuel, parse whole fuel ts = NoFuel.
Proof. exists [open]. intros fuel. apply (C37_dangling whole 0). Qed.
Print Assumptions C37_always_ends_refuted.
