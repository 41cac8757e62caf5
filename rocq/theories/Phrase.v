(** The parser reads exactly the phrases. *)
From Coq Require Import NArith List Bool Lia Arith.
From Verif Require Import Prelude PreludeFacts CalcModel CalcSpec CalcFacts CalcParse PhraseSpec.
Import ListNotations.
Local Open Scope N_scope.

Scheme phrase_mut := Induction for phrase Sort Prop with arguments_mut := Induction for arguments Sort Prop.
Combined Scheme phrases_ind from phrase_mut, arguments_mut.

Lemma after_skip p : after (rem p) = rem (skip p).
Proof. destruct p as [t [|u r]]; reflexivity. Qed.

Definition goes_b (l : level) (p : pos) : bool :=
  match l with
  | LFactor => false
  | LTerm => is_prod (tk_type (current p))
  | LExpr => is_sum (tk_type (current p))
  | LConcat => match tk_type (current p) with TAmpersand => true | _ => false end
  | LCompare => match snd p with [] => false | _ => is_cmp (tk_type (current p)) end
  end.
Lemma goes_b_spec l p : goes_b l p = true <-> goes_on l (rem p).
Proof.
  destruct p as [[ty v] r]. unfold goes_on, rem. cbn [fst snd]. split.
  - intros H. exists (mkTok ty v), r. split; [reflexivity|]. cbn [tk_type].
    destruct l; cbn in H; try discriminate; (split; [|intros K; try discriminate K]);
      try (destruct r; [discriminate H|]); try (destruct ty; try discriminate H; cbn; tauto); try discriminate.
  - intros (t & r' & H & I & K). injection H as <- <-. cbn [tk_type] in I. destruct l; cbn in I |- *; try tauto.
    + destruct ty; try reflexivity; cbn in I; intuition discriminate.
    + destruct ty; try reflexivity; cbn in I; intuition discriminate.
    + destruct ty; try reflexivity; cbn in I; intuition discriminate.
    + destruct r; [elim K; reflexivity|]. destruct ty; try reflexivity; cbn in I; intuition discriminate.
Qed.
Lemma goes_b_not l p : goes_b l p = false <-> ~ goes_on l (rem p).
Proof. rewrite <- goes_b_spec. destruct (goes_b l p); intuition congruence. Qed.

Section P.
Context (E : fenv).
Notation node := (node (f64 E)).
Notation phrase := (phrase E). Notation arguments := (arguments E). Notation joined := (joined E).

(** ** The parser, level by level *)
Definition parse_at (l : level) : nat -> pos -> outcome (node * pos) :=
  match l with
  | LFactor => parse_factor E | LTerm => parse_term E | LExpr => parse_expr E
  | LConcat => parse_concatenation E | LCompare => parse_comparison E
  end.
Definition loop_at (l : level) : nat -> node -> pos -> outcome (node * pos) :=
  match l with
  | LFactor | LTerm => term_loop E | LExpr => expr_loop E | LConcat => concatenation_loop E | LCompare => comparison_loop E
  end.
Definition stop (l : level) (p : pos) : pos := match l with LCompare => skip p | _ => p end.
Definition stops (l : level) (ts : list token) : list token := match l with LCompare => after ts | _ => ts end.
Lemma stops_stop l p : stops l (rem p) = rem (stop l p).
Proof. destruct l; try reflexivity. apply after_skip. Qed.
Lemma stops_tighter l ts : stops (tighter l) ts = ts.
Proof. now destruct l. Qed.

Lemma parse_at_S l f p : l <> LFactor -> parse_at l (S f) p = bind (parse_at (tighter l) f p) (fun r => let '(lhs, p) := r in loop_at l f lhs p).
Proof. destruct l; intros N; [now elim N|..]; reflexivity. Qed.
Lemma loop_at_S l f lhs p : l <> LFactor -> loop_at l (S f) lhs p =
  if goes_b l p then bind (parse_at (tighter l) f (skip p)) (fun r => let '(rhs, q) := r in loop_at l f (joined l lhs (tk_type (current p)) rhs) q)
  else Ok (lhs, stop l p).
Proof.
  destruct l; intros N; [now elim N|..]; cbn [loop_at goes_b tighter parse_at stop PhraseSpec.joined].
  - apply term_loop_S.
  - apply expr_loop_S.
  - rewrite concatenation_loop_S. destruct (tk_type (current p)); reflexivity.
  - rewrite comparison_loop_S. destruct p as [t [|u r]]; cbn; [reflexivity|]. now destruct (is_cmp (tk_type t)).
Qed.
Lemma parse_at_0 l p : parse_at l O p = NoFuel.
Proof. now destruct l. Qed.
Lemma loop_at_0 l n p : loop_at l O n p = NoFuel.
Proof. now destruct l. Qed.
Lemma parse_at_mono l p : mono (fun f => parse_at l f p).
Proof. intros f. destruct (mono_all E f) as (H1 & H2 & H3 & H4 & H5 & H6 & H7 & H8 & H9 & H10 & H11). destruct l; [exact (H10 p)|exact (H8 p)|exact (H6 p)|exact (H4 p)|exact (H2 p)]. Qed.
Lemma loop_at_mono l n p : mono (fun f => loop_at l f n p).
Proof. intros f. destruct (mono_all E f) as (H1 & H2 & H3 & H4 & H5 & H6 & H7 & H8 & H9 & H10 & H11). destruct l; [exact (H9 n p)|exact (H9 n p)|exact (H7 n p)|exact (H5 n p)|exact (H3 n p)]. Qed.
Lemma args_mono p : mono (fun f => parse_args E f p).
Proof. intros f. destruct (mono_all E f) as (H1 & H2 & H3 & H4 & H5 & H6 & H7 & H8 & H9 & H10 & H11). exact (H1 p). Qed.

(** ** What is read is a phrase *)
Definition reads_at (f : nat) : Prop :=
  (forall l p n q, parse_at l f p = Ok (n, q) -> exists rest, phrase l (rem p) n rest /\ ~ goes_on l rest /\ rem q = stops l rest) /\
  (forall l lhs p n q ts, l <> LFactor -> loop_at l f lhs p = Ok (n, q) -> phrase l ts lhs (rem p) ->
     exists rest, phrase l ts n rest /\ ~ goes_on l rest /\ rem q = stops l rest) /\
  (forall p args q, parse_args E f p = Ok (args, q) -> arguments (rem (skip p)) args (rem q)) /\
  (forall p n q, In (tk_type (current p)) [TNumericLiteral; TIdentifier; TString] -> parse_primary E f p = Ok (n, q) ->
     phrase LFactor (rem p) n (after (rem q))).

Lemma factor_never r : ~ goes_on LFactor r.
Proof. now intros (t & r' & _ & [] & _). Qed.

Lemma reads_all : forall f, reads_at f.
Proof.
  induction f as [|f (IH1 & IH2 & IH3 & IH4)].
  { repeat apply conj; intros; try (rewrite ?parse_at_0, ?loop_at_0 in *); discriminate. }
  repeat apply conj.
  - intros l p n q H. destruct l eqn:L.
    + cbn [parse_at] in H. rewrite factor_S in H.
      assert (D : In (tk_type (current p)) [TNumericLiteral; TIdentifier; TString] \/ tk_type (current p) = TOpenParen \/
        ~ In (tk_type (current p)) [TNumericLiteral; TIdentifier; TString; TOpenParen]).
      { destruct (tk_type (current p)); cbn; intuition discriminate. }
      destruct D as [D|[D|D]].
      * assert (H' : bind (parse_primary E f p) (fun r => let '(expr, q) := r in Ok (expr, skip q)) = Ok (n, q)).
        { cbn in D. destruct (tk_type (current p)); auto; intuition discriminate. }
        destruct (parse_primary E f p) as [[m q']| |] eqn:Pr; try discriminate. cbn in H'. injection H' as -> <-.
        exists (rem (skip q')). cbn [stops]. split; [|split; [apply factor_never|reflexivity]].
        rewrite <- after_skip. now apply IH4.
      * rewrite D in H. apply (IH1 LCompare) in H as (rest & H1 & H2 & H3). exists (after rest).
        split; [|split; [apply factor_never|exact H3]].
        destruct p as [t r]. rewrite <- after_skip in H1. now apply PhParen.
      * exfalso. destruct f as [|f].
        { destruct (tk_type (current p)); discriminate. }
        rewrite primary_S in H. cbn in D. destruct (tk_type (current p)); try discriminate; apply D; tauto.
    + rewrite parse_at_S in H by discriminate. destruct (parse_at _ f p) as [[m q']| |] eqn:Pr; try discriminate. cbn [bind] in H.
      apply IH1 in Pr as (rest & H1 & H2 & H3). rewrite stops_tighter in H3. subst rest. eapply IH2; eauto; try discriminate. apply PhFirst; auto; discriminate.
    + rewrite parse_at_S in H by discriminate. destruct (parse_at _ f p) as [[m q']| |] eqn:Pr; try discriminate. cbn [bind] in H.
      apply IH1 in Pr as (rest & H1 & H2 & H3). rewrite stops_tighter in H3. subst rest. eapply IH2; eauto; try discriminate. apply PhFirst; auto; discriminate.
    + rewrite parse_at_S in H by discriminate. destruct (parse_at _ f p) as [[m q']| |] eqn:Pr; try discriminate. cbn [bind] in H.
      apply IH1 in Pr as (rest & H1 & H2 & H3). rewrite stops_tighter in H3. subst rest. eapply IH2; eauto; try discriminate. apply PhFirst; auto; discriminate.
    + rewrite parse_at_S in H by discriminate. destruct (parse_at _ f p) as [[m q']| |] eqn:Pr; try discriminate. cbn [bind] in H.
      apply IH1 in Pr as (rest & H1 & H2 & H3). rewrite stops_tighter in H3. subst rest. eapply IH2; eauto; try discriminate. apply PhFirst; auto; discriminate.
  - intros l lhs p n q ts N H Hp. rewrite loop_at_S in H by exact N. destruct (goes_b l p) eqn:G.
    + destruct (parse_at _ f (skip p)) as [[m q']| |] eqn:Pr; try discriminate. cbn [bind] in H.
      apply IH1 in Pr as (rest & H1 & H2 & H3). rewrite stops_tighter in H3. subst rest.
      eapply IH2; eauto. apply goes_b_spec in G. rewrite <- after_skip in H1. unfold rem in Hp, G, H1. now apply PhJoin with (1 := Hp).
    + injection H as <- <-. exists (rem p). split; [exact Hp|]. split; [now apply goes_b_not|]. now rewrite stops_stop.
  - intros p args q H. rewrite args_S in H. destruct (parse_expr E f (skip p)) as [[a q']| |] eqn:Pr; try discriminate. cbn [bind] in H.
    apply (IH1 LExpr) in Pr as (rest & H1 & H2 & H3). cbn [stops] in H3. subst rest.
    destruct (tk_type (current q')) eqn:T;
      try (injection H as <- <-; apply ArLast; auto; unfold rem; intros t r [= <- <-]; fold (current q'); congruence).
    destruct (parse_args E f q') as [[as' q'']| |] eqn:Pa; try discriminate. cbn [bind] in H. injection H as <- <-.
    apply IH3 in Pa. rewrite <- after_skip in Pa. eapply ArMore; [exact H1|exact T|exact Pa].
  - intros p n q D H. rewrite primary_S in H. destruct p as [[ty v] r]. cbn [current fst tk_type tk_value] in *.
    destruct ty; try (cbn in D; intuition discriminate).
    + destruct (lenN (split v) =? 2) eqn:F.
      * injection H as <- <-. apply PhField. now apply split_field_b.
      * assert (F' : ~ field_name v) by (rewrite <- split_field_b; congruence).
        unfold peek in H. cbn [snd] in H. destruct r as [|[ty' v'] r].
        { cbn in H. injection H as <- <-. apply PhVariable; auto. discriminate. }
        cbn [hd_error option_map tk_type] in H.
        destruct ty'; try (injection H as <- <-; apply PhVariable; auto; now intros t r' [= <- <-]).
        destruct (parse_args E f _) as [[as' q']| |] eqn:Pa; try discriminate. cbn [bind] in H. injection H as <- <-.
        apply IH3 in Pa. cbn in Pa. now apply PhCall.
    + destruct (parse64 E v) as [x|] eqn:Pv; try discriminate. cbn in H. injection H as <- <-. now apply PhNumber.
    + injection H as <- <-. apply PhString.
Qed.

(** ** Every phrase is read *)
Definition ev {A} (g : nat -> outcome A) (a : A) : Prop := exists f, g f = Ok a.
Lemma ev_both {A B} (g : nat -> outcome A) (h : nat -> outcome B) a b : mono g -> mono h -> ev g a -> ev h b -> exists f, g f = Ok a /\ h f = Ok b.
Proof.
  intros G H (f & Gf) (f' & Hf). exists (Nat.max f f'). split.
  - rewrite (mono_le g G f); [exact Gf|lia|congruence].
  - rewrite (mono_le h H f'); [exact Hf|lia|congruence].
Qed.

Lemma ends l n q : l <> LFactor -> ~ goes_on l (rem q) -> ev (fun f => loop_at l f n q) (n, stop l q).
Proof. intros N G. exists 1%nat. rewrite loop_at_S by exact N. apply goes_b_not in G. now rewrite G. Qed.

Definition found (l : level) (ts : list token) (n : node) (rest : list token) : Prop :=
  forall p, rem p = ts -> exists q, rem q = rest /\
    match l with
    | LFactor => ev (fun f => parse_factor E f p) (n, q)
    | _ => forall r, ev (fun f => loop_at l f n q) r -> ev (fun f => parse_at l f p) r
    end.
Lemma found_whole l ts n rest p : found l ts n rest -> ~ goes_on l rest -> rem p = ts ->
  exists q, rem q = rest /\ ev (fun f => parse_at l f p) (n, stop l q).
Proof.
  intros F G Hp. destruct (F p Hp) as (q & Hq & H). exists q. split; [exact Hq|]. subst rest.
  destruct l; [exact H|apply H, ends; [discriminate|exact G]..].
Qed.
Lemma stop_tighter l q : stop (tighter l) q = q.
Proof. now destruct l. Qed.
Lemma rem_inj p q : rem p = rem q -> p = q.
Proof. destruct p, q. unfold rem. cbn. congruence. Qed.

Lemma found_level l ts n rest : l <> LFactor ->
  (forall p, rem p = ts -> exists q, rem q = rest /\ forall r, ev (fun f => loop_at l f n q) r -> ev (fun f => parse_at l f p) r) -> found l ts n rest.
Proof. intros N H p Hp. destruct (H p Hp) as (q & Hq & K). exists q. split; [exact Hq|]. destruct l; [now elim N|exact K..]. Qed.

Lemma factor_primary p n q : In (tk_type (current p)) [TNumericLiteral; TIdentifier; TString] -> ev (fun f => parse_primary E f p) (n, q) ->
  ev (fun f => parse_factor E f p) (n, skip q).
Proof.
  intros D (f & H). exists (S f). rewrite factor_S. cbn in D. destruct (tk_type (current p)); try (exfalso; intuition discriminate); rewrite H; reflexivity.
Qed.

Lemma found_all :
  (forall l ts n rest, phrase l ts n rest -> found l ts n rest) /\
  (forall ts args rest, arguments ts args rest -> forall p, rem (skip p) = ts -> exists q, rem q = rest /\ ev (fun f => parse_args E f p) (args, q)).
Proof.
  apply phrases_ind.
  - intros v x r Hx p Hp. exists (skip p). rewrite <- Hp, after_skip. split; [reflexivity|]. destruct p as [t r']. injection Hp as -> ->.
    apply factor_primary; [cbn; tauto|]. exists 1%nat. rewrite primary_S. cbn [current fst tk_type tk_value]. rewrite Hx. reflexivity.
  - intros v r p Hp. exists (skip p). rewrite <- Hp, after_skip. split; [reflexivity|]. destruct p as [t r']. injection Hp as -> ->.
    apply factor_primary; [cbn; tauto|]. exists 1%nat. reflexivity.
  - intros v r Hf p Hp. exists (skip p). rewrite <- Hp, after_skip. split; [reflexivity|]. destruct p as [t r']. injection Hp as -> ->.
    apply factor_primary; [cbn; tauto|]. exists 1%nat. rewrite primary_S. cbn [current fst tk_type tk_value].
    apply split_field_b in Hf. now rewrite Hf.
  - intros v r Hf Hn p Hp. exists (skip p). rewrite <- Hp, after_skip. split; [reflexivity|]. destruct p as [t r']. injection Hp as -> ->.
    apply factor_primary; [cbn; tauto|]. exists 1%nat. rewrite primary_S. cbn [current fst tk_type tk_value].
    rewrite split_field_nb by exact Hf. unfold peek. cbn [snd]. destruct r as [|[ty w] r]; [reflexivity|]. specialize (Hn _ _ eq_refl).
    cbn in Hn |- *. destruct ty; try reflexivity. now elim Hn.
  - intros v t r args rest Hf Ht _ IH p Hp. destruct p as [t' r']. injection Hp as -> ->.
    destruct (IH (mkTok TIdentifier v, t :: r) eq_refl) as (q & Hq & f & H). exists (skip q). rewrite <- after_skip, Hq. split; [reflexivity|].
    apply factor_primary; [cbn; tauto|]. exists (S f). rewrite primary_S. cbn [current fst tk_type tk_value].
    rewrite split_field_nb by exact Hf. unfold peek. cbn [snd hd_error option_map]. rewrite Ht, H. reflexivity.
  - intros t r n rest Ht _ IH G p Hp. destruct p as [t' r']. injection Hp as -> ->.
    destruct (found_whole LCompare _ _ _ (skip (t, r)) IH G) as (q & Hq & f & H). { symmetry. apply (after_skip (t, r)). }
    exists (skip q). rewrite <- after_skip, Hq. split; [reflexivity|]. exists (S f). rewrite factor_S. cbn [current fst]. rewrite Ht. exact H.
  - intros l ts n rest N _ IH G. apply found_level; [exact N|]. intros p Hp.
    destruct (found_whole _ _ _ _ p IH G Hp) as (q & Hq & H). exists q. split; [exact Hq|]. intros r K. rewrite stop_tighter in H.
    destruct (ev_both _ _ _ _ (parse_at_mono _ _) (loop_at_mono _ _ _) H K) as (f & H1 & H2). exists (S f).
    rewrite parse_at_S by exact N. rewrite H1. exact H2.
  - intros l ts x t r y rest _ IHx Go _ IHy G.
    assert (N : l <> LFactor) by (intros ->; now apply factor_never in Go).
    apply found_level; [exact N|]. intros p Hp. destruct (IHx p Hp) as (q & Hq & Hx).
    assert (Hx' : forall r0, ev (fun f => loop_at l f x q) r0 -> ev (fun f => parse_at l f p) r0) by (destruct l; [now elim N|exact Hx..]).
    clear Hx. destruct q as [t' r']. injection Hq as -> ->.
    destruct (found_whole _ _ _ _ (skip (t, r)) IHy G) as (q & Hq & H). { symmetry. apply (after_skip (t, r)). }
    exists q. split; [exact Hq|]. intros r0 K. apply Hx'. rewrite stop_tighter in H.
    destruct (ev_both _ _ _ _ (parse_at_mono _ _) (loop_at_mono _ _ _) H K) as (f & H1 & H2). exists (S f).
    rewrite loop_at_S by exact N. change (t :: r) with (rem (t, r)) in Go. apply goes_b_spec in Go. rewrite Go, H1. exact H2.
  - intros ts n rest _ IH G Hc p Hp. destruct (found_whole _ _ _ _ (skip p) IH G Hp) as (q & Hq & f & H). exists q. split; [exact Hq|].
    exists (S f). rewrite args_S. cbn [parse_at stop] in H. rewrite H. cbn [bind]. destruct q as [t r]. specialize (Hc t r (eq_sym Hq)).
    cbn [current fst]. destruct (tk_type t); try reflexivity. now elim Hc.
  - intros ts n t r args rest _ IH Ht _ IHa p Hp.
    assert (G : ~ goes_on LExpr (t :: r)). { intros (t' & r' & [= <- <-] & I & _). rewrite Ht in I. cbn in I. intuition discriminate. }
    destruct (found_whole _ _ _ _ (skip p) IH G Hp) as (q & Hq & H). cbn [parse_at stop] in H. destruct q as [t' r']. injection Hq as -> ->.
    destruct (IHa (t, r)) as (q & Hq & K). { symmetry. apply (after_skip (t, r)). }
    exists q. split; [exact Hq|]. destruct (ev_both _ _ _ _ (parse_at_mono LExpr _) (args_mono _) H K) as (f & H1 & H2). exists (S f).
    cbn [parse_at] in H1. rewrite args_S, H1. cbn [bind]. cbn [current fst]. rewrite Ht, H2. reflexivity.
Qed.

Theorem parse_exact ts n : (exists fuel, parse E fuel ts = Ok n) <-> tree_of E ts n.
Proof.
  destruct ts as [|t r].
  - split; [intros (f & H); discriminate|]. intros (rest & H & _). exfalso.
    assert (K : forall l ts n rest, phrase l ts n rest -> ts <> []).
    { clear. intros l ts n rest H. induction H; congruence. }
    exact (K _ _ _ _ H eq_refl).
  - split.
    + intros (f & H). cbn [parse] in H. destruct (parse_comparison E f (t, r)) as [[m q]| |] eqn:Pc; try discriminate. injection H as ->.
      apply (proj1 (reads_all f) LCompare) in Pc as (rest & H1 & H2 & _). now exists rest.
    + intros (rest & H & G). destruct (found_whole LCompare _ _ _ (t, r) (proj1 found_all _ _ _ _ H) G eq_refl) as (q & _ & f & K).
      exists f. cbn [parse]. cbn [parse_at] in K. rewrite K. reflexivity.
Qed.

(** ** When reading does not end *)
Lemma agree {A} (g : nat -> outcome A) f f' a b : mono g -> g f = a -> g f' = b -> a <> NoFuel -> b <> NoFuel -> a = b.
Proof.
  intros M Ha Hb Na Nb. subst a b. rewrite <- (mono_le g M f (Nat.max f f')) by (lia || assumption).
  rewrite <- (mono_le g M f' (Nat.max f f')) by (lia || assumption). reflexivity.
Qed.

Lemma unread l ts x rest : phrase l ts x rest -> l <> LFactor -> forall p, rem p = ts -> forall q, rem q = rest ->
  forall f o, parse_at l f p = o -> o <> NoFuel -> exists f', (f' < f)%nat /\ loop_at l f' x q = o.
Proof.
  intros H. induction H as [| | | | | |l ts n rest N H _ G|l ts x t r y rest Hx IHx Go Hy _ G]; intros Nl p Hp q Hq f o Po No;
    try (now elim Nl).
  - destruct f as [|f]; [rewrite parse_at_0 in Po; congruence|]. rewrite parse_at_S in Po by exact N.
    destruct (found_whole _ _ _ _ p (proj1 found_all _ _ _ _ H) G Hp) as (q' & Hq' & f0 & K). rewrite stop_tighter in K.
    assert (q' = q) by (apply rem_inj; congruence). subst q'.
    destruct (parse_at (tighter l) f p) as [r| |] eqn:Pr; [| |cbn in Po; congruence].
    + pose proof (agree _ _ _ _ _ (parse_at_mono (tighter l) p) K Pr ltac:(discriminate) ltac:(discriminate)) as A; match type of A with Ok ?a = Ok ?b => assert (A' : a = b) by congruence; clear A; subst b end.
      cbn [bind] in Po. exists f. split; [lia|exact Po].
    + pose proof (agree _ _ _ _ _ (parse_at_mono (tighter l) p) K Pr ltac:(discriminate) ltac:(discriminate)). discriminate.
  - destruct (IHx Nl p Hp (t, r) eq_refl f o Po No) as (f1 & L1 & Lo).
    destruct f1 as [|f1]; [rewrite loop_at_0 in Lo; congruence|]. rewrite loop_at_S in Lo by exact Nl.
    change (t :: r) with (rem (t, r)) in Go. apply goes_b_spec in Go. rewrite Go in Lo.
    destruct (found_whole _ _ _ _ (skip (t, r)) (proj1 found_all _ _ _ _ Hy) G) as (q' & Hq' & f0 & K). { symmetry. apply (after_skip (t, r)). }
    rewrite stop_tighter in K. assert (q' = q) by (apply rem_inj; congruence). subst q'.
    destruct (parse_at (tighter l) f1 (skip (t, r))) as [r0| |] eqn:Pr; [| |cbn in Lo; congruence].
    + pose proof (agree _ _ _ _ _ (parse_at_mono (tighter l) _) K Pr ltac:(discriminate) ltac:(discriminate)) as A; match type of A with Ok ?a = Ok ?b => assert (A' : a = b) by congruence; clear A; subst b end.
      cbn [bind] in Lo. exists f1. split; [lia|exact Lo].
    + pose proof (agree _ _ _ _ _ (parse_at_mono (tighter l) _) K Pr ltac:(discriminate) ltac:(discriminate)). discriminate.
Qed.

Definition endless_at (f : nat) : Prop :=
  (forall l p, dangles E l (rem p) -> parse_at l f p = NoFuel) /\
  (forall p, dangles_in E (rem (skip p)) -> parse_args E f p = NoFuel).

Lemma comma_ends t r : tk_type t = TComma -> ~ goes_on LExpr (t :: r).
Proof. intros Ht (t' & r' & [= <- <-] & I & _). rewrite Ht in I. cbn in I. intuition discriminate. Qed.

Lemma endless_all : forall f, endless_at f.
Proof.
  intros f. induction f as [f IH] using lt_wf_ind. destruct f as [|f]; [split; intros; [apply parse_at_0|reflexivity]|]. split.
  - intros l p D. remember (rem p) as us eqn:Hp. destruct D as [t Ht|t u r Ht D'|v t r Hf Ht D'|l ts N D'|l ts x t u r Hx Go D'].
    + destruct p as [t' r']. unfold rem in Hp. cbn [fst snd] in Hp. injection Hp as <- <-. cbn [parse_at]. rewrite factor_S. cbn [current fst]. rewrite Ht.
      apply (proj1 (IH f ltac:(lia)) LCompare). change (rem (skip (t, []))) with [t].
      repeat (apply DgFirst; [discriminate|]; cbn [tighter]). now apply DgLast.
    + destruct p as [t' r']. unfold rem in Hp. cbn [fst snd] in Hp. injection Hp as <- <-. cbn [parse_at]. rewrite factor_S. cbn [current fst]. rewrite Ht.
      now apply (proj1 (IH f ltac:(lia)) LCompare).
    + destruct p as [t' r']. unfold rem in Hp. cbn [fst snd] in Hp. injection Hp as <- <-. cbn [parse_at]. rewrite factor_S. cbn [current fst tk_type].
      destruct f as [|f]; [reflexivity|]. rewrite primary_S. cbn [current fst tk_type tk_value]. rewrite split_field_nb by exact Hf.
      unfold peek. cbn [snd hd_error option_map]. rewrite Ht. rewrite (proj2 (IH f ltac:(lia))); [reflexivity|exact D'].
    + subst ts. rewrite parse_at_S by exact N. rewrite (proj1 (IH f ltac:(lia))); [reflexivity|exact D'].
    + subst ts. assert (N : l <> LFactor) by (intros ->; now apply factor_never in Go).
      assert (X : forall o, parse_at l (S f) p = o -> o <> NoFuel -> False).
      { intros o Po No. destruct (unread _ _ _ _ Hx N p eq_refl (t, u :: r) eq_refl _ _ Po No) as (f' & Lf & K).
        destruct f' as [|f']; [rewrite loop_at_0 in K; congruence|]. rewrite loop_at_S in K by exact N.
        change (t :: u :: r) with (rem (t, u :: r)) in Go. apply goes_b_spec in Go. rewrite Go in K.
        rewrite (proj1 (IH f' ltac:(lia))) in K; [cbn in K; congruence|exact D']. }
      destruct (parse_at l (S f) p) as [o| |] eqn:Po; [exfalso|exfalso|reflexivity]; eapply X; try reflexivity; discriminate.
  - intros p D. rewrite args_S. remember (rem (skip p)) as us eqn:Hp. destruct D as [ts D'|ts n t u r Hn Ht D'].
    + subst ts. pose proof (proj1 (IH f ltac:(lia)) LExpr _ D') as K. cbn [parse_at] in K. now rewrite K.
    + subst ts.
      destruct (found_whole LExpr _ _ _ (skip p) (proj1 found_all _ _ _ _ Hn) (comma_ends _ _ Ht) eq_refl) as (q' & Hq' & f0 & K).
      destruct (parse_expr E f (skip p)) as [m| |] eqn:Pe; [| |reflexivity].
      * pose proof (agree _ _ _ _ _ (parse_at_mono LExpr (skip p)) K Pe ltac:(discriminate) ltac:(discriminate)) as A; match type of A with Ok ?a = Ok ?b => assert (A' : a = b) by congruence; clear A; subst b end.
        cbn [bind]. destruct q' as [t' r']. injection Hq' as -> ->. cbn [current fst stop]. rewrite Ht.
        rewrite (proj2 (IH f ltac:(lia))); [reflexivity|exact D'].
      * pose proof (agree _ _ _ _ _ (parse_at_mono LExpr (skip p)) K Pe ltac:(discriminate) ltac:(discriminate)). discriminate.
Qed.

(** ** Otherwise it does *)
Lemma after_le ts : (length (after ts) <= length ts)%nat.
Proof. destruct ts as [|t [|u r]]; cbn; lia. Qed.
Lemma phrase_le : (forall l ts n rest, phrase l ts n rest -> (length rest <= length ts)%nat) /\
  (forall ts args rest, arguments ts args rest -> (length rest <= length ts)%nat).
Proof.
  apply phrases_ind; intros;
    repeat match goal with |- context [after ?x] => pose proof (after_le x); generalize dependent (after x); intros
                         | H : context [after ?x] |- _ => pose proof (after_le x); generalize dependent (after x); intros end;
    cbn [length] in *; lia.
Qed.

(** An outcome with enough fuel. *)
Definition out {A} (g : nat -> outcome A) : Prop := exists f, g f <> NoFuel.

Lemma out_op l p : starts (tk_type (current p)) = false -> exists f, parse_at l f p = Panic.
Proof.
  intros H. exists 6%nat. destruct p as [[ty v] r]. cbn [current fst tk_type] in H. destruct l; destruct ty; try discriminate H; reflexivity.
Qed.

Lemma op_starts l p : goes_b l p = true -> starts (tk_type (current p)) = false.
Proof. destruct p as [[ty v] r]. destruct l; cbn; destruct ty; try reflexivity; try discriminate; now destruct r. Qed.

Lemma out_bind {A B} (g : nat -> outcome A) (k : A -> nat -> outcome B) (h : nat -> outcome B) (D : Prop) : mono g -> (forall a, mono (k a)) ->
  (forall f, h (S f) = bind (g f) (fun a => k a f)) -> out g -> (forall a, ev g a -> out (k a) \/ D) -> out h \/ D.
Proof.
  intros Mg Mk Hh (f & Hf) Hk. destruct (g f) as [a| |] eqn:G; [| |now elim Hf].
  - destruct (Hk a (ex_intro _ f G)) as [(f' & K)|K]; [left|now right]. exists (S (Nat.max f f')). rewrite Hh.
    rewrite (mono_le g Mg f) by (lia || congruence). rewrite G. cbn [bind]. rewrite (mono_le _ (Mk a) f') by (lia || exact K). exact K.
  - left. exists (S f). rewrite Hh, G. discriminate.
Qed.

Lemma len_rem p : length (rem p) = S (length (snd p)).
Proof. reflexivity. Qed.

(** At every place with fewer than [k] tokens to come. *)
Definition settled (k : nat) : Prop := forall l p, (length (snd p) < k)%nat -> out (fun f => parse_at l f p) \/ dangles E l (rem p).

Lemma loop_settled k l : settled k -> l <> LFactor -> forall m q, (length (snd q) <= k)%nat -> (length (snd q) <= m)%nat ->
  forall x ts, phrase l ts x (rem q) -> out (fun f => loop_at l f x q) \/ dangles E l ts.
Proof.
  intros HK N. induction m as [m IH] using lt_wf_ind. intros q Hk Hm x ts Hx. destruct (goes_b l q) eqn:G.
  - destruct q as [t [|u r]].
    + left. destruct (out_op (tighter l) (t, []) (op_starts l _ G)) as (f & K). exists (S f). rewrite loop_at_S by exact N. rewrite G.
      change (skip (t, [])) with (t, @nil token). rewrite K. discriminate.
    + pose proof (proj1 (goes_b_spec l _) G) as Go.
      destruct (HK (tighter l) (u, r)) as [O|D]; [cbn in *; lia| |right; eapply DgJoin; eauto].
      apply (out_bind (fun f => parse_at (tighter l) f (u, r)) (fun a f => let '(rhs, q) := a in loop_at l f (joined l x (tk_type t) rhs) q)).
      * apply parse_at_mono.
      * intros [y q']. apply loop_at_mono.
      * intros f. rewrite loop_at_S by exact N. now rewrite G.
      * exact O.
      * intros (y & q') (f & K). apply (proj1 (reads_all f)) in K as (rest & K1 & K2 & K3). rewrite stops_tighter in K3. subst rest.
        pose proof (proj1 phrase_le _ _ _ _ K1) as Le. rewrite !len_rem in Le. cbn [snd length] in *.
        eapply (IH (length (snd q'))); [lia|lia|lia|]. unfold rem in Hx, Go. cbn [fst snd] in Hx, Go. eapply PhJoin; eauto.
  - left. exists 1%nat. rewrite loop_at_S by exact N. rewrite G. discriminate.
Qed.

Lemma args_settled k : settled k -> forall m p, (length (snd p) <= k)%nat -> snd p <> [] -> (length (snd p) <= m)%nat ->
  out (fun f => parse_args E f p) \/ dangles_in E (rem (skip p)).
Proof.
  intros HK. induction m as [m IH] using lt_wf_ind. intros [t0 [|u r]] Hk Hn Hm; [now elim Hn|].
  destruct (HK LExpr (u, r)) as [O|D]; [cbn in *; lia| |right; now apply DgArg].
  apply (out_bind (fun f => parse_expr E f (u, r)) (fun a f => let '(arg, p) := a in match tk_type (current p) with
    | TComma => bind (parse_args E f p) (fun r => let '(args, p) := r in Ok (arg :: args, p)) | _ => Ok ([arg], p) end)).
  - apply (parse_at_mono LExpr).
  - intros [y q'] f Nf. destruct (tk_type (current q')); try reflexivity.
    apply (bind_mono (parse_args E f q')); [apply args_mono|reflexivity|exact Nf].
  - intros f. apply args_S.
  - exact O.
  - intros (y & q') (f & K). apply (proj1 (reads_all f) LExpr) in K as (rest & K1 & K2 & K3). cbn [stops] in K3. subst rest.
    pose proof (proj1 phrase_le _ _ _ _ K1) as Le. rewrite !len_rem in Le. cbn [snd length] in *.
    assert (D : tk_type (current q') = TComma \/ tk_type (current q') <> TComma) by (destruct (tk_type (current q')); (now left) || (right; discriminate)).
    destruct D as [D|D]; [|left; exists 0%nat; destruct (tk_type (current q')); try discriminate; now elim D].
    destruct q' as [t [|u' r']].
    + left. destruct (out_op LExpr (t, [])) as (g & K). { cbn [current fst] in D |- *. now rewrite D. } cbn [parse_at] in K. exists (S g). rewrite D, args_S.
      change (skip (t, [])) with (t, @nil token). rewrite K. discriminate.
    + destruct (IH (length (u' :: r')) ltac:(cbn in *; lia) (t, u' :: r') ltac:(cbn in *; lia) ltac:(discriminate) ltac:(cbn; lia)) as [(g & K)|K].
      * left. exists g. rewrite D. destruct (parse_args E g (t, u' :: r')) as [[]| |]; [discriminate..|now elim K].
      * right. eapply DgNext; [exact K1|exact D|exact K].
Qed.

Lemma settled_all : forall k, settled k.
Proof.
  induction k as [|k IH]; [intros l p H; lia|].
  assert (F : forall p, (length (snd p) < S k)%nat -> out (fun f => parse_factor E f p) \/ dangles E LFactor (rem p)).
  { intros p Hk.
    assert (D : In (tk_type (current p)) [TNumericLiteral; TIdentifier; TString] \/ tk_type (current p) = TOpenParen \/ starts (tk_type (current p)) = false).
    { destruct (tk_type (current p)); cbn; intuition discriminate. }
    destruct D as [D|[D|D]].
    - assert (Pp : out (fun f => parse_primary E f p) \/ dangles E LFactor (rem p)).
      { destruct p as [[ty v] r]. cbn [current fst tk_type] in D. destruct ty; try (cbn in D; exfalso; intuition discriminate).
        - destruct (lenN (split v) =? 2) eqn:Fv.
          { left. exists 1%nat. rewrite primary_S. cbn [current fst tk_type tk_value]. rewrite Fv. discriminate. }
          assert (Nv : ~ field_name v) by (rewrite <- split_field_b; congruence).
          destruct r as [|[ty w] r].
          { left. exists 1%nat. rewrite primary_S. cbn [current fst tk_type tk_value]. rewrite Fv. discriminate. }
          assert (Dt : ty = TOpenParen \/ ty <> TOpenParen) by (destruct ty; (now left) || (right; discriminate)).
          destruct Dt as [->|Dt].
          + destruct (args_settled k IH _ (mkTok TIdentifier v, mkTok TOpenParen w :: r) ltac:(cbn in *; lia) ltac:(discriminate) (le_n _)) as [(f & K)|K].
            * left. exists (S f). rewrite primary_S. cbn [current fst tk_type tk_value]. rewrite Fv. cbn [peek snd hd_error option_map tk_type].
              destruct (parse_args E f _) as [[]| |]; [discriminate..|now elim K].
            * right. now apply DgCall.
          + left. exists 1%nat. rewrite primary_S. cbn [current fst tk_type tk_value]. rewrite Fv. cbn [peek snd hd_error option_map tk_type].
            destruct ty; try discriminate. now elim Dt.
        - left. exists 1%nat. rewrite primary_S. cbn [current fst tk_type tk_value]. destruct (parse64 E v); discriminate.
        - left. exists 1%nat. discriminate. }
      destruct Pp as [(f & K)|K]; [left|now right]. exists (S f). rewrite factor_S. cbn in D.
      destruct (tk_type (current p)); try (exfalso; intuition discriminate); (destruct (parse_primary E f p) as [[]| |]; [discriminate..|now elim K]).
    - destruct p as [t [|u r]]; cbn [current fst] in D.
      + right. now apply DgLast.
      + destruct (IH LCompare (u, r)) as [(f & K)|K]; [cbn in *; lia| |right; now apply DgParen].
        left. exists (S f). rewrite factor_S. cbn [current fst]. rewrite D. exact K.
    - left. destruct (out_op LFactor p D) as (f & K). exists f. cbn [parse_at] in K. rewrite K. discriminate. }
  assert (U : forall l, l <> LFactor -> (forall p, (length (snd p) < S k)%nat -> out (fun f => parse_at (tighter l) f p) \/ dangles E (tighter l) (rem p)) ->
    forall p, (length (snd p) < S k)%nat -> out (fun f => parse_at l f p) \/ dangles E l (rem p)).
  { intros l N H p Hk. destruct (H p Hk) as [O|D]; [|right; now apply DgFirst].
    apply (out_bind (fun f => parse_at (tighter l) f p) (fun a f => let '(lhs, q) := a in loop_at l f lhs q)).
    - apply parse_at_mono.
    - intros [y q']. apply loop_at_mono.
    - intros f. now apply parse_at_S.
    - exact O.
    - intros (y & q') (f & K). apply (proj1 (reads_all f)) in K as (rest & K1 & K2 & K3). rewrite stops_tighter in K3. subst rest.
      pose proof (proj1 phrase_le _ _ _ _ K1) as Le. rewrite !len_rem in Le.
      apply (loop_settled k l IH N (length (snd q'))); [lia|lia|]. now apply PhFirst. }
  assert (T := U LTerm ltac:(discriminate) F). assert (X := U LExpr ltac:(discriminate) T). assert (C := U LConcat ltac:(discriminate) X).
  assert (M := U LCompare ltac:(discriminate) C). intros [| | | |]; assumption.
Qed.

Theorem parse_endless ts : (forall fuel, parse E fuel ts = NoFuel) <-> dangles E LCompare ts.
Proof.
  assert (Z : forall l ts, dangles E l ts -> ts <> []).
  { assert (Y : forall l ts n rest, phrase l ts n rest -> ts <> []). { clear. intros l ts n rest H. induction H; congruence. }
    intros l us H. induction H; try discriminate; auto. now apply Y in H. }
  destruct ts as [|t r].
  - split; [intros H; now specialize (H O)|]. intros H. now apply Z in H.
  - split.
    + intros H. destruct (settled_all (S (length r)) LCompare (t, r)) as [(f & K)|K]; [cbn; lia| |exact K].
      exfalso. apply K. specialize (H f). cbn [parse] in H. cbn [parse_at]. now destruct (parse_comparison E f (t, r)) as [[]| |].
    + intros D f. cbn [parse]. pose proof (proj1 (endless_all f) LCompare (t, r) D) as K. cbn [parse_at] in K. now rewrite K.
Qed.
End P.
