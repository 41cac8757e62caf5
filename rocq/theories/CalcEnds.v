(** The calculation parser ends within a bound linear in the number of tokens, unless it ends in a parenthesis. *)
From Coq Require Import NArith List Bool Lia Arith.
From Verif Require Import Prelude PreludeFacts CalcModel CalcSpec CalcFacts CalcParse.
Import ListNotations.
Local Open Scope nat_scope.

Section P.
Context (E : fenv).
Notation node := (node (f64 E)).
Notation parse_args := (parse_args E). Notation parse_comparison := (parse_comparison E). Notation comparison_loop := (comparison_loop E).
Notation parse_concatenation := (parse_concatenation E). Notation concatenation_loop := (concatenation_loop E).
Notation parse_expr := (parse_expr E). Notation expr_loop := (expr_loop E). Notation parse_term := (parse_term E).
Notation term_loop := (term_loop E). Notation parse_factor := (parse_factor E). Notation parse_primary := (parse_primary E).

(** ** The parser only moves forward *)
Definition suffix (p q : pos) : Prop := exists pre, rem p = pre ++ rem q.
Lemma suffix_refl p : suffix p p.
Proof. now exists []. Qed.
Lemma suffix_trans p q r : suffix p q -> suffix q r -> suffix p r.
Proof. intros (a & Ha) (b & Hb). exists (a ++ b). now rewrite Ha, Hb, app_assoc. Qed.
Lemma suffix_skip p q : suffix p q -> suffix p (skip q).
Proof.
  intros H. eapply suffix_trans; [exact H|]. destruct q as [c [|t l]]; [apply suffix_refl|]. now exists [c].
Qed.
Lemma suffix_from_skip p q : suffix (skip p) q -> suffix p q.
Proof. intros H. eapply suffix_trans; [|exact H]. apply suffix_skip, suffix_refl. Qed.

Definition all_forward (f : nat) : Prop :=
  (forall p a q, parse_args f p = Ok (a, q) -> suffix p q) /\
  (forall p a q, parse_comparison f p = Ok (a, q) -> suffix p q) /\
  (forall n p a q, comparison_loop f n p = Ok (a, q) -> suffix p q) /\
  (forall p a q, parse_concatenation f p = Ok (a, q) -> suffix p q) /\
  (forall n p a q, concatenation_loop f n p = Ok (a, q) -> suffix p q) /\
  (forall p a q, parse_expr f p = Ok (a, q) -> suffix p q) /\
  (forall n p a q, expr_loop f n p = Ok (a, q) -> suffix p q) /\
  (forall p a q, parse_term f p = Ok (a, q) -> suffix p q) /\
  (forall n p a q, term_loop f n p = Ok (a, q) -> suffix p q) /\
  (forall p a q, parse_factor f p = Ok (a, q) -> suffix p q) /\
  (forall p a q, parse_primary f p = Ok (a, q) -> suffix p q).

Ltac fwd := repeat match goal with
  | K : bind _ _ = Ok _ |- _ => apply bind_ok in K as (? & ? & K)
  | x : (_ * _)%type |- _ => destruct x
  | K : Ok _ = Ok _ |- _ => inversion K; subst; clear K
  | K : Panic = Ok _ |- _ => discriminate K
  | K : (match ?x with _ => _ end) = Ok _ |- _ => destruct x eqn:?
  | K : (if ?x then _ else _) = Ok _ |- _ => destruct x eqn:?
  end.

Lemma next_suffix p t q : next p = (t, q) -> suffix p q.
Proof. intros H. assert (q = skip p) by (unfold skip; now rewrite H). subst. apply suffix_skip, suffix_refl. Qed.

Lemma forward_all : forall f, all_forward f.
Proof.
  induction f as [|f (H1 & H2 & H3 & H4 & H5 & H6 & H7 & H8 & H9 & H10 & H11)]; [unfold all_forward; repeat split; discriminate|].
  split; [|split; [|split; [|split; [|split; [|split; [|split; [|split; [|split; [|split]]]]]]]]].
  - intros p a q K. rewrite args_S in K. apply bind_ok in K as ([arg q1] & K1 & K2). apply H6, suffix_from_skip in K1.
    destruct (tk_type (current q1)); try (inversion K2; now subst). apply bind_ok in K2 as ([args q2] & K2 & K3).
    inversion K3; subst. eapply suffix_trans; eauto.
  - intros p a q K. rewrite comparison_S in K. apply bind_ok in K as ([lhs q1] & K1 & K2). eapply suffix_trans; eauto.
  - intros n p a q K. rewrite comparison_loop_S in K. destruct (next p) as [[t|] q1] eqn:En; apply next_suffix in En.
    + destruct (is_cmp _); [|inversion K; now subst]. apply bind_ok in K as ([rhs q2] & K1 & K2).
      eapply suffix_trans; [exact En|]. eapply suffix_trans; eauto.
    + inversion K; now subst.
  - intros p a q K. rewrite concatenation_S in K. apply bind_ok in K as ([lhs q1] & K1 & K2). eapply suffix_trans; eauto.
  - intros n p a q K. rewrite concatenation_loop_S in K.
    destruct (tk_type (current p)); try (inversion K; subst; apply suffix_refl).
    apply bind_ok in K as ([rhs q2] & K1 & K2). apply H6, suffix_from_skip in K1. eapply suffix_trans; eauto.
  - intros p a q K. rewrite expr_S in K. apply bind_ok in K as ([lhs q1] & K1 & K2). eapply suffix_trans; eauto.
  - intros n p a q K. rewrite expr_loop_S in K. destruct (is_sum _); [|inversion K; subst; apply suffix_refl].
    apply bind_ok in K as ([rhs q2] & K1 & K2). apply H8, suffix_from_skip in K1. eapply suffix_trans; eauto.
  - intros p a q K. rewrite term_S in K. apply bind_ok in K as ([lhs q1] & K1 & K2). eapply suffix_trans; eauto.
  - intros n p a q K. rewrite term_loop_S in K. destruct (is_prod _); [|inversion K; subst; apply suffix_refl].
    apply bind_ok in K as ([rhs q2] & K1 & K2). apply H10, suffix_from_skip in K1. eapply suffix_trans; eauto.
  - intros p a q K. rewrite factor_S in K.
    assert (X : parse_comparison f (skip p) = Ok (a, q) \/ parse_primary f p = Ok (a, q) \/
      exists q1, parse_primary f p = Ok (a, q1) /\ q = skip q1).
    { destruct (tk_type (current p)); auto; apply bind_ok in K as ([e q1] & K1 & K2); inversion K2; subst; eauto. }
    destruct X as [X|[X|(q1 & X & ->)]]; [apply suffix_from_skip|..]; eauto. apply suffix_skip. eauto.
  - intros p a q K. rewrite primary_S in K.
    destruct (tk_type (current p)); try discriminate.
    + apply bind_ok in K as ([e1 q1] & K1 & K2). apply H6 in K1. eapply suffix_trans; [exact K1|].
      destruct (next q1) as [[t|] q2] eqn:En; apply next_suffix in En; [|inversion K2; now subst].
      eapply suffix_trans; [exact En|].
      destruct (tk_type t); try (inversion K2; subst; apply suffix_refl); apply bind_ok in K2 as ([e2 q3] & K2 & K3); inversion K3; subst; eauto.
    + destruct (N.eqb _ 2); [inversion K; subst; apply suffix_refl|].
      destruct (option_map tk_type (peek p)) as [[]|]; try (inversion K; subst; apply suffix_refl).
      apply bind_ok in K as ([args q1] & K1 & K2). inversion K2; subst. eauto.
    + apply bind_ok in K as (x & K1 & K2). inversion K2; subst. apply suffix_refl.
    + inversion K; subst; apply suffix_refl.
Qed.

(** ** Ending *)
Context (p0 : pos).
Definition tidy : Prop := tk_type (last (rem p0) (fst p0)) <> TOpenParen.

(** From [k] units of fuel on the result no longer changes, and there is one unless the input ends in a parenthesis. *)
Definition settled {A} (k : nat) (g : nat -> outcome A) : Prop :=
  (forall f, k <= f -> g f = g k) /\ (tidy -> g k <> NoFuel).

Lemma st_weaken {A} k k' (g : nat -> outcome A) : settled k g -> k <= k' -> settled k' g.
Proof. intros [H H'] Hk. split; [intros f Hf; rewrite (H f), (H k') by lia; reflexivity|]. now rewrite (H k'). Qed.
Lemma st_S {A} k (g : nat -> outcome A) : settled k (fun f => g (S f)) -> settled (S k) g.
Proof. intros [H H']. split; auto. intros f Hf. destruct f as [|f]; [lia|]. apply H. lia. Qed.
Lemma st_bind {A B} k (g1 : nat -> outcome A) (g2 : A -> nat -> outcome B) :
  settled k g1 -> (forall a, g1 k = Ok a -> settled k (g2 a)) -> settled k (fun f => bind (g1 f) (fun a => g2 a f)).
Proof.
  intros [H1 H1'] H2. split.
  - intros f Hf. rewrite (H1 f Hf). destruct (g1 k) as [a| |]; auto. cbn. now apply H2.
  - intros T. specialize (H1' T). destruct (g1 k) as [a| |]; cbn; auto; [|discriminate]. now apply H2.
Qed.
Lemma st_const {A} k (x : outcome A) : x <> NoFuel -> settled k (fun _ => x).
Proof. intros H. now split. Qed.
Lemma st_ext {A} k (g h : nat -> outcome A) : (forall f, g f = h f) -> settled k h -> settled k g.
Proof. intros H [S S']. split; [intros f Hf|intros T]; rewrite !H; auto. Qed.

(** A dangling parenthesis. *)
Lemma hang c : tk_type c = TOpenParen -> forall f,
  parse_comparison f (c, []) = NoFuel /\ parse_concatenation f (c, []) = NoFuel /\ parse_expr f (c, []) = NoFuel /\
  parse_term f (c, []) = NoFuel /\ parse_factor f (c, []) = NoFuel.
Proof.
  intros Hc. induction f as [|f (H1 & H2 & H3 & H4 & H5)]; [repeat split|].
  rewrite comparison_S, H2, concatenation_S, H3, expr_S, H4, term_S, H5, factor_S. cbn [current fst]. rewrite Hc.
  change (skip (c, [])) with (c, @nil token). rewrite H1. repeat split.
Qed.

Definition within (m : nat) (p : pos) : Prop := length (snd p) <= m /\ suffix p0 p.
Lemma within_suffix m p q : within m p -> suffix p q -> within m q.
Proof.
  intros [H1 H2] S. split; [|eapply suffix_trans; eauto]. destruct S as (pre & S).
  apply (f_equal (@length _)) in S. rewrite app_length in S. unfold rem in S. cbn [length] in S. lia.
Qed.
Lemma within_skip m c t l : within (S m) (c, t :: l) -> within m (t, l).
Proof. intros [H1 H2]. split; [cbn in *; lia|]. now apply suffix_skip in H2. Qed.
Lemma within_0 c t l : within 0 (c, t :: l) -> False.
Proof. intros [H _]. cbn in H. lia. Qed.
Lemma within_tidy m c : within m (c, []) -> tk_type c = TOpenParen -> ~ tidy.
Proof.
  intros [_ (pre & S)] Hc T. apply T. rewrite S. unfold rem. cbn. rewrite last_last. exact Hc.
Qed.

Lemma st_hang m c k : within m (c, []) -> tk_type c = TOpenParen -> settled k (fun f => parse_factor f (c, [])).
Proof.
  intros W Hc. split.
  - intros f _. now rewrite (proj2 (proj2 (proj2 (proj2 (hang c Hc f))))), (proj2 (proj2 (proj2 (proj2 (hang c Hc k))))).
  - intros T. now apply (within_tidy m c W Hc) in T.
Qed.

Definition bounds (m : nat) : Prop :=
  (forall p, within m p -> settled (10 * m + 6) (fun f => parse_args f p)) /\
  (forall p, within m p -> settled (10 * m + 7) (fun f => parse_comparison f p)) /\
  (forall n p, within m p -> settled (10 * m + 2) (fun f => comparison_loop f n p)) /\
  (forall p, within m p -> settled (10 * m + 6) (fun f => parse_concatenation f p)) /\
  (forall n p, within m p -> settled (10 * m + 5) (fun f => concatenation_loop f n p)) /\
  (forall p, within m p -> settled (10 * m + 5) (fun f => parse_expr f p)) /\
  (forall n p, within m p -> settled (10 * m + 4) (fun f => expr_loop f n p)) /\
  (forall p, within m p -> settled (10 * m + 4) (fun f => parse_term f p)) /\
  (forall n p, within m p -> settled (10 * m + 3) (fun f => term_loop f n p)) /\
  (forall p, within m p -> settled (10 * m + 2) (fun f => parse_factor f p)).

(** [bounds] at the previous number of tokens, or vacuous at 0. *)
Definition before (m : nat) : Prop := match m with O => True | S m' => bounds m' end.

(** Operand followed by its loop. *)
Lemma st_chain m k (operand : nat -> pos -> outcome (node * pos)) (loop : nat -> node -> pos -> outcome (node * pos))
  (whole : nat -> pos -> outcome (node * pos)) :
  (forall f p, whole (S f) p = bind (operand f p) (fun r => let '(lhs, q) := r in loop f lhs q)) ->
  (forall f p a q, operand f p = Ok (a, q) -> suffix p q) ->
  (forall p, within m p -> settled k (fun f => operand f p)) ->
  (forall n p, within m p -> settled k (fun f => loop f n p)) ->
  forall p, within m p -> settled (S k) (fun f => whole f p).
Proof.
  intros HS Hr H1 H2 p Hp. apply st_S.
  apply (st_ext _ _ (fun f => bind (operand f p) (fun r => let '(lhs, q) := r in loop f lhs q))); [intros f; apply HS|].
  apply st_bind; auto. intros [lhs q] Ha. apply H2. eapply within_suffix; eauto.
Qed.

(** An operator at the last token: the operand fails at once. *)
Lemma st_fac_op k p : starts (tk_type (current p)) = false -> settled (2 + k) (fun f => parse_factor f p).
Proof.
  intros H. eapply st_weaken; [|apply (Nat.le_add_r 2 k)]. apply st_S.
  apply (st_ext _ _ (fun f => parse_primary f p)).
  - intros f. rewrite factor_S. destruct (tk_type (current p)); try discriminate; reflexivity.
  - apply st_S. apply (st_ext _ _ (fun _ => Panic)); [|now apply st_const].
    intros f. rewrite primary_S. destruct (tk_type (current p)); try discriminate; reflexivity.
Qed.
Lemma st_term_op k p : starts (tk_type (current p)) = false -> settled (3 + k) (fun f => parse_term f p).
Proof.
  intros H. change (3 + k) with (S (2 + k)). apply st_S. eapply st_ext; [intros f; apply term_S|]. apply st_bind; [now apply st_fac_op|].
  intros a Ha. exfalso. revert Ha. now apply op_factor.
Qed.
Lemma st_expr_op k p : starts (tk_type (current p)) = false -> settled (4 + k) (fun f => parse_expr f p).
Proof.
  intros H. change (4 + k) with (S (3 + k)). apply st_S. eapply st_ext; [intros f; apply expr_S|]. apply st_bind; [now apply st_term_op|].
  intros a Ha. exfalso. revert Ha. now apply op_term.
Qed.

Lemma bounds_step m : before m -> bounds m.
Proof.
  intros IH.
  assert (R : forall f, all_forward f) by apply forward_all.
  assert (Bargs : forall p, within m p -> snd p <> [] -> settled (10 * m - 3) (fun f => parse_args f p)).
  { intros [c [|t l]] Hp Hn; [cbn in Hn; congruence|]. destruct m as [|m]; [now apply within_0 in Hp|]. apply within_skip in Hp.
    destruct IH as (I1 & _ & _ & _ & _ & I6 & _). replace (10 * S m - 3) with (S (10 * m + 6)) by lia. apply st_S.
    apply (st_ext _ _ _ (fun f => args_S E f (c, t :: l))). change (skip (c, t :: l)) with (t, l). apply st_bind.
    - eapply st_weaken; [now apply (I6 (t, l))|lia].
    - intros [arg q] Ha. destruct (R (10 * m + 6)) as (_ & _ & _ & _ & _ & R6 & _). apply R6 in Ha.
      destruct (tk_type (current q)); try (apply st_const; discriminate).
      apply (st_bind _ _ (fun a f => let '(args, p) := a in Ok (arg :: args, p))).
      + apply I1. eapply within_suffix; eauto.
      + intros [args q'] _. apply st_const; discriminate. }
  assert (Bprim : forall p, within m p -> tk_type (current p) <> TOpenParen -> settled (10 * m + 1) (fun f => parse_primary f p)).
  { intros p Hp Ho. replace (10 * m + 1) with (S (10 * m)) by lia. apply st_S. apply (st_ext _ _ _ (fun f => primary_S E f p)).
    destruct (tk_type (current p)); try (apply st_const; discriminate); [congruence| |].
    - destruct (N.eqb _ 2); [apply st_const; discriminate|]. destruct p as [c [|t l]]; cbn [peek snd hd_error option_map]; [apply st_const; discriminate|].
      destruct (tk_type t); try (apply st_const; discriminate).
      apply (st_bind _ _ (fun a f => let '(args, q) := a in Ok (NCall (tk_value (current (c, t :: l))) args, q))).
      + eapply st_weaken; [apply Bargs; auto; discriminate|lia].
      + intros [args q'] _. apply st_const; discriminate.
    - apply st_const. destruct (parse64 E _); discriminate. }
  assert (Bfac : forall p, within m p -> settled (10 * m + 2) (fun f => parse_factor f p)).
  { intros p Hp. destruct (tk_type (current p)) eqn:Ec.
    1: { destruct p as [c [|t l]]; [eapply st_hang; eauto|].
         destruct m as [|m]; [now apply within_0 in Hp|]. apply within_skip in Hp. replace (10 * S m + 2) with (S (10 * m + 11)) by lia. apply st_S.
         apply (st_ext _ _ (fun f => parse_comparison f (t, l))); [intros f; rewrite factor_S; rewrite Ec; reflexivity|].
         destruct IH as (_ & I2 & _). eapply st_weaken; [now apply (I2 (t, l))|lia]. }
    all: replace (10 * m + 2) with (S (10 * m + 1)) by lia; apply st_S.
    all: eapply st_ext; [intros f; rewrite factor_S, Ec; reflexivity|].
    all: try (apply Bprim; [auto|congruence]).
    all: apply (st_bind _ _ (fun a f => let '(expr, q) := a in Ok (expr, skip q)));
      [apply Bprim; [auto|congruence]|intros [e q] _; apply st_const; discriminate]. }
  assert (Btl : forall n p, within m p -> settled (10 * m + 3) (fun f => term_loop f n p)).
  { intros n p Hp. replace (10 * m + 3) with (S (10 * m + 2)) by lia. apply st_S. eapply st_ext; [intros f; apply term_loop_S|].
    destruct (is_prod (tk_type (current p))) eqn:Ei; [|apply st_const; discriminate]. destruct p as [c [|t l]].
    - change (skip (c, [])) with (c, @nil token).
      assert (starts (tk_type (current (c, @nil token))) = false) by (cbn in *; destruct (tk_type c); try discriminate; reflexivity).
      apply st_bind; [replace (10 * m + 2) with (2 + 10 * m) by lia; now apply st_fac_op|].
      intros a Ha. exfalso. revert Ha. now apply op_factor.
    - change (skip (c, t :: l)) with (t, l). destruct m as [|m]; [now apply within_0 in Hp|]. apply within_skip in Hp.
      destruct IH as (_ & _ & _ & _ & _ & _ & _ & _ & I9 & I10). apply st_bind.
      + eapply st_weaken; [now apply (I10 (t, l))|lia].
      + intros [rhs q] Ha. eapply st_weaken; [apply I9|lia].
        destruct (R (10 * S m + 2)) as (_ & _ & _ & _ & _ & _ & _ & _ & _ & R10 & _). eapply within_suffix; eauto. }
  assert (Bterm : forall p, within m p -> settled (10 * m + 4) (fun f => parse_term f p)).
  { replace (10 * m + 4) with (S (10 * m + 3)) by lia.
    apply (st_chain m _ (fun f p => parse_factor f p) (fun f n p => term_loop f n p)).
    - intros f p. apply term_S.
    - intros f p r. apply (R f).
    - intros p Hp. eapply st_weaken; [now apply Bfac|lia].
    - exact Btl. }
  assert (Bel : forall n p, within m p -> settled (10 * m + 4) (fun f => expr_loop f n p)).
  { intros n p Hp. replace (10 * m + 4) with (S (10 * m + 3)) by lia. apply st_S. eapply st_ext; [intros f; apply expr_loop_S|].
    destruct (is_sum (tk_type (current p))) eqn:Ei; [|apply st_const; discriminate]. destruct p as [c [|t l]].
    - change (skip (c, [])) with (c, @nil token).
      assert (starts (tk_type (current (c, @nil token))) = false) by (cbn in *; destruct (tk_type c); try discriminate; reflexivity).
      apply st_bind; [replace (10 * m + 3) with (3 + 10 * m) by lia; now apply st_term_op|].
      intros a Ha. exfalso. revert Ha. now apply op_term.
    - change (skip (c, t :: l)) with (t, l). destruct m as [|m]; [now apply within_0 in Hp|]. apply within_skip in Hp.
      destruct IH as (_ & _ & _ & _ & _ & _ & I7 & I8 & _). apply st_bind.
      + eapply st_weaken; [now apply (I8 (t, l))|lia].
      + intros [rhs q] Ha. eapply st_weaken; [apply I7|lia].
        destruct (R (10 * S m + 3)) as (_ & _ & _ & _ & _ & _ & _ & R8 & _). eapply within_suffix; eauto. }
  assert (Bexpr : forall p, within m p -> settled (10 * m + 5) (fun f => parse_expr f p)).
  { replace (10 * m + 5) with (S (10 * m + 4)) by lia.
    apply (st_chain m _ (fun f p => parse_term f p) (fun f n p => expr_loop f n p)).
    - intros f p. apply expr_S.
    - intros f p r. apply (R f).
    - exact Bterm.
    - exact Bel. }
  assert (Bcl : forall n p, within m p -> settled (10 * m + 5) (fun f => concatenation_loop f n p)).
  { intros n p Hp. replace (10 * m + 5) with (S (10 * m + 4)) by lia. apply st_S. eapply st_ext; [intros f; apply concatenation_loop_S|].
    destruct (tk_type (current p)) eqn:Ei; try (apply st_const; discriminate). destruct p as [c [|t l]].
    - change (skip (c, [])) with (c, @nil token). apply st_bind.
      + replace (10 * m + 4) with (4 + 10 * m) by lia. apply st_expr_op. now rewrite Ei.
      + intros a Ha. exfalso. revert Ha. apply op_expr. now rewrite Ei.
    - change (skip (c, t :: l)) with (t, l). destruct m as [|m]; [now apply within_0 in Hp|]. apply within_skip in Hp.
      destruct IH as (_ & _ & _ & _ & I5 & I6 & _). apply st_bind.
      + eapply st_weaken; [now apply (I6 (t, l))|lia].
      + intros [rhs q] Ha. eapply st_weaken; [apply I5|lia].
        destruct (R (10 * S m + 4)) as (_ & _ & _ & _ & _ & R6 & _). eapply within_suffix; eauto. }
  assert (Bcon : forall p, within m p -> settled (10 * m + 6) (fun f => parse_concatenation f p)).
  { replace (10 * m + 6) with (S (10 * m + 5)) by lia.
    apply (st_chain m _ (fun f p => parse_expr f p) (fun f n p => concatenation_loop f n p)).
    - intros f p. apply concatenation_S.
    - intros f p r. apply (R f).
    - exact Bexpr.
    - exact Bcl. }
  assert (Bml : forall n p, within m p -> settled (10 * m + 2) (fun f => comparison_loop f n p)).
  { intros n p Hp. replace (10 * m + 2) with (S (10 * m + 1)) by lia. apply st_S. eapply st_ext; [intros f; apply comparison_loop_S|].
    destruct p as [c [|t l]]; cbn [next snd]; [apply st_const; discriminate|].
    destruct (is_cmp (tk_type (current (c, t :: l)))); [|apply st_const; discriminate].
    destruct m as [|m]; [now apply within_0 in Hp|]. apply within_skip in Hp.
    destruct IH as (_ & _ & I3 & I4 & _). apply st_bind.
    - eapply st_weaken; [now apply (I4 (t, l))|lia].
    - intros [rhs q] Ha. eapply st_weaken; [apply I3|lia].
      destruct (R (10 * S m + 1)) as (_ & _ & _ & R4 & _). eapply within_suffix; eauto. }
  assert (Bcmp : forall p, within m p -> settled (10 * m + 7) (fun f => parse_comparison f p)).
  { replace (10 * m + 7) with (S (10 * m + 6)) by lia.
    apply (st_chain m _ (fun f p => parse_concatenation f p) (fun f n p => comparison_loop f n p)).
    - intros f p. apply comparison_S.
    - intros f p r. apply (R f).
    - exact Bcon.
    - intros n p Hp. eapply st_weaken; [now apply Bml|lia]. }
  unfold bounds.
  split; [|split; [|split; [|split; [|split; [|split; [|split; [|split; [|split]]]]]]]]; auto.
  intros p Hp. destruct p as [c [|t l]]; [|eapply st_weaken; [apply Bargs; auto; discriminate|lia]].
  replace (10 * m + 6) with (S (10 * m + 5)) by lia. apply st_S. eapply st_ext; [intros f; apply args_S|].
  change (skip (c, [])) with (c, @nil token). apply st_bind; [now apply Bexpr|].
  intros [arg q] Ha. destruct (R (10 * m + 5)) as (_ & _ & _ & _ & _ & R6 & _). apply R6 in Ha.
  assert (W : within 0 q).
  { apply (within_suffix 0 (c, [])); auto. split; [cbn; lia|apply Hp]. }
  destruct q as [cq [|t l]]; [|now apply within_0 in W].
  cbn [current fst]. destruct (tk_type cq) eqn:Eq; try (apply st_const; discriminate).
  apply (st_bind _ _ (fun a f => let '(args, p) := a in Ok (arg :: args, p))); [|intros [args q'] _; apply st_const; discriminate].
  replace (10 * m + 5) with (S (4 + 10 * m)) by lia. apply st_S. eapply st_ext; [intros f; apply args_S|].
  change (skip (cq, [])) with (cq, @nil token). apply st_bind; [apply st_expr_op; cbn; now rewrite Eq|].
  intros a Ha'. exfalso. revert Ha'. apply op_expr. cbn. now rewrite Eq.
Qed.

Lemma bounds_all m : bounds m.
Proof. induction m; apply bounds_step; cbn; auto. Qed.
End P.

Section Q.
Context (E : fenv).
Definition last_type (ts : list token) : option ttype := match ts with [] => None | t :: _ => Some (tk_type (last ts t)) end.

(** With ten units of fuel per token everything is decided. *)
Theorem parse_decided ts f : 10 * length ts <= f -> parse E f ts = parse E (10 * length ts) ts.
Proof.
  destruct ts as [|t l]; [reflexivity|]. intros Hf. unfold parse. f_equal.
  assert (W : within (t, l) (length l) (t, l)) by (split; [cbn; lia|apply suffix_refl]).
  destruct (proj1 (proj2 (bounds_all E (t, l) (length l))) _ W) as [H _]. cbn [length] in Hf.
  rewrite (H f), (H (10 * length (t :: l))); auto; cbn [length]; lia.
Qed.

Theorem parse_ends ts : last_type ts <> Some TOpenParen -> parse E (10 * length ts) ts <> NoFuel.
Proof.
  destruct ts as [|t l]; [discriminate|]. intros T. unfold parse.
  assert (W : within (t, l) (length l) (t, l)) by (split; [cbn; lia|apply suffix_refl]).
  destruct (proj1 (proj2 (bounds_all E (t, l) (length l))) _ W) as [H H'].
  assert (Ht : tidy (t, l)) by (unfold tidy, rem; cbn [fst snd]; intros Hc; apply T; cbn [last_type]; now rewrite Hc).
  specialize (H' Ht). rewrite (H (10 * length (t :: l))) by (cbn [length]; lia).
  destruct (parse_comparison E (10 * length l + 7) (t, l)) as [[n q]| |]; [discriminate|discriminate|congruence].
Qed.

Lemma parse_mono ts f f' : f <= f' -> parse E f ts <> NoFuel -> parse E f' ts = parse E f ts.
Proof.
  intros H. apply (mono_le (fun f => parse E f ts)); auto. clear. intros f N. destruct ts as [|t l]; auto. unfold parse in *.
  apply bind_mono; auto. intros K. destruct (mono_all E f) as (_ & M & _). now apply M.
Qed.
End Q.
