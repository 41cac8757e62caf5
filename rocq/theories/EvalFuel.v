(** The result of a calculation does not depend on the fuel. *)
From Coq Require Import Ascii String NArith ZArith List Bool Lia Arith.
From Verif Require Import Prelude PreludeFacts StrOrder CalcModel CalcFacts DbModel EvalModel EvalSpec EvalProofs EvalCycle.
Import ListNotations.
Local Open Scope N_scope.

Section P.
Context (E : fenv) (v : view).
Notation evaluate := (evaluate E v).

(** [y] is what [x] says, unless [x] ran out of fuel. *)
Definition agrees {A} (x y : outcome A) : Prop := x <> NoFuel -> y = x.
Lemma ag_refl {A} (x : outcome A) : agrees x x.
Proof. now intros _. Qed.
Lemma ag_bind {A B} (x y : outcome A) (g h : A -> outcome B) :
  agrees x y -> (forall a, agrees (g a) (h a)) -> agrees (bind x g) (bind y h).
Proof. intros H1 H2 Hn. destruct x as [a| |]; cbn in *; try (now rewrite H1 by discriminate); [rewrite H1 by discriminate; cbn; now apply H2|now elim Hn]. Qed.
Section Two.
Context (w : view) (f g : nat) (ag_operand : forall s, agrees (operand E v f s) (operand E w g s)).
Lemma ag_text s : agrees (operand_text E v f s) (operand_text E w g s).
Proof. apply ag_bind; [apply ag_operand|intros []; apply ag_refl]. Qed.
Lemma ag_min s t : agrees (min_order E v f s t) (min_order E w g s t).
Proof. apply ag_bind; [apply ag_operand|]. intros a. apply ag_bind; [apply ag_operand|]. intros b. apply ag_refl. Qed.

Ltac ag := repeat (first [apply ag_refl | apply ag_operand | apply ag_text | apply ag_min | (apply ag_bind; [|intros ?])]); auto.

Lemma ag_least (args : list (node (f64 E))) : (forall n, In n args -> agrees (evaluate f n) (EvalModel.evaluate E w g n)) ->
  forall s, agrees (least E v f s args) (least E w g s args).
Proof.
  induction args as [|n args IH]; intros H s; [apply ag_refl|]. cbn [least]. apply ag_bind; [apply H; now left|]. intros t.
  apply ag_bind; [apply ag_min|]. intros o. apply IH. intros m Hm. apply H. now right.
Qed.

Lemma evaluate_agrees : forall n, agrees (evaluate f n) (EvalModel.evaluate E w g n).
Proof.
  fix IH 1. intros n.
  destruct n as [value c|l op r|l r|l op r|l op r|name args|x|name|name|s].
  - apply ag_text.
  - rewrite !binary_eq. ag.
  - apply ag_bind; [apply IH|]. intros a. apply ag_bind; [apply IH|]. intros b. apply ag_refl.
  - cbn [EvalModel.evaluate]. destruct op; try apply ag_refl; (apply ag_bind; [apply IH|]; intros a; apply ag_bind; [apply IH|]; intros b; apply ag_refl).
  - cbn [EvalModel.evaluate]. apply ag_bind; [apply IH|]. intros lw. apply ag_bind; [apply IH|]. intros rw.
    apply ag_bind; [destruct l; ag|]. intros lhs. ag.
  - assert (A : Forall (fun n => agrees (evaluate f n) (EvalModel.evaluate E w g n)) args).
    { clear name. revert args. fix IHl 1. intros [|a args]; constructor; [apply IH|apply IHl]. }
    cbn [EvalModel.evaluate].
    destruct (str_eqb name (lit "Abs")). { destruct args as [|a args]; [apply ag_refl|]. apply ag_bind; [exact (Forall_inv A)|]. intros; apply ag_refl. }
    destruct (str_eqb name (lit "Acos")). { destruct args as [|a args]; [apply ag_refl|]. apply ag_bind; [exact (Forall_inv A)|]. intros; apply ag_refl. }
    destruct (str_eqb name (lit "Asin")).
    { destruct args as [|a [|b args]]; [apply ag_refl|..].
      - apply ag_bind; [exact (Forall_inv A)|]. intros; apply ag_refl.
      - apply ag_bind; [exact (Forall_inv A)|]. intros x. apply ag_bind; [exact (Forall_inv (Forall_inv_tail A))|]. intros; apply ag_refl. }
    destruct (str_eqb name (lit "Char")). { destruct args as [|a args]; [apply ag_refl|]. apply ag_bind; [exact (Forall_inv A)|]. intros; apply ag_refl. }
    destruct (str_eqb name (lit "Min")).
    { destruct args as [|a args]; [apply ag_refl|]. apply ag_bind; [exact (Forall_inv A)|]. intros s. apply ag_least.
      intros m Hm. apply Forall_inv_tail in A. rewrite Forall_forall in A. now apply A. }
    destruct (str_eqb name (lit "Get")); [|apply ag_refl]. destruct args; apply ag_refl.
  - apply ag_refl.
  - apply ag_text.
  - apply ag_text.
  - apply ag_refl.
Qed.
End Two.
Lemma evaluate_mono f n : agrees (evaluate f n) (evaluate (S f) n).
Proof. apply evaluate_agrees. intros s H. now apply operand_mono. Qed.

Lemma calculation_mono f s : agrees (eval_calculation E v f s) (eval_calculation E v (S f) s).
Proof. apply ag_bind; [apply ag_refl|]. intros ts. apply ag_bind; [apply ag_refl|]. intros n. apply evaluate_mono. Qed.

(** One more unit than there are texts to be found decides everything. *)
Lemma evaluate_decided f n : (S (length (held v)) <= f)%nat -> evaluate f n = evaluate (S (length (held v))) n.
Proof.
  intros Hf. set (k := S (length (held v))) in *.
  assert (H1 : agrees (evaluate k n) (evaluate f n)) by (apply evaluate_agrees; intros s _; now apply operand_decided).
  assert (H2 : agrees (evaluate f n) (evaluate k n)) by (apply evaluate_agrees; intros s _; symmetry; now apply operand_decided).
  destruct (evaluate k n) as [x| |] eqn:Ek; [apply H1; discriminate|apply H1; discriminate|].
  destruct (evaluate f n) as [x| |]; [now rewrite H2|now rewrite H2|reflexivity].
Qed.
Lemma calculation_decided f s : (S (length (held v)) <= f)%nat -> eval_calculation E v f s = eval_calculation E v (S (length (held v))) s.
Proof.
  intros Hf. unfold eval_calculation. destruct (lex E s) as [ts| |]; cbn [bind]; auto. destruct (parse E _ ts) as [n| |]; cbn [bind]; auto.
  now apply evaluate_decided.
Qed.

(** The outcome of a tree and of a text: a text, or an abort. *)
Definition gives (n : node (f64 E)) (o : outcome (list N)) : Prop := o <> NoFuel /\ exists k, forall f, (k <= f)%nat -> evaluate f n = o.
Definition calc_gives (s : list N) (o : outcome (list N)) : Prop :=
  o <> NoFuel /\ exists k, forall f, (k <= f)%nat -> eval_calculation E v f s = o.

Lemma gives_at f n o : evaluate f n = o -> o <> NoFuel -> gives n o.
Proof.
  intros H Ho. split; auto. exists f. intros g Hg. rewrite <- H. apply (mono_le (fun f => evaluate f n)); [|exact Hg|congruence].
  intros k. apply evaluate_mono.
Qed.
Lemma calc_gives_at f s o : eval_calculation E v f s = o -> o <> NoFuel -> calc_gives s o.
Proof.
  intros H Ho. split; auto. exists f. intros g Hg. rewrite <- H. apply (mono_le (fun f => eval_calculation E v f s)); [|exact Hg|congruence].
  intros k. apply calculation_mono.
Qed.
Lemma gives_fun n o o' : gives n o -> gives n o' -> o = o'.
Proof. intros [_ (k & H)] [_ (k' & H')]. rewrite <- (H (Nat.max k k')), <- (H' (Nat.max k k')) by lia. reflexivity. Qed.
Lemma calc_gives_fun n o o' : calc_gives n o -> calc_gives n o' -> o = o'.
Proof. intros [_ (k & H)] [_ (k' & H')]. rewrite <- (H (Nat.max k k')), <- (H' (Nat.max k k')) by lia. reflexivity. Qed.

(** Fuel enough for two, or for two and one operand lookup. *)
Lemma gives_both n m o o' : gives n o -> gives m o' -> exists k, (0 < k)%nat /\ forall f, (k <= f)%nat -> evaluate f n = o /\ evaluate f m = o'.
Proof. intros [_ (k & H)] [_ (k' & H')]. exists (S (Nat.max k k')). split; [lia|]. intros f Hf. split; [apply H|apply H']; lia. Qed.
Lemma stands_at s t r : stands_for E v s t r -> exists k, forall f, (k <= f)%nat -> get_operand_val E v f s = Ok (t, r).
Proof.
  intros H. apply operand_spec in H as (k & H). exists k. intros f Hf. rewrite <- H. apply operand_mono_le; auto. congruence.
Qed.
End P.

(** A calculation only depends on the data and on the innermost scope. *)
Lemma operand_view E v w : vw_db v = vw_db w -> current_scope v = current_scope w -> forall f s, get_operand_val E v f s = get_operand_val E w f s.
Proof.
  intros Hd Hs. induction f as [|f IH]; intros s; [reflexivity|]. cbn [get_operand_val]. rewrite <- Hd, <- Hs.
  destruct (parse64 E s); auto. destruct (quoted s); auto.
  assert (V : bind (current_scope v) (fun vars => match sget vars s with None => Ok (OText, []) | Some x => get_operand_val E v f x end) =
              bind (current_scope v) (fun vars => match sget vars s with None => Ok (OText, []) | Some x => get_operand_val E w f x end)).
  { destruct (current_scope v); cbn [bind]; auto. destruct (sget a s); auto. }
  destruct (split s) as [|a [|b [|c l]]]; auto. destruct (get_found_set_record_field (vw_db v) b); cbn [bind]; auto.
Qed.
Lemma calculation_view E v w : vw_db v = vw_db w -> current_scope v = current_scope w ->
  forall f s, eval_calculation E v f s = eval_calculation E w f s.
Proof.
  intros Hd Hs f s. unfold eval_calculation. destruct (lex E s); cbn [bind]; auto. destruct (parse E _ a) as [n| |]; cbn [bind]; auto.
  assert (H1 : agrees (evaluate E v f n) (evaluate E w f n)) by (apply evaluate_agrees; intros x _; symmetry; now apply operand_view).
  assert (H2 : agrees (evaluate E w f n) (evaluate E v f n)) by (apply evaluate_agrees; intros x _; now apply operand_view).
  destruct (evaluate E v f n) eqn:K; [symmetry; apply H1; discriminate|symmetry; apply H1; discriminate|].
  destruct (evaluate E w f n) eqn:K'; auto; apply H2; discriminate.
Qed.
