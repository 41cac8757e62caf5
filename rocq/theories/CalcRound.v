(** The calculation parser against the grammar, and what it makes of function calls. *)
From Coq Require Import NArith List Bool Lia Arith.
From Verif Require Import Prelude PreludeFacts CalcModel CalcSpec CalcFacts CalcParse CalcEnds.
Import ListNotations.
Local Open Scope nat_scope.

Section P.
Context (E : fenv).
Notation node := (node (f64 E)).
Notation parse_args := (parse_args E). Notation parse_comparison := (parse_comparison E). Notation comparison_loop := (comparison_loop E).
Notation parse_concatenation := (parse_concatenation E). Notation concatenation_loop := (concatenation_loop E).
Notation parse_expr := (parse_expr E). Notation expr_loop := (expr_loop E). Notation parse_term := (parse_term E).
Notation term_loop := (term_loop E). Notation parse_factor := (parse_factor E). Notation parse_primary := (parse_primary E).

(** With enough fuel, the result is [x]. *)
Definition evt {A} (g : nat -> outcome A) (x : A) : Prop := exists k, forall f, k <= f -> g f = Ok x.
Lemma evt_S {A} (g h : nat -> outcome A) x : (forall f, g (S f) = h f) -> evt h x -> evt g x.
Proof. intros H [k K]. exists (S k). intros f Hf. destruct f as [|f]; [lia|]. rewrite H. apply K. lia. Qed.
Lemma evt_ext {A} (g h : nat -> outcome A) x : (forall f, g f = h f) -> evt h x -> evt g x.
Proof. intros H [k K]. exists k. intros f Hf. rewrite H. auto. Qed.
Lemma evt_const {A} (x : A) : evt (fun _ => Ok x) x.
Proof. now exists 0. Qed.
Lemma evt_bind {A B} (g : nat -> outcome A) (h : A -> nat -> outcome B) a x :
  evt g a -> evt (h a) x -> evt (fun f => bind (g f) (fun a => h a f)) x.
Proof. intros [k K] [k' K']. exists (Nat.max k k'). intros f Hf. rewrite K by lia. cbn. apply K'. lia. Qed.

Definition at_ (ts : list token) : pos := (hd (tok TComma) ts, tl ts).
(** Where the parser is after reading [ts] with [r] to follow: at [r], or still at the last token. *)
Definition land (ts r : list token) : pos := match r with [] => (last ts (tok TComma), []) | t :: l => (t, l) end.

Definition head_type (r : list token) : option ttype := option_map tk_type (hd_error r).
(** Tokens after which a part of the given level is complete. *)
Definition stops (l : level) (t : ttype) : bool :=
  match t with
  | TOpenParen => false
  | TMultiply | TDivide => match l with LFactor | LTerm => true | _ => false end
  | TPlus | TMinus => match l with LFactor | LTerm | LExpr => true | _ => false end
  | TAmpersand => match l with LFactor | LTerm | LExpr | LConcat => true | _ => false end
  | _ => true
  end.
Definition ok_rest (l : level) (r : list token) : bool := match r with [] => true | t :: _ => stops l (tk_type t) end.

Definition operand_end (t : ttype) : bool := match t with TCloseParen | TIdentifier | TNumericLiteral | TString => true | _ => false end.

Lemma spells_head l ts n : spells E l ts n -> exists t u, ts = t :: u /\ starts (tk_type t) = true.
Proof.
  induction 1; eauto; try (destruct IHspells as (t & u & -> & Ht); cbn; eauto); try (destruct IHspells1 as (t & u & -> & Ht); cbn; eauto).
Qed.
Lemma spells_last l ts n : spells E l ts n -> exists u t, ts = u ++ [t] /\ operand_end (tk_type t) = true.
Proof.
  induction 1; auto.
  1-4: eexists [], _; split; [reflexivity|reflexivity].
  - exists (tok TOpenParen :: ts), (tok TCloseParen). split; reflexivity.
  - destruct IHspells2 as (u & t & -> & Ht). exists (a ++ tok op :: u), t. split; auto. now rewrite <- app_assoc.
  - destruct IHspells2 as (u & t & -> & Ht). exists (a ++ tok op :: u), t. split; auto. now rewrite <- app_assoc.
  - destruct IHspells2 as (u & t & -> & Ht). exists (a ++ tok TAmpersand :: u), t. split; auto. now rewrite <- app_assoc.
  - destruct IHspells2 as (u & t & -> & Ht). exists (a ++ tok op :: u), t. split; auto. now rewrite <- app_assoc.
Qed.

(** The type of the token reached. *)
Lemma land_type l ts n r : spells E l ts n ->
  match r with [] => operand_end (tk_type (current (land ts r))) = true | t :: _ => current (land ts r) = t end.
Proof.
  intros H. destruct r as [|t r]; [|reflexivity]. destruct (spells_last _ _ _ H) as (u & t & -> & Ht). cbn. now rewrite last_last.
Qed.

(** ** Loops that end at once *)
Lemma term_loop_end n p : is_prod (tk_type (current p)) = false -> evt (fun f => term_loop f n p) (n, p).
Proof. intros H. eapply evt_S; [intros f; rewrite term_loop_S, H; reflexivity|apply evt_const]. Qed.
Lemma expr_loop_end n p : is_sum (tk_type (current p)) = false -> evt (fun f => expr_loop f n p) (n, p).
Proof. intros H. eapply evt_S; [intros f; rewrite expr_loop_S, H; reflexivity|apply evt_const]. Qed.
Lemma concatenation_loop_end n p : tk_type (current p) <> TAmpersand -> evt (fun f => concatenation_loop f n p) (n, p).
Proof.
  intros H. eapply evt_S; [intros f; rewrite concatenation_loop_S; instantiate (1 := fun _ => Ok (n, p))|apply evt_const].
  destruct (tk_type (current p)); congruence.
Qed.
Lemma comparison_loop_end n p : is_cmp (tk_type (current p)) = false -> evt (fun f => comparison_loop f n p) (n, skip p).
Proof.
  intros H. eapply evt_S; [intros f; rewrite comparison_loop_S, H; instantiate (1 := fun _ => Ok (n, skip p))|apply evt_const].
  destruct p as [c [|t l]]; reflexivity.
Qed.
Lemma comparison_loop_last n c : evt (fun f => comparison_loop f n (c, [])) (n, (c, [])).
Proof. eapply evt_S; [intros f; rewrite comparison_loop_S; reflexivity|apply evt_const]. Qed.

(** ** Operands *)
Lemma term_via p n q res : evt (fun f => parse_factor f p) (n, q) -> evt (fun f => term_loop f n q) res -> evt (fun f => parse_term f p) res.
Proof.
  intros H1 H2. eapply evt_S; [intros f; apply term_S|]. eapply (evt_bind _ (fun r f => let '(lhs, p) := r in term_loop f lhs p)); eauto.
Qed.
Lemma expr_via p n q res : evt (fun f => parse_term f p) (n, q) -> evt (fun f => expr_loop f n q) res -> evt (fun f => parse_expr f p) res.
Proof.
  intros H1 H2. eapply evt_S; [intros f; apply expr_S|]. eapply (evt_bind _ (fun r f => let '(lhs, p) := r in expr_loop f lhs p)); eauto.
Qed.
Lemma concat_via p n q res : evt (fun f => parse_expr f p) (n, q) -> evt (fun f => concatenation_loop f n q) res ->
  evt (fun f => parse_concatenation f p) res.
Proof.
  intros H1 H2. eapply evt_S; [intros f; apply concatenation_S|].
  eapply (evt_bind _ (fun r f => let '(lhs, p) := r in concatenation_loop f lhs p)); eauto.
Qed.
Lemma compare_via p n q res : evt (fun f => parse_concatenation f p) (n, q) -> evt (fun f => comparison_loop f n q) res ->
  evt (fun f => parse_comparison f p) res.
Proof.
  intros H1 H2. eapply evt_S; [intros f; apply comparison_S|].
  eapply (evt_bind _ (fun r f => let '(lhs, p) := r in comparison_loop f lhs p)); eauto.
Qed.

(** One turn of each loop. *)
Lemma term_turn op r x y q res : is_prod op = true -> r <> [] -> evt (fun f => parse_factor f (at_ r)) (y, q) ->
  evt (fun f => term_loop f (NBinary x op y) q) res -> evt (fun f => term_loop f x (tok op, r)) res.
Proof.
  intros Hop Hr H1 H2. destruct r as [|t l]; [congruence|]. eapply evt_S; [intros f; rewrite term_loop_S; cbn [current fst tk_type tok]; rewrite Hop; reflexivity|].
  eapply (evt_bind _ (fun r f => let '(rhs, p) := r in term_loop f (NBinary x op rhs) p)); eauto.
Qed.
Lemma expr_turn op r x y q res : is_sum op = true -> r <> [] -> evt (fun f => parse_term f (at_ r)) (y, q) ->
  evt (fun f => expr_loop f (NBinary x op y) q) res -> evt (fun f => expr_loop f x (tok op, r)) res.
Proof.
  intros Hop Hr H1 H2. destruct r as [|t l]; [congruence|]. eapply evt_S; [intros f; rewrite expr_loop_S; cbn [current fst tk_type tok]; rewrite Hop; reflexivity|].
  eapply (evt_bind _ (fun r f => let '(rhs, p) := r in expr_loop f (NBinary x op rhs) p)); eauto.
Qed.
Lemma concat_turn r x y q res : r <> [] -> evt (fun f => parse_expr f (at_ r)) (y, q) ->
  evt (fun f => concatenation_loop f (NConcat x y) q) res -> evt (fun f => concatenation_loop f x (tok TAmpersand, r)) res.
Proof.
  intros Hr H1 H2. destruct r as [|t l]; [congruence|]. eapply evt_S; [intros f; rewrite concatenation_loop_S; reflexivity|].
  eapply (evt_bind _ (fun r f => let '(rhs, p) := r in concatenation_loop f (NConcat x rhs) p)); eauto.
Qed.
Lemma compare_turn op r x y q res : is_cmp op = true -> r <> [] -> evt (fun f => parse_concatenation f (at_ r)) (y, q) ->
  evt (fun f => comparison_loop f (NCompare x op y) q) res -> evt (fun f => comparison_loop f x (tok op, r)) res.
Proof.
  intros Hop Hr H1 H2. destruct r as [|t l]; [congruence|].
  eapply evt_S; [intros f; rewrite comparison_loop_S; cbn [next snd current fst tk_type tok]; rewrite Hop; reflexivity|].
  eapply (evt_bind _ (fun r f => let '(rhs, p) := r in comparison_loop f (NCompare x op rhs) p)); eauto.
Qed.

(** ** The grammar *)
Definition goal (l : level) (ts : list token) (n : node) : Prop := forall r, ok_rest l r = true ->
  match l with
  | LFactor => evt (fun f => parse_factor f (at_ (ts ++ r))) (n, land ts r)
  | LTerm => forall res, evt (fun f => term_loop f n (land ts r)) res -> evt (fun f => parse_term f (at_ (ts ++ r))) res
  | LExpr => forall res, evt (fun f => expr_loop f n (land ts r)) res -> evt (fun f => parse_expr f (at_ (ts ++ r))) res
  | LConcat => forall res, evt (fun f => concatenation_loop f n (land ts r)) res -> evt (fun f => parse_concatenation f (at_ (ts ++ r))) res
  | LCompare => forall res, evt (fun f => comparison_loop f n (land ts r)) res -> evt (fun f => parse_comparison f (at_ (ts ++ r))) res
  end.

Lemma leaf v t r n : starts t = true -> t <> TOpenParen ->
  (evt (fun f => parse_primary f (mkTok t v, r)) (n, (mkTok t v, r))) ->
  evt (fun f => parse_factor f (at_ ([mkTok t v] ++ r))) (n, land [mkTok t v] r).
Proof.
  intros H1 H2 H. eapply evt_S.
  - intros f. rewrite factor_S. instantiate (1 := fun f => bind (parse_primary f (mkTok t v, r)) (fun a => let '(e, p) := a in Ok (e, skip p))).
    cbn [current at_ hd tl app fst tk_type]. destruct t; try discriminate; try congruence; reflexivity.
  - eapply (evt_bind _ (fun a f => let '(e, p) := a in Ok (e, skip p))); [exact H|].
    destruct r; apply evt_const.
Qed.

Lemma noparen l r : ok_rest l r = true -> head_type r <> Some TOpenParen.
Proof. destruct r as [|t r]; [discriminate|]. cbn. intros H K. injection K as K. rewrite K in H. discriminate. Qed.

Lemma term_done ts n r : spells E LTerm ts n -> goal LTerm ts n -> ok_rest LExpr r = true ->
  evt (fun f => parse_term f (at_ (ts ++ r))) (n, land ts r).
Proof.
  intros Hs H Hr. apply H.
  - destruct r as [|t r]; auto. cbn in *. destruct (tk_type t); try discriminate; auto.
  - apply term_loop_end. pose proof (land_type _ _ _ r Hs) as L. destruct r as [|t r].
    + destruct (tk_type _); try discriminate; reflexivity.
    + rewrite L. cbn in Hr. destruct (tk_type t); try discriminate; reflexivity.
Qed.
Lemma expr_done ts n r : spells E LExpr ts n -> goal LExpr ts n -> ok_rest LConcat r = true ->
  evt (fun f => parse_expr f (at_ (ts ++ r))) (n, land ts r).
Proof.
  intros Hs H Hr. apply H.
  - destruct r as [|t r]; auto. cbn in *. destruct (tk_type t); try discriminate; auto.
  - apply expr_loop_end. pose proof (land_type _ _ _ r Hs) as L. destruct r as [|t r].
    + destruct (tk_type _); try discriminate; reflexivity.
    + rewrite L. cbn in Hr. destruct (tk_type t); try discriminate; reflexivity.
Qed.
Lemma concat_done ts n r : spells E LConcat ts n -> goal LConcat ts n -> ok_rest LCompare r = true ->
  evt (fun f => parse_concatenation f (at_ (ts ++ r))) (n, land ts r).
Proof.
  intros Hs H Hr. apply H.
  - destruct r as [|t r]; auto. cbn in *. destruct (tk_type t); try discriminate; auto.
  - apply concatenation_loop_end. pose proof (land_type _ _ _ r Hs) as L. destruct r as [|t r].
    + intros K. rewrite K in L. discriminate.
    + rewrite L. cbn in Hr. intros K. rewrite K in Hr. discriminate.
Qed.

Lemma nonempty_app l ts n r : spells E l ts n -> ts ++ r <> [].
Proof. intros H. destruct (spells_head _ _ _ H) as (t & u & -> & _). discriminate. Qed.
Lemma land_op a op b r : land a ((tok op :: b) ++ r) = (tok op, b ++ r).
Proof. reflexivity. Qed.
Lemma land_app l a op b r n : spells E l b n -> land (a ++ tok op :: b) r = land b r.
Proof.
  intros H. destruct r as [|t r]; [|reflexivity]. destruct (spells_last _ _ _ H) as (u & t & -> & _). cbn [land].
  rewrite app_comm_cons, app_assoc, !last_last. reflexivity.
Qed.

Theorem spells_goal l ts n : spells E l ts n -> goal l ts n.
Proof.
  induction 1; intros r Hr.
  - apply leaf; [reflexivity|discriminate|]. eapply evt_S; [intros f; rewrite primary_S; cbn [current fst tk_type tk_value]; rewrite H; reflexivity|apply evt_const].
  - apply leaf; [reflexivity|discriminate|]. eapply evt_S; [intros f; rewrite primary_S; reflexivity|apply evt_const].
  - apply leaf; [reflexivity|discriminate|]. apply split_field_b in H.
    eapply evt_S; [intros f; rewrite primary_S; cbn [current fst tk_type tk_value]; rewrite H; reflexivity|apply evt_const].
  - apply leaf; [reflexivity|discriminate|]. apply split_field_nb in H. apply noparen in Hr.
    eapply evt_S; [intros f; rewrite primary_S; cbn [current fst tk_type tk_value]; rewrite H; instantiate (1 := fun _ => Ok (NVariable v, (mkTok TIdentifier v, r)))|apply evt_const].
    unfold peek. cbn [snd]. unfold head_type in Hr. destruct (option_map tk_type (hd_error r)) as [[]|]; try reflexivity. now elim Hr.
  - (* parenthesis *)
    cbn [app]. change (at_ (tok TOpenParen :: (ts ++ [tok TCloseParen]) ++ r)) with (tok TOpenParen, (ts ++ [tok TCloseParen]) ++ r).
    rewrite <- app_assoc. cbn [app].
    assert (K : evt (fun f => parse_comparison f (at_ (ts ++ tok TCloseParen :: r))) (n, land (tok TOpenParen :: ts ++ [tok TCloseParen]) r)).
    { apply (IHspells (tok TCloseParen :: r)); [reflexivity|]. cbn [land].
      assert (L : land (tok TOpenParen :: ts ++ [tok TCloseParen]) r = skip (tok TCloseParen, r)).
      { destruct r as [|t r]; [|reflexivity]. cbn [land]. rewrite app_comm_cons, last_last. reflexivity. }
      rewrite L. apply comparison_loop_end. reflexivity. }
    eapply evt_S; [|exact K]. intros f. rewrite factor_S. cbn [current fst tk_type tok].
    destruct (spells_head _ _ _ H) as (t & u & -> & _). reflexivity.
  - intros res Hres. eapply term_via; [|exact Hres]. apply IHspells. exact Hr.
  - intros res Hres. rewrite <- app_assoc. apply IHspells1.
    + destruct H0; subst; reflexivity.
    + rewrite land_op. eapply term_turn; [destruct H0; subst; reflexivity|eapply nonempty_app; eauto|apply IHspells2; exact Hr|].
      rewrite (land_app _ _ _ _ _ _ H1) in Hres. exact Hres.
  - intros res Hres. eapply expr_via; [|exact Hres]. now apply term_done.
  - intros res Hres. rewrite <- app_assoc. apply IHspells1.
    + destruct H0; subst; reflexivity.
    + rewrite land_op. eapply expr_turn; [destruct H0; subst; reflexivity|eapply nonempty_app; eauto|apply term_done; [exact H1|exact IHspells2|exact Hr]|].
      rewrite (land_app _ _ _ _ _ _ H1) in Hres. exact Hres.
  - intros res Hres. eapply concat_via; [|exact Hres]. now apply expr_done.
  - intros res Hres. rewrite <- app_assoc. apply IHspells1.
    + reflexivity.
    + rewrite land_op. eapply concat_turn; [eapply nonempty_app; eauto|apply expr_done; [exact H0|exact IHspells2|exact Hr]|].
      rewrite (land_app _ _ _ _ _ _ H0) in Hres. exact Hres.
  - intros res Hres. eapply compare_via; [|exact Hres]. now apply concat_done.
  - assert (Hc : is_cmp op = true) by (cbn in H0; intuition (subst; reflexivity)).
    intros res Hres. rewrite <- app_assoc. apply IHspells1.
    + cbn. destruct op; try discriminate Hc; reflexivity.
    + rewrite land_op. eapply compare_turn; [exact Hc|eapply nonempty_app; eauto|apply concat_done; [exact H1|exact IHspells2|exact Hr]|].
      rewrite (land_app _ _ _ _ _ _ H1) in Hres. exact Hres.
Qed.

Lemma evt_parse ts n q : ts <> [] -> evt (fun f => parse_comparison f (at_ ts)) (n, q) -> parse E (10 * length ts) ts = Ok n.
Proof.
  intros Hn [k K]. rewrite <- (parse_decided E ts (Nat.max k (10 * length ts))) by lia. destruct ts as [|t l]; [congruence|].
  unfold parse. change (t, l) with (at_ (t :: l)). rewrite K by lia. reflexivity.
Qed.

Theorem parse_spells ts n : spells E LCompare ts n -> parse E (10 * length ts) ts = Ok n.
Proof.
  intros H. destruct (spells_last _ _ _ H) as (u & t & Ht & Hend).
  apply (evt_parse _ _ (land ts [])); [intros ->; destruct u; discriminate|].
  pose proof (spells_goal _ _ _ H [] eq_refl) as G. cbv beta iota in G. rewrite app_nil_r in G. apply G. subst ts. cbn [land]. rewrite last_last.
  apply comparison_loop_last.
Qed.

(** Whatever follows a complete calculation is ignored, unless it goes on with an operator or a parenthesis. *)
Theorem parse_spells_rest ts n t r : spells E LCompare ts n -> stops LCompare (tk_type t) = true -> is_cmp (tk_type t) = false ->
  parse E (10 * length (ts ++ t :: r)) (ts ++ t :: r) = Ok n.
Proof.
  intros H H1 H2. apply (evt_parse _ _ (skip (t, r))); [eapply nonempty_app; eauto|].
  apply (spells_goal _ _ _ H (t :: r)); [exact H1|]. now apply comparison_loop_end.
Qed.

(** ** Function calls *)
Definition plain_name (f : list N) : Prop := ~ field_name f.

(** Reading [f(...)...]: the argument is everything up to the next [&], comparison, comma or parenthesis, and then one more token is skipped. *)
Lemma call_factor f ts e r : plain_name f -> spells E LExpr ts e -> head_type ts = Some TOpenParen ->
  ok_rest LConcat r = true -> head_type r <> Some TComma ->
  evt (fun k => parse_factor k (mkTok TIdentifier f, ts ++ r)) (NCall f [e], skip (land ts r)).
Proof.
  intros Hf Hs Hh Hr Hc. pose proof (expr_done _ _ _ Hs (spells_goal _ _ _ Hs) Hr) as K.
  destruct (spells_head _ _ _ Hs) as (t & u & -> & _). cbn in Hh. injection Hh as Hh.
  eapply evt_S; [intros k; rewrite factor_S; cbn [current fst tk_type]; reflexivity|].
  eapply (evt_bind _ (fun a k => let '(e, p) := a in Ok (e, skip p)) (NCall f [e], land (t :: u) r)); [|apply evt_const].
  apply split_field_nb in Hf.
  eapply evt_S; [intros k; rewrite primary_S; cbn [current fst tk_type tk_value peek snd hd_error app option_map]; rewrite Hf, Hh; reflexivity|].
  eapply (evt_bind _ (fun a k => let '(args, p) := a in Ok (NCall f args, p)) ([e], land (t :: u) r)); [|apply evt_const].
  eapply evt_S; [intros k; apply args_S|].
  eapply (evt_bind _ (fun a k => let '(arg, p) := a in match tk_type (current p) with
    | TComma => bind (parse_args k p) (fun b => let '(args, p) := b in Ok (arg :: args, p)) | _ => Ok ([arg], p) end)); [exact K|].
  cbn [app]. pose proof (land_type _ _ _ r Hs) as L. destruct r as [|c r].
  - destruct (tk_type (current (land (t :: u) []))); try discriminate L; apply evt_const.
  - rewrite L. cbn in Hc. destruct (tk_type c); try apply evt_const. congruence.
Qed.

Lemma factor_alone p n q : evt (fun k => parse_factor k p) (n, q) -> 
  is_prod (tk_type (current q)) = false -> is_sum (tk_type (current q)) = false -> tk_type (current q) <> TAmpersand ->
  is_cmp (tk_type (current q)) = false -> evt (fun k => parse_comparison k p) (n, skip q).
Proof.
  intros H H1 H2 H3 H4. eapply compare_via; [|now apply comparison_loop_end]. eapply concat_via; [|now apply concatenation_loop_end].
  eapply expr_via; [|now apply expr_loop_end]. eapply term_via; [exact H|]. now apply term_loop_end.
Qed.

(** A call takes in the products and sums after it. *)
Theorem call_swallows f ts e : plain_name f -> spells E LExpr ts e -> head_type ts = Some TOpenParen ->
  parse E (10 * length (mkTok TIdentifier f :: ts)) (mkTok TIdentifier f :: ts) = Ok (NCall f [e]).
Proof.
  intros Hf Hs Hh. pose proof (call_factor f ts e [] Hf Hs Hh eq_refl ltac:(discriminate)) as K. rewrite app_nil_r in K.
  pose proof (land_type _ _ _ [] Hs) as L. cbv beta iota in L.
  eapply evt_parse; [discriminate|]. eapply factor_alone; [exact K|..]; cbn [land skip next snd];
    change (current (land ts [])) with (last ts (tok TComma)) in L; cbn [current fst];
    destruct (tk_type (last ts (tok TComma))); try discriminate L; try reflexivity; discriminate.
Qed.

(** Something joined to a call or compared with it is lost. *)
Theorem call_drops f ts e op t r : plain_name f -> spells E LExpr ts e -> head_type ts = Some TOpenParen ->
  tk_type op = TAmpersand \/ is_cmp (tk_type op) = true -> starts (tk_type t) = true ->
  parse E (10 * length (mkTok TIdentifier f :: ts ++ op :: t :: r)) (mkTok TIdentifier f :: ts ++ op :: t :: r) = Ok (NCall f [e]).
Proof.
  intros Hf Hs Hh Hop Ht.
  assert (K : evt (fun k => parse_factor k (mkTok TIdentifier f, ts ++ op :: t :: r)) (NCall f [e], (t, r))).
  { apply (call_factor f ts e (op :: t :: r)); auto; cbn.
    - destruct Hop as [->|Hop]; [reflexivity|]. destruct (tk_type op); try discriminate; reflexivity.
    - intros C. injection C as C. rewrite C in Hop. destruct Hop; discriminate. }
  eapply evt_parse; [discriminate|]. eapply factor_alone; [exact K|..]; cbn [current fst]; destruct (tk_type t); try discriminate; reflexivity.
Qed.

(** Every argument after the first that is a single token is lost. *)
Theorem call_second_lost f a e b : plain_name f -> spells E LCompare a e -> starts (tk_type b) = true -> tk_type b <> TOpenParen ->
  let ts := mkTok TIdentifier f :: tok TOpenParen :: a ++ [tok TComma; b; tok TCloseParen] in
  parse E (10 * length ts) ts = Ok (NCall f [e]).
Proof.
  intros Hf Hs Hb Hb' ts. subst ts.
  assert (K1 : evt (fun k => parse_comparison k (at_ (a ++ [tok TComma; b; tok TCloseParen]))) (e, (b, [tok TCloseParen]))).
  { apply (spells_goal _ _ _ Hs [tok TComma; b; tok TCloseParen]); [reflexivity|]. cbn [land].
    apply (comparison_loop_end e (tok TComma, [b; tok TCloseParen])). reflexivity. }
  assert (K2 : evt (fun k => parse_factor k (tok TOpenParen, a ++ [tok TComma; b; tok TCloseParen])) (e, (b, [tok TCloseParen]))).
  { eapply evt_S; [|exact K1]. intros k. rewrite factor_S. cbn [current fst tk_type tok].
    destruct (spells_head _ _ _ Hs) as (t & u & -> & _). reflexivity. }
  assert (K3 : evt (fun k => parse_expr k (tok TOpenParen, a ++ [tok TComma; b; tok TCloseParen])) (e, (b, [tok TCloseParen]))).
  { eapply expr_via; [eapply term_via; [exact K2|apply term_loop_end]|apply expr_loop_end]; cbn; destruct (tk_type b); try discriminate; reflexivity. }
  assert (K : evt (fun k => parse_factor k (mkTok TIdentifier f, tok TOpenParen :: a ++ [tok TComma; b; tok TCloseParen])) (NCall f [e], (tok TCloseParen, []))).
  { eapply evt_S; [intros k; rewrite factor_S; cbn [current fst tk_type]; reflexivity|].
    eapply (evt_bind _ (fun a k => let '(e, p) := a in Ok (e, skip p)) (NCall f [e], (b, [tok TCloseParen]))); [|apply evt_const].
    apply split_field_nb in Hf.
    eapply evt_S; [intros k; rewrite primary_S; cbn [current fst tk_type tk_value peek snd hd_error option_map tok]; rewrite Hf; reflexivity|].
    eapply (evt_bind _ (fun a k => let '(args, p) := a in Ok (NCall f args, p)) ([e], (b, [tok TCloseParen]))); [|apply evt_const].
    eapply evt_S; [intros k; apply args_S|].
    eapply (evt_bind _ (fun a k => let '(arg, p) := a in match tk_type (current p) with
      | TComma => bind (parse_args k p) (fun b => let '(args, p) := b in Ok (arg :: args, p)) | _ => Ok ([arg], p) end)); [exact K3|].
    cbn [current fst]. destruct (tk_type b); try discriminate Hb; apply evt_const. }
  eapply evt_parse; [discriminate|]. eapply factor_alone; [exact K|..]; try reflexivity. discriminate.
Qed.
End P.
