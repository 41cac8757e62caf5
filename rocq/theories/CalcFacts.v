(** General facts about the calculation parser: fuel, positions, trees. *)
From Coq Require Import NArith List Bool Lia Arith.
From Verif Require Import Prelude PreludeFacts CalcModel CalcSpec.
Import ListNotations.
Local Open Scope N_scope.

(** ** split *)
Lemma split_colons_acc : forall n s acc, (length s <= n)%nat -> lenN (split_colons s acc) = lenN (split_colons s []).
Proof.
  induction n as [|n IH]; intros s acc Hn; destruct s as [|a s]; try reflexivity; [cbn in Hn; lia|].
  cbn [split_colons]. destruct s as [|b s]; [reflexivity|]. destruct ((a =? 58) && (b =? 58)).
  - rewrite !lenN_cons. reflexivity.
  - rewrite (IH (b :: s) (a :: acc)), (IH (b :: s) [a]); auto; cbn in *; lia.
Qed.
Lemma split_colons_len_acc s acc : lenN (split_colons s acc) = lenN (split_colons s []).
Proof. now apply (split_colons_acc (length s)). Qed.

Lemma split_one : forall n s, (length s <= n)%nat -> (lenN (split_colons s []) = 1 <-> ~ has_colons s).
Proof.
  induction n as [|n IH]; intros s Hn; destruct s as [|a s]; try (cbn in Hn; lia).
  - split; [|reflexivity]. intros _ (p & q & H). destruct p; discriminate.
  - split; [|reflexivity]. intros _ (p & q & H). destruct p; discriminate.
  - cbn [split_colons]. destruct s as [|b s].
    + split; [|reflexivity]. intros _ (p & q & H). destruct p as [|x [|y p]]; discriminate.
    + destruct ((a =? 58) && (b =? 58)) eqn:Ec.
      * apply andb_true_iff in Ec as [E1 E2]. apply N.eqb_eq in E1. apply N.eqb_eq in E2. subst.
        split; [|intros H; exfalso; apply H; now exists [], s].
        rewrite lenN_cons. intros H. assert (lenN (split_colons s []) = 0) by lia.
        destruct s as [|x s]; [discriminate|]. cbn [split_colons] in *. destruct s as [|y s]; [discriminate|].
        destruct ((x =? 58) && (y =? 58)); rewrite ?split_colons_len_acc in *.
        -- rewrite lenN_cons in *. lia.
        -- exfalso. clear - H0. revert H0. generalize (y :: s). intros l H0.
           assert (0 < lenN (split_colons l [])); [|lia]. clear.
           assert (P : forall l acc, 0 < lenN (split_colons l acc)).
           { induction l0 as [|a l0 IHl]; intros acc; [reflexivity|]. cbn [split_colons]. destruct l0 as [|b l0].
             - reflexivity.
             - destruct ((a =? 58) && (b =? 58)); [rewrite lenN_cons; lia|apply IHl]. }
           apply P.
      * rewrite split_colons_len_acc, (IH (b :: s)) by (cbn in *; lia). split; intros H (p & q & Hp).
        -- destruct p as [|x p]; [inversion Hp; subst; now rewrite !N.eqb_refl in Ec|].
           inversion Hp. apply H. exists p, q. auto.
        -- apply H. exists (a :: p), q. rewrite Hp. reflexivity.
Qed.

Lemma split_two : forall n s, (length s <= n)%nat -> (lenN (split_colons s []) = 2 <-> field_name s).
Proof.
  induction n as [|n IH]; intros s Hn; destruct s as [|a s]; try (cbn in Hn; lia).
  - split; [discriminate|]. intros (p & q & H & _). destruct p; discriminate.
  - split; [discriminate|]. intros (p & q & H & _). destruct p; discriminate.
  - cbn [split_colons]. destruct s as [|b s].
    + split; [discriminate|]. intros (p & q & H & _). destruct p as [|x [|y p]]; discriminate.
    + destruct ((a =? 58) && (b =? 58)) eqn:Ec.
      * apply andb_true_iff in Ec as [E1 E2]. apply N.eqb_eq in E1. apply N.eqb_eq in E2. subst.
        rewrite lenN_cons. split.
        -- intros H. exists [], s. split; [reflexivity|]. split.
           ++ intros (p & q & Hp). destruct p as [|x [|y p]]; discriminate.
           ++ apply (split_one (length s)); auto. lia.
        -- intros (p & q & Hp & Ha & Hb). destruct p as [|x p].
           ++ inversion Hp; subst. apply (split_one (length q)) in Hb; auto. lia.
           ++ exfalso. apply Ha. inversion Hp; subst. destruct p as [|y p].
              ** now exists [], [].
              ** cbn in H1. inversion H1; subst. exists [], (p ++ [58]). reflexivity.
      * rewrite split_colons_len_acc, (IH (b :: s)) by (cbn in *; lia). split; intros (p & q & Hp & Ha & Hb).
        -- exists (a :: p), q. rewrite Hp. split; [reflexivity|]. split; auto. intros (p' & q' & Hq).
           destruct p' as [|x p'].
           ++ cbn in Hq. inversion Hq; subst. destruct p as [|y p]; cbn in Hp, H1.
              ** inversion H1; subst. inversion Hp; subst. now rewrite !N.eqb_refl in Ec.
              ** inversion H1; subst. inversion Hp; subst. now rewrite !N.eqb_refl in Ec.
           ++ cbn in Hq. inversion Hq. apply Ha. exists p', q'. auto.
        -- destruct p as [|x p]; [inversion Hp; subst; now rewrite !N.eqb_refl in Ec|].
           inversion Hp; subst. exists p, q. split; [auto|]. split; auto. intros (p' & q' & Hq). apply Ha.
           exists (x :: p'), q'. cbn. now rewrite Hq.
Qed.
Lemma split_field v : lenN (split v) = 2 <-> field_name v.
Proof. apply (split_two (length v)). lia. Qed.
Lemma split_field_b v : (lenN (split v) =? 2) = true <-> field_name v.
Proof. rewrite N.eqb_eq. apply split_field. Qed.
Lemma split_field_nb v : ~ field_name v -> (lenN (split v) =? 2) = false.
Proof. intros H. apply N.eqb_neq. now rewrite split_field. Qed.

Section P.
Context (E : fenv).
Notation node := (node (f64 E)).
Notation parse_args := (parse_args E). Notation parse_comparison := (parse_comparison E). Notation comparison_loop := (comparison_loop E).
Notation parse_concatenation := (parse_concatenation E). Notation concatenation_loop := (concatenation_loop E).
Notation parse_expr := (parse_expr E). Notation expr_loop := (expr_loop E). Notation parse_term := (parse_term E).
Notation term_loop := (term_loop E). Notation parse_factor := (parse_factor E). Notation parse_primary := (parse_primary E).

(** ** More fuel does not change a result *)
Definition mono {A} (g : nat -> outcome A) : Prop := forall f, g f <> NoFuel -> g (S f) = g f.

Lemma mono_le {A} (g : nat -> outcome A) : mono g -> forall f f', (f <= f')%nat -> g f <> NoFuel -> g f' = g f.
Proof. intros M f f' H N. induction H; auto. rewrite M; auto. congruence. Qed.

Definition all_mono (f : nat) : Prop :=
  (forall p, parse_args f p <> NoFuel -> parse_args (S f) p = parse_args f p) /\
  (forall p, parse_comparison f p <> NoFuel -> parse_comparison (S f) p = parse_comparison f p) /\
  (forall n p, comparison_loop f n p <> NoFuel -> comparison_loop (S f) n p = comparison_loop f n p) /\
  (forall p, parse_concatenation f p <> NoFuel -> parse_concatenation (S f) p = parse_concatenation f p) /\
  (forall n p, concatenation_loop f n p <> NoFuel -> concatenation_loop (S f) n p = concatenation_loop f n p) /\
  (forall p, parse_expr f p <> NoFuel -> parse_expr (S f) p = parse_expr f p) /\
  (forall n p, expr_loop f n p <> NoFuel -> expr_loop (S f) n p = expr_loop f n p) /\
  (forall p, parse_term f p <> NoFuel -> parse_term (S f) p = parse_term f p) /\
  (forall n p, term_loop f n p <> NoFuel -> term_loop (S f) n p = term_loop f n p) /\
  (forall p, parse_factor f p <> NoFuel -> parse_factor (S f) p = parse_factor f p) /\
  (forall p, parse_primary f p <> NoFuel -> parse_primary (S f) p = parse_primary f p).

Lemma args_S f p : parse_args (S f) p =
  bind (parse_expr f (skip p)) (fun r => let '(arg, p) := r in match tk_type (current p) with
    | TComma => bind (parse_args f p) (fun r => let '(args, p) := r in Ok (arg :: args, p)) | _ => Ok ([arg], p) end).
Proof. reflexivity. Qed.
Lemma comparison_S f p : parse_comparison (S f) p =
  bind (parse_concatenation f p) (fun r => let '(lhs, p) := r in comparison_loop f lhs p).
Proof. reflexivity. Qed.
Lemma comparison_loop_S f lhs p : comparison_loop (S f) lhs p =
  match next p with
  | (None, p) => Ok (lhs, p)
  | (Some _, p') => if is_cmp (tk_type (current p)) then
      bind (parse_concatenation f p') (fun r => let '(rhs, q) := r in comparison_loop f (NCompare lhs (tk_type (current p)) rhs) q)
      else Ok (lhs, p') end.
Proof. reflexivity. Qed.
Lemma concatenation_S f p : parse_concatenation (S f) p =
  bind (parse_expr f p) (fun r => let '(lhs, p) := r in concatenation_loop f lhs p).
Proof. reflexivity. Qed.
Lemma concatenation_loop_S f lhs p : concatenation_loop (S f) lhs p =
  match tk_type (current p) with
  | TAmpersand => bind (parse_expr f (skip p)) (fun r => let '(rhs, q) := r in concatenation_loop f (NConcat lhs rhs) q)
  | _ => Ok (lhs, p) end.
Proof. reflexivity. Qed.
Lemma expr_S f p : parse_expr (S f) p = bind (parse_term f p) (fun r => let '(lhs, p) := r in expr_loop f lhs p).
Proof. reflexivity. Qed.
Lemma expr_loop_S f lhs p : expr_loop (S f) lhs p =
  if is_sum (tk_type (current p)) then
    bind (parse_term f (skip p)) (fun r => let '(rhs, q) := r in expr_loop f (NBinary lhs (tk_type (current p)) rhs) q)
  else Ok (lhs, p).
Proof. reflexivity. Qed.
Lemma term_S f p : parse_term (S f) p = bind (parse_factor f p) (fun r => let '(lhs, p) := r in term_loop f lhs p).
Proof. reflexivity. Qed.
Lemma term_loop_S f lhs p : term_loop (S f) lhs p =
  if is_prod (tk_type (current p)) then
    bind (parse_factor f (skip p)) (fun r => let '(rhs, q) := r in term_loop f (NBinary lhs (tk_type (current p)) rhs) q)
  else Ok (lhs, p).
Proof. reflexivity. Qed.
Lemma factor_S f p : parse_factor (S f) p =
  match tk_type (current p) with
  | TNumericLiteral | TIdentifier | TString => bind (parse_primary f p) (fun r => let '(expr, q) := r in Ok (expr, skip q))
  | TOpenParen => parse_comparison f (skip p)
  | _ => parse_primary f p end.
Proof. reflexivity. Qed.
Lemma primary_S f p : parse_primary (S f) p =
  match tk_type (current p) with
  | TIdentifier =>
    if lenN (split (tk_value (current p))) =? 2 then Ok (NField (tk_value (current p)), p)
    else match option_map tk_type (peek p) with
    | Some TOpenParen => bind (parse_args f p) (fun r => let '(args, q) := r in Ok (NCall (tk_value (current p)) args, q))
    | _ => Ok (NVariable (tk_value (current p)), p)
    end
  | TNumericLiteral => bind (unwrap (parse64 E (tk_value (current p)))) (fun x => Ok (NNumber x, p))
  | TString => Ok (NString (tk_value (current p)), p)
  | TOpenParen =>
    bind (parse_expr f p) (fun r => let '(expr1, q) := r in
    match next q with
    | (None, q) => Ok (expr1, q)
    | (Some op, q) =>
      match tk_type op with
      | TCloseParen | TComma => Ok (expr1, q)
      | o => bind (parse_expr f q) (fun r => let '(expr2, q) := r in Ok (NGrouping expr1 o expr2, q))
      end
    end)
  | _ => Panic
  end.
Proof. reflexivity. Qed.

Lemma bind_mono {A B} (x x' : outcome A) (g g' : A -> outcome B) :
  (x <> NoFuel -> x' = x) -> (forall a, x = Ok a -> g a <> NoFuel -> g' a = g a) -> bind x g <> NoFuel -> bind x' g' = bind x g.
Proof. intros H1 H2 N. destruct x as [a| |]; cbn in *; [rewrite H1 by congruence; cbn; auto|now rewrite H1 by congruence|congruence]. Qed.

Ltac monostep :=
  first
  [ reflexivity
  | match goal with
    | |- bind _ _ <> NoFuel -> _ => apply bind_mono
    | |- (match ?x with _ => _ end) <> NoFuel -> _ => destruct x
    | |- (if ?x then _ else _) <> NoFuel -> _ => destruct x
    | H : forall p, ?g p <> NoFuel -> ?g' p = ?g p |- ?g ?p <> NoFuel -> ?g' ?p = ?g ?p => apply H
    | H : forall n p, ?g n p <> NoFuel -> ?g' n p = ?g n p |- ?g ?n ?p <> NoFuel -> ?g' ?n ?p = ?g ?n ?p => apply H
    | |- forall _, _ => intro
    | |- _ -> _ => intro
    end ].

Lemma mono_all : forall f, all_mono f.
Proof.
  induction f as [|f IH]; unfold all_mono.
  - repeat split; intros; exfalso; auto.
  - destruct IH as (H1 & H2 & H3 & H4 & H5 & H6 & H7 & H8 & H9 & H10 & H11).
    split; [|split; [|split; [|split; [|split; [|split; [|split; [|split; [|split; [|split]]]]]]]]].
    + intros p. rewrite (args_S (S f)), (args_S f). repeat monostep.
    + intros p. rewrite (comparison_S (S f)), (comparison_S f). repeat monostep.
    + intros n p. rewrite (comparison_loop_S (S f)), (comparison_loop_S f). repeat monostep.
    + intros p. rewrite (concatenation_S (S f)), (concatenation_S f). repeat monostep.
    + intros n p. rewrite (concatenation_loop_S (S f)), (concatenation_loop_S f). repeat monostep.
    + intros p. rewrite (expr_S (S f)), (expr_S f). repeat monostep.
    + intros n p. rewrite (expr_loop_S (S f)), (expr_loop_S f). repeat monostep.
    + intros p. rewrite (term_S (S f)), (term_S f). repeat monostep.
    + intros n p. rewrite (term_loop_S (S f)), (term_loop_S f). repeat monostep.
    + intros p. rewrite (factor_S (S f)), (factor_S f). repeat monostep.
    + intros p. rewrite (primary_S (S f)), (primary_S f). repeat monostep.
Qed.
End P.
