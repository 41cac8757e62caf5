(** What the calculation parser reads, and that it ends. *)
From Coq Require Import NArith List Bool Lia Arith.
From Verif Require Import Prelude PreludeFacts CalcModel CalcSpec CalcFacts.
Import ListNotations.
Local Open Scope N_scope.

Lemma sub_refl {A} (l : list A) : subseq l l.
Proof. induction l; constructor; auto. Qed.
Lemma sub_app {A} (a b c d : list A) : subseq a b -> subseq c d -> subseq (a ++ c) (b ++ d).
Proof.
  intros H K. induction H as [l|x a b H IH|x a b H IH]; cbn.
  - induction l; cbn; auto. now constructor.
  - now constructor.
  - now constructor.
Qed.
Lemma sub_app_l {A} (a b c : list A) : subseq a b -> subseq a (b ++ c).
Proof. intros H. rewrite <- (app_nil_r a). apply sub_app; auto. constructor. Qed.
Lemma sub_app_r {A} (a b c : list A) : subseq a c -> subseq a (b ++ c).
Proof. intros H. change a with ([] ++ a). apply sub_app; auto. constructor. Qed.

Section P.
Context (E : fenv).
Notation node := (node (f64 E)).
Notation parse_args := (parse_args E). Notation parse_comparison := (parse_comparison E). Notation comparison_loop := (comparison_loop E).
Notation parse_concatenation := (parse_concatenation E). Notation concatenation_loop := (concatenation_loop E).
Notation parse_expr := (parse_expr E). Notation expr_loop := (expr_loop E). Notation parse_term := (parse_term E).
Notation term_loop := (term_loop E). Notation parse_factor := (parse_factor E). Notation parse_primary := (parse_primary E).

(** ** Starting at an operator *)
Definition starts (t : ttype) : bool :=
  match t with TNumericLiteral | TIdentifier | TString | TOpenParen => true | _ => false end.
Lemma op_primary f p : starts (tk_type (current p)) = false -> forall r, parse_primary f p <> Ok r.
Proof. intros H r. destruct f; [discriminate|]. rewrite primary_S. destruct (tk_type (current p)); discriminate. Qed.
Lemma op_factor f p : starts (tk_type (current p)) = false -> forall r, parse_factor f p <> Ok r.
Proof.
  intros H r. destruct f; [discriminate|]. rewrite factor_S. pose proof (op_primary f p H r) as K.
  destruct (tk_type (current p)); try discriminate; auto.
Qed.
Lemma op_term f p : starts (tk_type (current p)) = false -> forall r, parse_term f p <> Ok r.
Proof.
  intros H r. destruct f; [discriminate|]. rewrite term_S. intros K. apply bind_ok in K as (a & K & _). now apply op_factor in K.
Qed.
Lemma op_expr f p : starts (tk_type (current p)) = false -> forall r, parse_expr f p <> Ok r.
Proof.
  intros H r. destruct f; [discriminate|]. rewrite expr_S. intros K. apply bind_ok in K as (a & K & _). now apply op_term in K.
Qed.

(** At the last token the loops stop. *)
Lemma end_comparison f n c r : comparison_loop f n (c, []) = Ok r -> r = (n, (c, [])).
Proof. destruct f; [discriminate|]. rewrite comparison_loop_S. cbn [next snd]. intros K. inversion K. reflexivity. Qed.
Lemma end_concatenation f n c r : concatenation_loop f n (c, []) = Ok r -> r = (n, (c, [])).
Proof.
  destruct f; [discriminate|]. rewrite concatenation_loop_S. cbn [current fst]. change (skip (c, [])) with (c, @nil token).
  destruct (tk_type c) eqn:Ec; try (intros K; inversion K; reflexivity). intros K. apply bind_ok in K as (a & K & _).
  exfalso. revert K. apply op_expr. cbn. now rewrite Ec.
Qed.
Lemma end_expr f n c r : expr_loop f n (c, []) = Ok r -> r = (n, (c, [])).
Proof.
  destruct f; [discriminate|]. rewrite expr_loop_S. cbn [current fst]. change (skip (c, [])) with (c, @nil token).
  destruct (is_sum (tk_type c)) eqn:Ec; [|intros K; inversion K; reflexivity]. intros K. apply bind_ok in K as (a & K & _).
  exfalso. revert K. apply op_term. cbn. destruct (tk_type c); try discriminate; reflexivity.
Qed.
Lemma end_term f n c r : term_loop f n (c, []) = Ok r -> r = (n, (c, [])).
Proof.
  destruct f; [discriminate|]. rewrite term_loop_S. cbn [current fst]. change (skip (c, [])) with (c, @nil token).
  destruct (is_prod (tk_type c)) eqn:Ec; [|intros K; inversion K; reflexivity]. intros K. apply bind_ok in K as (a & K & _).
  exfalso. revert K. apply op_factor. cbn. destruct (tk_type c); try discriminate; reflexivity.
Qed.

(** ** What has been read *)
Definition rem (p : pos) : list token := fst p :: snd p.
(** From [p] to [p'] the tokens [used] were read; at the end of the input the last one stays in place. *)
Definition eats (p : pos) (used : list token) (p' : pos) : Prop := rem p = used ++ rem p' \/ (rem p = used /\ snd p' = []).

Definition reads (p : pos) (r : node * pos) : Prop :=
  exists ys used, yields E (fst r) ys /\ subseq ys used /\ eats p used (snd r).
Definition goes_on (lhs : node) (p : pos) (r : node * pos) : Prop :=
  forall yl, yields E lhs yl -> exists ys used, yields E (fst r) (yl ++ ys) /\ subseq ys used /\ rem p = used ++ rem (snd r) \/
    yields E (fst r) (yl ++ ys) /\ subseq ys used /\ rem p = used /\ snd (snd r) = [] /\ snd p <> [].
Definition reads_args (p : pos) (r : list node * pos) : Prop :=
  snd p <> [] -> fst r <> [] /\ exists ys used, yields_all E (fst r) ys /\ subseq ys used /\
    (snd p = used ++ rem (snd r) \/ (snd p = used /\ snd (snd r) = [])).

Lemma reads_loop p q lhs r : reads p (lhs, q) -> goes_on lhs q r -> (snd q = [] -> r = (lhs, q)) -> reads p r.
Proof.
  intros (ys & used & Hy & Hs & He) G Hend. cbn [fst snd] in *. destruct (snd q) as [|t l] eqn:Eq.
  - rewrite Hend by auto. exists ys, used. auto.
  - destruct (G _ Hy) as (ys' & used' & [(G1 & G2 & G3)|(G1 & G2 & G3 & G4 & G5)]).
    + exists (ys ++ ys'), (used ++ used'). split; auto. split; [now apply sub_app|]. left.
      destruct He as [He|[_ He]]; [|congruence]. rewrite He, G3, app_assoc. reflexivity.
    + exists (ys ++ ys'), (used ++ used'). split; auto. split; [now apply sub_app|]. right. split; auto.
      destruct He as [He|[_ He]]; [|congruence]. now rewrite He, G3.
Qed.

(** One operator, an operand, and the rest of the loop. *)
Lemma loop_step op o l (mk : node -> node -> node) lhs rhs q r :
  (forall a ya yb, yields E a ya -> forall b, yields E b yb -> yields E (mk a b) (ya ++ op :: yb)) ->
  reads (o, l) (rhs, q) -> goes_on (mk lhs rhs) q r -> (snd q = [] -> r = (mk lhs rhs, q)) ->
  goes_on lhs (op, o :: l) r.
Proof.
  intros M (ys & used & Hy & Hs & He) G Hend yl Hl. cbn [fst snd] in *.
  pose proof (M _ _ _ Hl _ Hy) as Hm. destruct (snd q) as [|t m] eqn:Eq.
  - rewrite Hend by auto. exists (op :: ys), (op :: used). destruct He as [He|[He1 He2]].
    + left. split; auto. split; [now constructor|]. cbn [fst snd]. unfold rem in *. cbn [fst snd] in *. now rewrite He.
    + right. split; auto. split; [now constructor|]. cbn [fst snd]. unfold rem in *. cbn [fst snd] in *.
      split; [now rewrite He1|]. split; [auto|discriminate].
  - destruct He as [He|[_ He]]; [|congruence].
    destruct (G _ Hm) as (ys' & used' & [(G1 & G2 & G3)|(G1 & G2 & G3 & G4 & G5)]).
    + exists (op :: ys ++ ys'), (op :: used ++ used'). left. rewrite <- app_assoc in G1. split; auto.
      split; [constructor; now apply sub_app|]. unfold rem in *. cbn [fst snd] in *. cbn. f_equal. rewrite He, G3, app_assoc. reflexivity.
    + exists (op :: ys ++ ys'), (op :: used ++ used'). right. rewrite <- app_assoc in G1. split; auto.
      split; [constructor; now apply sub_app|]. unfold rem in *. cbn [fst snd] in *. cbn. split; [now rewrite He, G3|].
      split; [auto|discriminate].
Qed.

Lemma goes_nothing lhs p : goes_on lhs p (lhs, p).
Proof. intros yl Hl. exists [], []. left. rewrite app_nil_r. split; auto. split; [constructor|reflexivity]. Qed.
Lemma goes_one lhs c t l : goes_on lhs (c, t :: l) (lhs, (t, l)).
Proof. intros yl Hl. exists [], [c]. left. rewrite app_nil_r. split; auto. split; [constructor|reflexivity]. Qed.

Lemma reads_skip p e q : reads p (e, q) -> reads p (e, skip q).
Proof.
  intros (ys & used & Hy & Hs & He). destruct q as [c [|t l]]; [exists ys, used; auto|].
  cbn [fst snd] in *. destruct He as [He|[_ He]]; [|discriminate].
  exists ys, (used ++ [c]). split; auto. split; [now apply sub_app_l|]. left. unfold rem in *. cbn in *. now rewrite <- app_assoc.
Qed.

Definition all_read (f : nat) : Prop :=
  (forall p r, parse_args f p = Ok r -> reads_args p r) /\
  (forall p r, parse_comparison f p = Ok r -> reads p r) /\
  (forall n p r, comparison_loop f n p = Ok r -> goes_on n p r) /\
  (forall p r, parse_concatenation f p = Ok r -> reads p r) /\
  (forall n p r, concatenation_loop f n p = Ok r -> goes_on n p r) /\
  (forall p r, parse_expr f p = Ok r -> reads p r) /\
  (forall n p r, expr_loop f n p = Ok r -> goes_on n p r) /\
  (forall p r, parse_term f p = Ok r -> reads p r) /\
  (forall n p r, term_loop f n p = Ok r -> goes_on n p r) /\
  (forall p r, parse_factor f p = Ok r -> reads p r) /\
  (forall p r, tk_type (current p) <> TOpenParen -> parse_primary f p = Ok r ->
     exists ys used, yields E (fst r) ys /\ subseq ys used /\
       ((rem p = used ++ snd p /\ snd r = p) \/ eats p used (snd r))).

Lemma read_all : forall f, all_read f.
Proof.
  induction f as [|f IH].
  - unfold all_read. repeat split; intros; discriminate.
  - destruct IH as (H1 & H2 & H3 & H4 & H5 & H6 & H7 & H8 & H9 & H10 & H11). unfold all_read.
    split; [|split; [|split; [|split; [|split; [|split; [|split; [|split; [|split; [|split]]]]]]]]].
    + intros p r K. rewrite args_S in K. apply bind_ok in K as ([arg q] & K1 & K2). intros Hp.
      destruct p as [c [|t l]]; cbn [snd] in Hp; [congruence|]. change (skip (c, t :: l)) with (t, l) in K1.
      destruct (H6 _ _ K1) as (ys & used & Hy & Hs & He). cbn [fst snd] in *.
      assert (K2' : r = ([arg], q) \/ exists args q', parse_args f q = Ok (args, q') /\ tk_type (current q) = TComma /\ r = (arg :: args, q')).
      { destruct (tk_type (current q)); try (left; congruence). right. apply bind_ok in K2 as ([args q'] & K2 & K3).
        exists args, q'. split; auto. split; auto. congruence. }
      destruct K2' as [->|(args & q' & K3 & Kc & ->)].
      * split; [discriminate|]. exists (ys ++ []), used. cbn [fst snd]. rewrite app_nil_r. split; [|auto].
        rewrite <- (app_nil_r ys). repeat constructor. auto.
      * destruct q as [cq [|tq lq]].
        -- exfalso. clear - K3 Kc. destruct f; [discriminate|]. rewrite args_S in K3. change (skip (cq, [])) with (cq, @nil token) in K3.
           apply bind_ok in K3 as (a & K3 & _). revert K3. apply op_expr. cbn in *. now rewrite Kc.
        -- destruct He as [He|[_ He]]; [|discriminate].
           destruct (H1 _ _ K3) as (Ha & ys' & used' & Hy' & Hs' & He'); [discriminate|]. cbn [fst snd] in *.
           split; [discriminate|]. exists (ys ++ ys'), (used ++ cq :: used'). split; [now constructor|].
           split; [apply sub_app; auto; now constructor|]. unfold rem in *. cbn [fst snd] in *. rewrite He.
           destruct He' as [He'|[He' Hn]]; [left|right]; rewrite He'.
           ++ now rewrite <- app_assoc.
           ++ auto.
    + intros p r K. rewrite comparison_S in K. apply bind_ok in K as ([lhs q] & K1 & K2).
      apply (reads_loop p q lhs r); eauto. intros Hq. destruct q as [c l]. cbn in Hq. subst l. eapply end_comparison; eauto.
    + intros n p r K. rewrite comparison_loop_S in K. destruct p as [c [|t l]]; cbn [next snd] in K.
      * assert (r = (n, (c, []))) by (inversion K; reflexivity). subst r. apply goes_nothing.
      * destruct (is_cmp (tk_type (current (c, t :: l)))) eqn:Ec.
        -- apply bind_ok in K as ([rhs q] & K1 & K2). cbn [current fst] in *.
           apply (loop_step c t l (fun a b => NCompare a (tk_type c) b) n rhs q r); eauto.
           ++ intros a ya yb Ha b Hb. constructor; auto. destruct (tk_type c); try discriminate; cbn; tauto.
           ++ intros Hq. destruct q as [cq lq]. cbn in Hq. subst lq. eapply end_comparison; eauto.
        -- assert (r = (n, (t, l))) by (inversion K; reflexivity). subst r. apply goes_one.
    + intros p r K. rewrite concatenation_S in K. apply bind_ok in K as ([lhs q] & K1 & K2).
      apply (reads_loop p q lhs r); eauto. intros Hq. destruct q as [c l]. cbn in Hq. subst l. eapply end_concatenation; eauto.
    + intros n p r K. destruct p as [c [|t l]].
      * apply end_concatenation in K. subst r. apply goes_nothing.
      * rewrite concatenation_loop_S in K. change (skip (c, t :: l)) with (t, l) in K. cbn [current fst] in K.
        destruct (tk_type c) eqn:Ec; try (assert (r = (n, (c, t :: l))) by (inversion K; reflexivity); subst r; apply goes_nothing).
        apply bind_ok in K as ([rhs q] & K1 & K2).
        apply (loop_step c t l (fun a b => NConcat a b) n rhs q r); eauto.
        -- intros a ya yb Ha b Hb. now constructor.
        -- intros Hq. destruct q as [cq lq]. cbn in Hq. subst lq. eapply end_concatenation; eauto.
    + intros p r K. rewrite expr_S in K. apply bind_ok in K as ([lhs q] & K1 & K2).
      apply (reads_loop p q lhs r); eauto. intros Hq. destruct q as [c l]. cbn in Hq. subst l. eapply end_expr; eauto.
    + intros n p r K. destruct p as [c [|t l]].
      * apply end_expr in K. subst r. apply goes_nothing.
      * rewrite expr_loop_S in K. change (skip (c, t :: l)) with (t, l) in K. cbn [current fst] in K.
        destruct (is_sum (tk_type c)) eqn:Ec; [|assert (r = (n, (c, t :: l))) by (inversion K; reflexivity); subst r; apply goes_nothing].
        apply bind_ok in K as ([rhs q] & K1 & K2).
        apply (loop_step c t l (fun a b => NBinary a (tk_type c) b) n rhs q r); eauto.
        -- intros a ya yb Ha b Hb. constructor; auto. destruct (tk_type c); try discriminate; cbn; tauto.
        -- intros Hq. destruct q as [cq lq]. cbn in Hq. subst lq. eapply end_expr; eauto.
    + intros p r K. rewrite term_S in K. apply bind_ok in K as ([lhs q] & K1 & K2).
      apply (reads_loop p q lhs r); eauto. intros Hq. destruct q as [c l]. cbn in Hq. subst l. eapply end_term; eauto.
    + intros n p r K. destruct p as [c [|t l]].
      * apply end_term in K. subst r. apply goes_nothing.
      * rewrite term_loop_S in K. change (skip (c, t :: l)) with (t, l) in K. cbn [current fst] in K.
        destruct (is_prod (tk_type c)) eqn:Ec; [|assert (r = (n, (c, t :: l))) by (inversion K; reflexivity); subst r; apply goes_nothing].
        apply bind_ok in K as ([rhs q] & K1 & K2).
        apply (loop_step c t l (fun a b => NBinary a (tk_type c) b) n rhs q r); eauto.
        -- intros a ya yb Ha b Hb. constructor; auto. destruct (tk_type c); try discriminate; cbn; tauto.
        -- intros Hq. destruct q as [cq lq]. cbn in Hq. subst lq. eapply end_term; eauto.
    + intros p r K. rewrite factor_S in K.
      destruct (starts (tk_type (current p))) eqn:Es; [|exfalso; destruct (tk_type (current p)) eqn:Ep; try discriminate;
        (revert K; apply op_primary; now rewrite Ep)].
      destruct (tk_type (current p)) eqn:Ep; try discriminate.
      1: { destruct p as [c [|t l]]; [exfalso|].
           - change (skip (c, [])) with (c, @nil token) in K. clear - K Ep. cbn [current fst] in Ep.
             assert (X : forall f, (forall r, parse_comparison f (c, []) <> Ok r) /\ (forall r, parse_concatenation f (c, []) <> Ok r) /\
               (forall r, parse_expr f (c, []) <> Ok r) /\ (forall r, parse_term f (c, []) <> Ok r) /\ (forall r, parse_factor f (c, []) <> Ok r)).
             { clear - Ep. induction f as [|f (A1 & A2 & A3 & A4 & A5)]; [repeat split; discriminate|].
               split; [|split; [|split; [|split]]]; intros r.
               - rewrite comparison_S. intros K. apply bind_ok in K as (a & K & _). now apply A2 in K.
               - rewrite concatenation_S. intros K. apply bind_ok in K as (a & K & _). now apply A3 in K.
               - rewrite expr_S. intros K. apply bind_ok in K as (a & K & _). now apply A4 in K.
               - rewrite term_S. intros K. apply bind_ok in K as (a & K & _). now apply A5 in K.
               - rewrite factor_S. cbn [current fst]. rewrite Ep. apply A1. }
             now apply (proj1 (X f)) in K.
           - change (skip (c, t :: l)) with (t, l) in K. destruct (H2 _ _ K) as (ys & used & Hy & Hs & He).
             exists ys, (c :: used). split; auto. split; [now constructor|]. unfold eats, rem in *. cbn [fst snd] in *.
             destruct He as [He|[He1 He2]]; [left|right]; [now rewrite He|rewrite He1; auto]. }
      all: apply bind_ok in K as ([e q] & K1 & K2); assert (Er : r = (e, skip q)) by congruence; subst r; clear K2.
      all: destruct (H11 p (e, q)) as (ys & used & Hy & Hs & He); [congruence|auto|]; cbn [fst snd] in *.
      all: destruct He as [[He1 He2]|He]; [|apply reads_skip; exists ys, used; auto].
      all: subst q; exists ys, used; cbn [fst snd]; split; auto; split; auto; destruct p as [c [|t l]]; unfold eats, rem in *; cbn in *.
      all: try (right; split; [rewrite app_nil_r in He1; exact He1|reflexivity]).
      all: left; exact He1.
    + intros p r Hp K. rewrite primary_S in K. destruct p as [[ty v] l]. cbn [current fst tk_type tk_value] in *.
      destruct ty; try discriminate; try congruence.
      * destruct (lenN (split v) =? 2).
        -- inversion K; subst. exists [mkTok TIdentifier v], [mkTok TIdentifier v]. split; [constructor|]. split; [apply sub_refl|]. left. auto.
        -- assert (K' : (exists args q, parse_args f (mkTok TIdentifier v, l) = Ok (args, q) /\ r = (NCall v args, q) /\ l <> []) \/
                        r = (NVariable v, (mkTok TIdentifier v, l))).
           { destruct l as [|[t' v'] l']; cbn in K; [right; inversion K; reflexivity|].
             destruct t'; try (right; inversion K; reflexivity). left. apply bind_ok in K as ([args q] & K1 & K2). exists args, q.
             split; auto. split; [inversion K2; reflexivity|discriminate]. }
           destruct K' as [(args & q & K1 & Kr & Hl)|Kr]; subst r.
           ++ destruct (H1 _ _ K1 Hl) as (Ha & ys & used & Hy & Hs & He). cbn [fst snd] in *.
              exists (mkTok TIdentifier v :: ys), (mkTok TIdentifier v :: used). split; [now constructor|]. split; [now constructor|].
              right. unfold eats, rem in *. cbn [fst snd] in *. destruct He as [He|[He1 He2]]; [left|right]; [now rewrite He|rewrite He1; auto].
           ++ exists [mkTok TIdentifier v], [mkTok TIdentifier v]. split; [constructor|]. split; [apply sub_refl|]. left. auto.
      * apply bind_ok in K as (x & K1 & K2). apply unwrap_ok in K1. inversion K2; subst.
        exists [mkTok TNumericLiteral v], [mkTok TNumericLiteral v]. split; [now constructor|]. split; [apply sub_refl|]. left. auto.
      * inversion K; subst. exists [mkTok TString v], [mkTok TString v]. split; [constructor|]. split; [apply sub_refl|]. left. auto.
Qed.

Theorem parse_yields f ts n : parse E f ts = Ok n -> exists ys, yields E n ys /\ subseq ys ts.
Proof.
  destruct ts as [|t l]; [discriminate|]. cbn [parse]. intros K. apply bind_ok in K as ([m q] & K1 & K2).
  assert (m = n) by (inversion K2; reflexivity). subst m. destruct (proj1 (proj2 (read_all f)) _ _ K1) as (ys & used & Hy & Hs & He).
  exists ys. split; auto. unfold eats, rem in He. cbn [fst snd] in *. destruct He as [He|[He _]]; rewrite He; [now apply sub_app_l|auto].
Qed.

(** No odd nodes. *)
Lemma yields_plain : forall n ys, yields E n ys -> ~ odd_node E n.
Proof.
  fix IH 3. intros n ys Y. destruct Y as [| | | |l o r a b Y1 _ Y2|l o r a b Y1 _ Y2|l o r a b Y1 _ Y2|g args ts Y1 _]; intros O;
    inversion O as [| |? ? ? O1|? ? ? O1|? ? O1|? ? O1|? ? ? O1|? ? ? O1|? ? m Hin O1].
  1,3,5: exact (IH _ _ Y1 O1).
  1,2,3: exact (IH _ _ Y2 O1).
  clear O. subst. revert args ts Y1 Hin. fix IHl 3. intros args ts Y Hin. destruct Y as [|k a ns b Y1 Y2]; [destruct Hin|].
  destruct Hin as [Ek|Hin]; [rewrite <- Ek in O1; exact (IH _ _ Y1 O1)|exact (IHl _ _ Y2 Hin)].
Qed.
End P.
