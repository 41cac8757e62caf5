(** Where texts that cannot be read break off. *)
From Coq Require Import Ascii String NArith List Bool Arith Lia.
From Verif Require Import Prelude PreludeFacts InstrModel ComponentModel CalcModel BurnModel VmSpec BurnSpec BurnLex BurnParse ScriptsSpec Scripts GripeModel GripeSpec Gripe HaltSpec.
Import ListNotations.
Local Open Scope N_scope.

(** ** Scripts *)
Lemma switches_stuck stop op : stop <> BArgument -> forall ts sw, parse_switches stop op ts sw = Panic <->
  exists vs x ts', ts = args vs ++ x :: ts' /\ ~ kind_in [BArgument; stop] x.
Proof.
  intros Hs. induction ts as [|t ts IH]; intros sw.
  - split; [discriminate|]. intros ([|v vs] & x & ts' & H & _); discriminate.
  - destruct t as [ty v]. destruct (btype_eqb ty BArgument) eqn:Ea.
    + apply btype_eqb_eq in Ea. subst ty. cbn [parse_switches bt_type bt_value]. rewrite IH. split.
      * intros (vs & x & ts' & -> & K). exists (v :: vs), x, ts'. auto.
      * intros ([|v' vs] & x & ts' & H & K); cbn in H; inversion H; subst.
        -- elim K. now left.
        -- exists vs, x, ts'. auto.
    + assert (Hq : parse_switches stop op (mkBtok ty v :: ts) sw = if btype_eqb ty stop then Ok ([mkStep op 0 sw], ts) else Panic)
        by (destruct ty; try reflexivity; discriminate).
      rewrite Hq. apply btype_eqb_neq in Ea. destruct (btype_eqb ty stop) eqn:Es.
      * split; [discriminate|]. apply btype_eqb_eq in Es. subst. intros ([|v' vs] & x & ts' & H & K); cbn in H; inversion H; subst; [|congruence].
        elim K. cbn. auto.
      * apply btype_eqb_neq in Es. split; [|reflexivity]. intros _. exists [], (mkBtok ty v), ts. split; [reflexivity|]. unfold kind_in. cbn. intuition congruence.
Qed.
Lemma first_stuck {A} l (x : griping A) g : first l x = (g, Panic) -> exists g', x = (g', Panic) /\ g = l ++ g'.
Proof. destruct x as [g' r]. unfold first. cbn. intros H. inversion H; subst. eauto. Qed.
Lemma body_halts : forall f ts o acc g, body_told f ts (map ins o) acc = (g, Panic) -> body_breaks o ts g.
Proof.
  induction f as [|f IH]; intros ts o acc g H; [discriminate|]. destruct ts as [|t ts]; [discriminate|]. cbn [body_told] in H.
  assert (Skip : ~ kind_in [BIdentifier; BCloseBracket; BLoop; BElse; BIf; BElif; BOpenBracket] t -> first [GToken t] (body_told f ts (map ins o) acc) = (g, Panic) -> body_breaks o (t :: ts) g).
  { intros K G. apply first_stuck in G as (g' & G & ->). apply IH in G. eapply BbMore; [now apply PsOther|exact G]. }
  assert (Pass : forall o' ts' acc', passes o (t :: ts) [] o' ts' -> body_told f ts' (map ins o') acc' = (g, Panic) -> body_breaks o (t :: ts) g).
  { intros o' ts' acc' P G. apply IH in G. change g with ([] ++ g). eapply BbMore; eauto. }
  unfold kind_in in Skip. destruct (bt_type t) eqn:Et; try (apply Skip; auto; cbn; intuition discriminate); clear Skip.
  - destruct (instr_from_str (bt_value t)) as [op|] eqn:Ei.
    + apply words_spec in Ei. destruct (switches_any BSemiColon op ltac:(discriminate) ts []) as [(vs & -> & S)|[(vs & z & ts' & -> & K & S)|S]]; rewrite S in H.
      * destruct f; discriminate.
      * eapply Pass; eauto. eapply PsStep; eauto.
      * inversion H; subst. apply BbHere. apply switches_stuck in S as (vs & x & ts' & -> & K); [|discriminate]. eapply UnStep; eauto.
    + apply first_stuck in H as (g' & G & ->). apply IH in G. eapply BbMore; [apply PsUnknown|exact G]; auto. intros op (k & Hi & Hk). eapply (proj1 (words_none _) Ei); eauto.
  - eapply Pass; eauto. now apply PsBare.
  - destruct o as [|b o]; [discriminate|]. cbn [map] in *. fold (goes_on ts) in *. destruct (goes_on ts) eqn:G.
    + eapply (Pass (b :: o)); eauto. apply PsBranch; auto. now apply goes_on_spec.
    + assert (N : ~ continues ts) by (rewrite <- goes_on_spec; congruence). destruct b; cbn [ins] in *; (eapply Pass; [now apply PsClose|eauto]).
  - destruct ts as [|c ts]; [inversion H; subst; apply BbHere, UnLone; unfold kind_in; rewrite Et; cbn; auto|]. destruct (btype_eqb (bt_type c) BOpenBracket) eqn:E; [|discriminate].
    apply btype_eqb_eq in E. change (ILoop :: map ins o) with (map ins (InLoop :: o)) in *. eapply Pass; [now apply PsLoop|eauto].
  - destruct (switches_any BOpenBracket IIf ltac:(discriminate) ts []) as [(vs & -> & S)|[(vs & z & ts' & -> & K & S)|S]]; rewrite S in H.
    + destruct f; discriminate.
    + change (IIf :: map ins o) with (map ins (InIf :: o)) in *. eapply Pass; [now apply PsIf|eauto].
    + inversion H; subst. apply BbHere. apply switches_stuck in S as (vs & x & ts' & -> & K); [|discriminate]. apply UnCondition; auto. unfold kind_in. rewrite Et. cbn. auto.
  - destruct (switches_any BOpenBracket IElseIf ltac:(discriminate) ts []) as [(vs & -> & S)|[(vs & z & ts' & -> & K & S)|S]]; rewrite S in H.
    + destruct f; discriminate.
    + eapply Pass; [now apply PsElif|eauto].
    + inversion H; subst. apply BbHere. apply switches_stuck in S as (vs & x & ts' & -> & K); [|discriminate]. apply UnCondition; auto. unfold kind_in. rewrite Et. cbn. auto.
  - destruct ts as [|c ts]; [inversion H; subst; apply BbHere, UnLone; unfold kind_in; rewrite Et; cbn; auto|]. destruct (btype_eqb (bt_type c) BOpenBracket) eqn:E; [|discriminate].
    apply btype_eqb_eq in E. eapply Pass; [now apply PsElse|eauto].
Qed.
(** The error about an invalid scope signifier never occurs. *)
Lemma body_no_error : forall f ts o acc e, snd (body_told f ts (map ins o) acc) <> Ok (RErr e).
Proof.
  induction f as [|f IH]; intros ts o acc e; [discriminate|]. destruct ts as [|t ts]; [discriminate|]. cbn [body_told].
  destruct (bt_type t); cbn [first snd]; try apply IH.
  - destruct (instr_from_str _); [|apply IH]. destruct (parse_switches _ _ _ _) as [[st ts']| |]; try discriminate. apply IH.
  - destruct o as [|b o]; [discriminate|]. cbn [map]. fold (goes_on ts). destruct (goes_on ts); [apply (IH ts (b :: o))|]. destruct b; apply IH.
  - destruct ts as [|c ts]; [discriminate|]. destruct (btype_eqb _ _); [|discriminate]. apply (IH ts (InLoop :: o)).
  - destruct (parse_switches _ _ _ _) as [[st ts']| |]; try discriminate. apply (IH ts' (InIf :: o)).
  - destruct (parse_switches _ _ _ _) as [[st ts']| |]; try discriminate. apply IH.
  - destruct ts as [|c ts]; [discriminate|]. destruct (btype_eqb _ _); [|discriminate]. apply IH.
Qed.
Lemma passes_tells o ts g o' ts' : passes o ts g o' ts' -> forall f acc, exists acc', body_told (S f) ts (map ins o) acc = first g (body_told f ts' (map ins o') acc').
Proof.
  assert (F : forall A (x : griping A), x = first [] x) by (intros A [? ?]; reflexivity).
  intros [o0 n op vs z us K Kn Z|o0 n us K U|b o0 c us K C|b o0 c us K C|o0 w b us K B|o0 w b us K B|o0 w vs b us K B|o0 w vs b us K B|o0 t us K|o0 t us K] f acc; unfold kind in *; cbn [body_told].
  - rewrite K. apply words_spec in Kn. rewrite Kn, switches_found by (auto; discriminate). eexists. apply F.
  - rewrite K. destruct (instr_from_str (bt_value n)) as [op|] eqn:Ei; [apply words_spec in Ei; now elim (U op)|]. eexists. reflexivity.
  - rewrite K. cbn [map]. fold (goes_on us). rewrite (proj2 (goes_on_spec us) C). eexists. apply F.
  - rewrite K. cbn [map]. fold (goes_on us). rewrite (goes_off _ C). destruct b; cbn [ins]; eexists; apply F.
  - rewrite K, B. cbn [btype_eqb]. eexists. apply (F _ (body_told f us (map ins (InLoop :: o0)) _)).
  - rewrite K, B. cbn [btype_eqb]. eexists. apply F.
  - rewrite K, switches_found by (auto; discriminate). eexists. apply (F _ (body_told f us (map ins (InIf :: o0)) _)).
  - rewrite K, switches_found by (auto; discriminate). eexists. apply F.
  - rewrite K. eexists. apply F.
  - exists acc. unfold kind_in in K. destruct (bt_type t); try reflexivity; elim K; cbn; auto 10.
Qed.
Lemma passes_shorter o ts g o' ts' : passes o ts g o' ts' -> (length ts' < length ts)%nat.
Proof. intros []; cbn [length]; rewrite ?app_length; cbn [length]; lia. Qed.
Lemma body_tells o ts g : body_breaks o ts g -> forall f acc, (length ts < f)%nat -> body_told f ts (map ins o) acc = (g, Panic).
Proof.
  induction 1 as [o ts U|o ts g o' ts' g' P B IH]; intros f acc L; (destruct f as [|f]; [lia|]).
  - destruct U as [w K|n op vs x us K Kn Kx|w vs x us K Kx]; cbn [body_told]; unfold kind in *.
    + destruct K as [K|[K|[]]]; rewrite <- K; reflexivity.
    + rewrite K. apply words_spec in Kn. rewrite Kn. replace (parse_switches BSemiColon op (args vs ++ x :: us) []) with (@Panic (list step * list btoken)); [reflexivity|]. symmetry. apply switches_stuck; [discriminate|eauto].
    + assert (Q : forall op, parse_switches BOpenBracket op (args vs ++ x :: us) [] = Panic) by (intros op; apply switches_stuck; [discriminate|eauto]).
      destruct K as [K|[K|[]]]; rewrite <- K, Q; reflexivity.
  - destruct (passes_tells _ _ _ _ _ P f acc) as (acc' & ->). apply passes_shorter in P. rewrite IH by lia. reflexivity.
Qed.
(** The text. *)
Lemma text_halts : forall f ts o acc g, scripts_told f ts (map ins o) acc = (g, Panic) -> text_breaks o ts g.
Proof.
  induction f as [|f IH]; intros ts o acc g H; [discriminate|]. destruct ts as [|t ts]; [discriminate|]. cbn [scripts_told] in H.
  destruct (btype_eqb (bt_type t) BDefine) eqn:E.
  - apply btype_eqb_eq in E. rewrite E in H. destruct ts as [|p ts]; [inversion H; subst; now apply XbDefine|]. rewrite parameters_snd in H. destruct (head_any ts []) as (head & ps & P & G & Q).
    destruct Q as [(-> & Q)|(b & r & -> & K & Q)]; rewrite Q in H; cbn [app] in H.
    + cbn [length body_told fst snd app] in H. apply first_stuck in H as (g' & H & ->). destruct f; discriminate.
    + apply first_stuck in H as (g' & H & ->). pose proof (body_gripes (S (length r)) r o []) as BG. rewrite <- body_snd in BG.
      destruct (body_told (S (length r)) r (map ins o) []) as [gb [[[[steps punc] r']|e]| |]] eqn:B; cbn [fst snd] in *; try discriminate.
      * destruct (BG _ _ _ eq_refl) as (l & o' & -> & -> & S). apply IH in H. rewrite <- app_assoc. eapply XbScript; eauto.
      * inversion H; subst. rewrite app_nil_r. apply body_halts in B. now apply XbBody.
  - apply btype_eqb_neq in E. assert (G : first [GBetween] (scripts_told f ts (map ins o) acc) = (g, Panic)) by (destruct (bt_type t); auto; congruence).
    apply first_stuck in G as (g' & G & ->). apply IH in G. now apply XbOther.
Qed.
Lemma text_no_error : forall f ts o acc e, snd (scripts_told f ts (map ins o) acc) <> Ok (RErr e).
Proof.
  induction f as [|f IH]; intros ts o acc e; [discriminate|]. destruct ts as [|t ts]; [discriminate|]. cbn [scripts_told].
  destruct (bt_type t); try (cbn [first snd]; apply IH). destruct ts as [|p ts]; [discriminate|]. rewrite parameters_snd. destruct (parse_parameters ts []) as [ps r]. cbn [first snd].
  pose proof (body_gripes (S (length r)) r o []) as BG. rewrite <- body_snd in BG. pose proof (body_no_error (S (length r)) r o []) as NE.
  destruct (body_told (S (length r)) r (map ins o) []) as [gb [[[[steps punc] r']|e']| |]]; cbn [snd] in *; try discriminate.
  - destruct (BG _ _ _ eq_refl) as (l & o' & _ & -> & S). apply IH.
  - now elim (NE e').
Qed.
Lemma body_left o ts l g o' r : body_says o ts l g o' r -> (length r <= length ts)%nat.
Proof. induction 1; cbn [length] in *; rewrite ?app_length; cbn [length]; lia. Qed.
Lemma text_tells o ts g : text_breaks o ts g -> forall f acc, (length ts < f)%nat -> scripts_told f ts (map ins o) acc = (g, Panic).
Proof.
  induction 1 as [o d K|o d n head gh b ts g K H Kb B|o t ts g K T IH|o d n head gh b ts l gb o' r g K H Kb B T IH]; intros f acc L; (destruct f as [|f]; [lia|]); cbn [scripts_told]; unfold kind in *.
  - now rewrite K.
  - rewrite K. rewrite parameters_snd. destruct (head_back head gh H b ts [] Kb) as [Hg _]. rewrite Hg.
    assert (Q : exists ps, parse_parameters (head ++ b :: ts) [] = (ps, ts)).
    { clear - H Kb. generalize (@nil (list N)). induction H as [|t us g Hf H IH|t us g Hf H IH]; intros acc; cbn [app parse_parameters].
      - rewrite Kb. eauto.
      - unfold kind_in in Hf. cbn in Hf. destruct Hf as [Hf|[Hf|[Hf|[Hf|[]]]]]; rewrite <- Hf; apply IH.
      - unfold kind_in in Hf. cbn in Hf. destruct (bt_type t); try apply IH; exfalso; apply Hf; auto 10. }
    destruct Q as (ps & ->). rewrite (body_tells _ _ _ B) by lia. cbn [fst snd first]. unfold first. cbn [fst snd]. now rewrite app_nil_r.
  - cbn [length] in L. assert (Q : first [GBetween] (scripts_told f ts (map ins o) acc) = (GBetween :: g, Panic)) by (rewrite IH by lia; reflexivity).
    destruct (bt_type t); try exact Q. now elim K.
  - rewrite K. rewrite parameters_snd. destruct (head_back head gh H b ts [] Kb) as [Hg _]. rewrite Hg.
    assert (Q : exists ps, parse_parameters (head ++ b :: ts) [] = (ps, ts)).
    { clear - H Kb. generalize (@nil (list N)). induction H as [|t us g Hf H IH|t us g Hf H IH]; intros acc; cbn [app parse_parameters].
      - rewrite Kb. eauto.
      - unfold kind_in in Hf. cbn in Hf. destruct Hf as [Hf|[Hf|[Hf|[Hf|[]]]]]; rewrite <- Hf; apply IH.
      - unfold kind_in in Hf. cbn in Hf. destruct (bt_type t); try apply IH; exfalso; apply Hf; auto 10. }
    destruct Q as (ps & ->). rewrite (body_back _ _ _ _ _ _ B) by lia. rewrite body_snd, (body_bwd _ _ _ _ _ (body_rules _ _ _ _ _ _ B)) by lia. cbn [fst snd]. cbn [length] in L. rewrite app_length in L. cbn [length] in L.
    apply body_left in B. rewrite IH by lia. unfold first. cbn [fst snd]. now rewrite app_assoc.
Qed.
Theorem script_halts E code g : compile_told E code = (g, Panic) <-> script_breaks E code g.
Proof.
  unfold compile_told, script_breaks. destruct (get_tokens E code) as [ts| |] eqn:G.
  - apply tokens_exact in G. split.
    + intros H. right. exists ts. split; [exact G|]. pose proof (text_no_error (S (length ts)) ts [] []) as NE. cbn [map] in NE.
      destruct (scripts_told (S (length ts)) ts [] []) as [g' [[l|e]| |]] eqn:S; cbn [fst snd] in *; inversion H; subst; [now elim (NE e)|]. now apply (text_halts _ _ [] _ _ S).
    + intros [[N _]|(ts' & R & T)]; [now elim (N ts)|]. assert (ts' = ts) as -> by (apply tokens_exact in G, R; congruence).
      pose proof (text_tells _ _ _ T (S (length ts)) []) as Q. cbn [map] in Q. rewrite Q by lia. reflexivity.
  - split.
    + intros H. inversion H; subst. left. split; [|reflexivity]. intros ts R. apply tokens_exact in R. congruence.
    + intros [[_ ->]|(ts' & R & T)]; [reflexivity|]. apply tokens_exact in R. congruence.
  - now apply tokens_fuel in G.
Qed.
