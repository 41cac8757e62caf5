(** The complaints of the script compiler. *)
From Coq Require Import Ascii String NArith List Bool Arith Lia.
From Verif Require Import Prelude PreludeFacts InstrModel ComponentModel CalcModel BurnModel VmSpec BurnSpec BurnLex BurnParse ScriptsSpec Scripts GripeModel GripeSpec.
Import ListNotations.
Local Open Scope N_scope.

(** Without the complaints these are the functions of BurnModel.v. *)
Lemma parameters_snd ts : forall acc, snd (parameters_told ts acc) = parse_parameters ts acc.
Proof. induction ts as [|t ts IH]; intros acc; [reflexivity|]. cbn [parameters_told parse_parameters]. destruct (bt_type t); cbn [snd]; auto. Qed.
Lemma body_snd : forall f ts punc steps, snd (body_told f ts punc steps) = parse_body f ts punc steps.
Proof.
  induction f as [|f IH]; intros ts punc steps; [reflexivity|]. destruct ts as [|t ts]; [reflexivity|]. cbn [body_told parse_body].
  destruct (bt_type t); cbn [first snd]; auto.
  - destruct (instr_from_str (bt_value t)); cbn [first snd]; auto. destruct (parse_switches _ _ _ _) as [[st ts']| |]; cbn [bind]; auto.
  - destruct punc as [|top punc]; auto. destruct (match ts with [] => false | _ => _ end); auto. destruct top; auto.
  - destruct ts as [|c ts]; auto. destruct (btype_eqb _ _); auto.
  - destruct (parse_switches _ _ _ _) as [[st ts']| |]; cbn [bind]; auto.
  - destruct (parse_switches _ _ _ _) as [[st ts']| |]; cbn [bind]; auto.
  - destruct ts as [|c ts]; auto. destruct (btype_eqb _ _); auto.
Qed.
Lemma scripts_snd : forall f ts punc scs, snd (scripts_told f ts punc scs) = parse_scripts f ts punc scs.
Proof.
  induction f as [|f IH]; intros ts punc scs; [reflexivity|]. destruct ts as [|t ts]; [reflexivity|]. cbn [scripts_told parse_scripts].
  destruct (bt_type t); cbn [first snd]; auto. destruct ts as [|p ts]; auto. rewrite parameters_snd. destruct (parse_parameters ts []) as [args ts'].
  cbn [first snd]. rewrite body_snd. destruct (parse_body _ _ _ _) as [[[[steps punc'] r]|e]| |]; cbn [bind snd]; auto.
Qed.
Lemma compile_snd E code : snd (compile_told E code) = compile_burn_script E code.
Proof.
  unfold compile_told, compile_burn_script. destruct (get_tokens E code) as [ts| |]; auto. cbn [bind snd]. rewrite scripts_snd. unfold parse_burn.
  destruct (parse_scripts _ _ _ _) as [[l|e]| |]; reflexivity.
Qed.

(** And the rules are those of ScriptsSpec.v. *)
Lemma body_rules o ts l g o' r : body_says o ts l g o' r -> body_reads o ts l o' r.
Proof.
  induction 1; [constructor|eapply BrStep; eauto|eapply BrStepCut; eauto|apply BrUnknown; auto|now apply BrEnd|apply BrBranch; auto|apply BrClose; auto|apply BrLoop; auto
    |apply BrElse; auto|apply BrBroken; auto|apply BrIf; auto|apply BrIfCut; auto|apply BrElif; auto|apply BrElifCut; auto| |].
  - apply BrOther; auto. unfold kind_in, kind in *. rewrite H. cbn. intuition discriminate.
  - apply BrOther; auto. unfold kind_in in *. cbn in *. tauto.
Qed.
Lemma text_rules o ts scs g : text_says o ts scs g -> scripts_read o ts scs.
Proof. induction 1; [constructor|now constructor| |now constructor]. eapply SsScript; eauto. now apply body_rules in H4. Qed.

Lemma body_gripes : forall f ts o acc steps punc r, parse_body f ts (map ins o) acc = Ok (ROk (steps, punc, r)) ->
  exists l o', steps = acc ++ l /\ punc = map ins o' /\ body_says o ts l (fst (body_told f ts (map ins o) acc)) o' r.
Proof.
  induction f as [|f IH]; intros ts o acc steps punc r H; [discriminate|]. destruct ts as [|t ts]; cbn [parse_body body_told] in *.
  { inversion H; subst. exists [], o. rewrite app_nil_r. repeat split. constructor. }
  assert (Skip : ~ kind_in [BIdentifier; BCloseBracket; BLoop; BElse; BIf; BElif; BOpenBracket] t -> parse_body f ts (map ins o) acc = Ok (ROk (steps, punc, r)) ->
    exists l o', steps = acc ++ l /\ punc = map ins o' /\ body_says o (t :: ts) l (fst (first [GToken t] (body_told f ts (map ins o) acc))) o' r).
  { intros K G. apply IH in G as (l & o' & -> & -> & B). exists l, o'. repeat split. now apply YsOther. }
  unfold kind_in in Skip. destruct (bt_type t) eqn:Et; try (apply Skip; auto; cbn; intuition discriminate); clear Skip.
  - destruct (instr_from_str (bt_value t)) as [op|] eqn:Ei.
    + apply words_spec in Ei. destruct (switches_any BSemiColon op ltac:(discriminate) ts []) as [(vs & -> & S)|[(vs & z & ts' & -> & K & S)|S]]; rewrite S in *; cbn [bind] in H.
      * apply IH in H as (l & o' & -> & -> & B). inversion B; subst. exists [], o'. split; [now rewrite <- app_assoc|]. split; auto. eapply YsStepCut; eauto.
      * apply IH in H as (l & o' & -> & -> & B). exists (mkStep op 0 vs :: l), o'. split; [now rewrite <- app_assoc|]. split; auto. eapply YsStep; eauto.
      * discriminate.
    + apply IH in H as (l & o' & -> & -> & B). exists l, o'. repeat split. apply YsUnknown; auto. intros op (k & Hi & Hk). eapply (proj1 (words_none _) Ei); eauto.
  - apply IH in H as (l & o' & -> & -> & B). exists l, o'. repeat split. now apply YsBare.
  - destruct o as [|b o]; cbn [map] in *.
    + inversion H; subst. exists [], []. rewrite app_nil_r. repeat split. now constructor.
    + fold (goes_on ts) in *. destruct (goes_on ts) eqn:G.
      * change (ins b :: map ins o) with (map ins (b :: o)) in *. apply IH in H as (l & o' & -> & -> & B). exists l, o'. repeat split. apply YsBranch; auto. now apply goes_on_spec.
      * assert (N : ~ continues ts) by (rewrite <- goes_on_spec; congruence).
        destruct b; cbn [ins] in *; apply IH in H as (l & o' & -> & -> & B); [exists (closing_step InIf :: l), o'|exists (closing_step InLoop :: l), o'];
          (split; [now rewrite <- app_assoc|]; split; auto; now apply YsClose).
  - destruct ts as [|c ts]; [discriminate|]. destruct (btype_eqb (bt_type c) BOpenBracket) eqn:E.
    + apply btype_eqb_eq in E. change (ILoop :: map ins o) with (map ins (InLoop :: o)) in *. apply IH in H as (l & o' & -> & -> & B).
      exists (mkStep ILoop 0 [] :: l), o'. split; [now rewrite <- app_assoc|]. split; auto. now apply YsLoop.
    + apply btype_eqb_neq in E. inversion H; subst. exists [], o. rewrite app_nil_r. repeat split. apply YsBroken; auto. unfold kind_in. rewrite Et. cbn. auto.
  - destruct (switches_any BOpenBracket IIf ltac:(discriminate) ts []) as [(vs & -> & S)|[(vs & z & ts' & -> & K & S)|S]]; rewrite S in *; cbn [bind] in H; [| |discriminate];
      change (IIf :: map ins o) with (map ins (InIf :: o)) in *; apply IH in H as (l & o' & -> & -> & B).
    + inversion B; subst. exists [], (InIf :: o). split; [now rewrite <- app_assoc|]. split; auto. cbn [map ins]. rewrite <- H0. now apply YsIfCut.
    + exists (mkStep IIf 0 vs :: l), o'. split; [now rewrite <- app_assoc|]. split; auto. now apply YsIf.
  - destruct (switches_any BOpenBracket IElseIf ltac:(discriminate) ts []) as [(vs & -> & S)|[(vs & z & ts' & -> & K & S)|S]]; rewrite S in *; cbn [bind] in H; [| |discriminate];
      apply IH in H as (l & o' & -> & -> & B).
    + inversion B; subst. exists [], o'. split; [now rewrite <- app_assoc|]. split; auto. now apply YsElifCut.
    + exists (mkStep IElseIf 0 vs :: l), o'. split; [now rewrite <- app_assoc|]. split; auto. now apply YsElif.
  - destruct ts as [|c ts]; [discriminate|]. destruct (btype_eqb (bt_type c) BOpenBracket) eqn:E.
    + apply btype_eqb_eq in E. apply IH in H as (l & o' & -> & -> & B). exists (mkStep IElse 0 [] :: l), o'. split; [now rewrite <- app_assoc|]. split; auto. now apply YsElse.
    + apply btype_eqb_neq in E. inversion H; subst. exists [], o. rewrite app_nil_r. repeat split. apply YsBroken; auto. unfold kind_in. rewrite Et. cbn. auto.
Qed.

Lemma head_any ts : forall acc, exists head ps, parameters_of head ps /\ head_says head (fst (parameters_told ts acc)) /\
  ((ts = head /\ parse_parameters ts acc = (acc ++ ps, [])) \/ exists b r, ts = head ++ b :: r /\ kind BOpenBracket b /\ parse_parameters ts acc = (acc ++ ps, r)).
Proof.
  induction ts as [|t ts IH]; intros acc.
  - exists [], []. split; [constructor|]. split; [constructor|]. left. now rewrite app_nil_r.
  - assert (Skip : ~ kind_in [BArgument; BOpenBracket] t -> parse_parameters (t :: ts) acc = parse_parameters ts acc -> exists head ps, parameters_of (t :: head) ps /\ head_says head (fst (parameters_told ts acc)) /\
      ((t :: ts = t :: head /\ parse_parameters (t :: ts) acc = (acc ++ ps, [])) \/ exists b r, t :: ts = (t :: head) ++ b :: r /\ kind BOpenBracket b /\ parse_parameters (t :: ts) acc = (acc ++ ps, r))).
    { intros K G. rewrite G. destruct (IH acc) as (head & ps & P & S & Q). exists head, ps. split; [now apply PaOther|]. split; [exact S|].
      destruct Q as [(<- & Q)|(b & r & -> & Kb & Q)]; [left; auto|right; exists b, r; auto]. }
    unfold kind_in in Skip. destruct (bt_type t) eqn:Et;
      try (destruct (Skip ltac:(cbn; intuition discriminate) ltac:(cbn [parse_parameters]; now rewrite Et)) as (head & ps & P & S & Q); exists (t :: head), ps;
           split; [exact P|]; cbn [parameters_told]; rewrite Et; cbn [fst]; split; [|exact Q];
           first [apply HsOther; [unfold kind_in; rewrite Et; cbn; intuition discriminate|exact S] | apply HsFine; [unfold kind_in; rewrite Et; cbn; auto|exact S]]).
    + exists [], []. split; [constructor|]. cbn [parameters_told parse_parameters]. rewrite Et. split; [constructor|]. right. exists t, ts. rewrite app_nil_r. auto.
    + clear Skip. destruct (IH (acc ++ [bt_value t])) as (head & ps & P & S & Q). exists (t :: head), (bt_value t :: ps). split; [now constructor|].
      cbn [parse_parameters parameters_told]. rewrite Et, <- app_assoc in *. split; [apply HsFine; [unfold kind_in; rewrite Et; cbn; auto|exact S]|].
      destruct Q as [(-> & Q)|(b & r & -> & K & Q)]; [left|right; exists b, r]; auto.
Qed.

Lemma text_gripes : forall f ts o acc scs, parse_scripts f ts (map ins o) acc = Ok (ROk scs) ->
  exists l, scs = acc ++ l /\ text_says o ts l (fst (scripts_told f ts (map ins o) acc)).
Proof.
  induction f as [|f IH]; intros ts o acc scs H; [discriminate|]. destruct ts as [|t ts]; cbn [parse_scripts scripts_told] in *.
  { inversion H; subst. exists []. rewrite app_nil_r. split; auto. constructor. }
  destruct (btype_eqb (bt_type t) BDefine) eqn:E.
  - apply btype_eqb_eq in E. rewrite E in *. destruct ts as [|p ts]; [discriminate|]. rewrite parameters_snd. destruct (head_any ts []) as (head & ps & P & G & Q).
    destruct Q as [(-> & Q)|(b & r & -> & K & Q)]; rewrite Q in *; cbn [app] in H.
    + cbn in H. pose proof H as H'. apply IH in H as (l & -> & S). inversion S; subst. exists [mkScript (match bt_type p with BIdentifier => bt_value p | _ => [] end) [] [] ps []].
      split; [now rewrite app_nil_r|]. cbn [length body_told fst snd first app].
      match goal with E : [] = fst _ |- _ => cbn [app] in E |- *; rewrite <- E end. rewrite !app_nil_r. apply XsCut; auto. apply name_any.
    + destruct (parse_body (S (length r)) r (map ins o) []) as [[[[steps punc] r']|e]| |] eqn:B; try discriminate. cbn [bind] in H.
      rewrite body_snd, B. cbn [app].
      apply body_gripes in B as (l & o' & -> & -> & B). apply IH in H as (scs' & -> & S). eexists. split; [now rewrite <- app_assoc|]. cbn [first fst app] in *. rewrite <- app_assoc.
      eapply XsScript; eauto. apply name_any.
  - apply btype_eqb_neq in E. assert (G : parse_scripts f ts (map ins o) acc = Ok (ROk scs)) by (destruct (bt_type t); auto; congruence).
    apply IH in G as (l & -> & S). exists l. split; auto. destruct (bt_type t) eqn:Et; try congruence; cbn [first fst app]; (apply XsOther; [unfold kind; congruence|exact S]).
Qed.

(** Each list of tokens has one list of complaints. *)
Ltac kinds := unfold kind, kind_in in *; cbn [In] in *;
  repeat match goal with H : ?a = _ \/ _ |- _ => destruct H as [H|H] end;
  repeat match goal with H : bt_type ?t = _, K : context [bt_type ?t] |- _ => rewrite H in K end; try congruence; try tauto; try (intuition congruence).
Lemma args_stop vs us z y ts rs : bt_type z <> BArgument -> bt_type y <> BArgument -> args vs ++ z :: ts = args us ++ y :: rs -> vs = us /\ z = y /\ ts = rs.
Proof.
  intros Hz Hy. revert us. induction vs as [|v vs IH]; intros [|u us] H; cbn in H; inversion H; subst; cbn in *; try congruence; auto.
  apply IH in H2 as (-> & -> & ->). auto.
Qed.
Lemma args_cut vs us z ts : bt_type z <> BArgument -> args vs ++ z :: ts = args us -> False.
Proof. intros Hz. revert us. induction vs as [|v vs IH]; intros [|u us] H; cbn in H; inversion H; subst; cbn in *; try congruence. eauto. Qed.
Lemma body_back o ts l g o' r : body_says o ts l g o' r -> forall f acc, (length ts < f)%nat -> fst (body_told f ts (map ins o) acc) = g.
Proof.
  induction 1 as [o|o n op vs z ts l g o' r K Kn Z B IH|o n op vs K Kn|o n ts l g o' r K U B IH|c ts K|b o c ts l g o' r K C B IH|b o c ts l g o' r K C B IH
    |o w b ts l g o' r K Kb B IH|o w b ts l g o' r K Kb B IH|o w x ts K Kx|o w vs b ts l g o' r K Kb B IH|o w vs K|o w vs b ts l g o' r K Kb B IH|o w vs K|o t ts l g o' r K B IH|o t ts l g o' r K B IH];
    intros f acc L; (destruct f as [|f]; [lia|]); cbn [body_told]; unfold kind in *.
  - reflexivity.
  - rewrite K. apply words_spec in Kn. rewrite Kn, switches_found by (auto; discriminate).
    cbn [length] in L. rewrite app_length in L. cbn [length] in L. apply IH. lia.
  - rewrite K. apply words_spec in Kn. rewrite Kn, switches_cut. cbn [length] in L. destruct f; [lia|]. reflexivity.
  - rewrite K. assert (instr_from_str (bt_value n) = None) as -> by (apply words_none; intros k op Hi E; apply (U op); exists k; auto). cbn [length] in L. cbn [first fst app]. f_equal. apply IH. lia.
  - rewrite K. reflexivity.
  - rewrite K. cbn [map]. fold (goes_on ts). rewrite (proj2 (goes_on_spec ts) C). cbn [length] in L. apply IH. lia.
  - rewrite K. cbn [map]. fold (goes_on ts). rewrite (goes_off _ C). cbn [length] in L. destruct b; cbn [ins]; apply IH; lia.
  - rewrite K, Kb. cbn [btype_eqb length] in *. change (ILoop :: map ins o) with (map ins (InLoop :: o)). apply IH. lia.
  - rewrite K, Kb. cbn [btype_eqb length] in *. apply IH. lia.
  - apply btype_eqb_neq in Kx. destruct K as [K|[K|[]]]; rewrite <- K, Kx; reflexivity.
  - rewrite K, switches_found by (auto; discriminate). cbn [length] in L. rewrite app_length in L. cbn [length] in L.
    change (IIf :: map ins o) with (map ins (InIf :: o)). apply IH. lia.
  - rewrite K, switches_cut. cbn [length] in L. destruct f; [lia|]. reflexivity.
  - rewrite K, switches_found by (auto; discriminate). cbn [length] in L. rewrite app_length in L. cbn [length] in L. apply IH. lia.
  - rewrite K, switches_cut. cbn [length] in L. destruct f; [lia|]. reflexivity.
  - rewrite K. cbn [length] in L. apply IH. lia.
  - cbn [length] in L. unfold kind_in in K. destruct (bt_type t); try (elim K; cbn; tauto); cbn [first fst app]; f_equal; apply IH; lia.
Qed.
Lemma head_back head g : head_says head g -> forall b r acc, kind BOpenBracket b -> fst (parameters_told (head ++ b :: r) acc) = g /\ fst (parameters_told head acc) = g.
Proof.
  induction 1 as [|t ts g K S IH|t ts g K S IH]; intros b r acc Kb; cbn [app parameters_told].
  - rewrite Kb. auto.
  - unfold kind_in in K. cbn in K. destruct K as [K|[K|[K|[K|[]]]]]; rewrite <- K; auto.
  - unfold kind_in in K. cbn in K. destruct (IH b r acc Kb) as [A B]. destruct (bt_type t); try (elim K; tauto); cbn [fst]; rewrite A, B; auto.
Qed.
Lemma text_back o ts scs g : text_says o ts scs g -> forall f acc, (length ts < f)%nat -> fst (scripts_told f ts (map ins o) acc) = g.
Proof.
  induction 1 as [o|o t ts scs g K S IH|o d n name head ps gh b ts l gb o' r scs g K Kn P Hh Kb B S IH|o d n name head ps gh K Kn P Hh];
    intros f acc L; (destruct f as [|f]; [lia|]); cbn [scripts_told]; cbn [length] in L.
  - reflexivity.
  - unfold kind in K. rewrite <- (IH f acc) by lia. destruct (bt_type t); try reflexivity; congruence.
  - rewrite K, parameters_snd, (parameters_upto _ _ _ _ Kb P). rewrite (proj1 (head_back _ _ Hh b ts [] Kb)), (body_back _ _ _ _ _ _ B) by lia.
    rewrite body_snd, (body_bwd _ _ _ _ _ (body_rules _ _ _ _ _ _ B)) by lia. cbn [first fst app]. rewrite IH; [now rewrite app_assoc|].
    apply body_rules, body_shorter in B. rewrite app_length in L. cbn [length] in L. lia.
  - rewrite K, parameters_snd, (parameters_all _ _ P). rewrite (proj2 (head_back _ _ Hh (btok BOpenBracket) [] [] eq_refl)). cbn [length body_told fst snd first app].
    rewrite app_nil_r. destruct f; [lia|]. cbn. now rewrite app_nil_r.
Qed.

Theorem compile_gripes E code g scs : compile_told E code = (g, Ok scs) <-> exists ts, reads E code ts /\ text_says [] ts scs g.
Proof.
  split.
  - intros H. pose proof (compile_snd E code) as C. rewrite H in C. cbn [snd] in C. symmetry in C. pose proof C as C'. unfold compile_burn_script in C. unfold compile_told in H.
    destruct (get_tokens E code) as [ts| |] eqn:T; try discriminate. cbn [bind] in C. unfold parse_burn in C. destruct (parse_scripts _ _ _ _) as [[l|e]| |] eqn:P; try discriminate.
    cbn [bind] in C. inversion C; subst. inversion H; subst. exists ts. split; [now apply tokens_exact|].
    change (@nil instruction) with (map ins []) in P. apply text_gripes in P as (l & -> & S). exact S.
  - intros (ts & R & S). pose proof (text_rules _ _ _ _ S) as S'. assert (C : compile_burn_script E code = Ok scs) by (apply text_exact; eauto).
    rewrite (surjective_pairing (compile_told E code)), compile_snd, C. f_equal. apply tokens_exact in R. unfold compile_told. rewrite R. cbn [fst].
    change (@nil instruction) with (map ins []). apply (text_back _ _ _ _ S). lia.
Qed.

(** Looking for a token. *)
Lemma skip_prefix {A} (p r b : list A) x a : p ++ r = b ++ x :: a -> ~ In x p -> exists b', b = p ++ b' /\ r = b' ++ x :: a.
Proof.
  revert b. induction p as [|y p IH]; intros b H N; cbn in H; [exists b; auto|]. destruct b as [|z b]; cbn in H; inversion H; subst; [elim N; now left|].
  apply IH in H2 as (b' & -> & ->); [exists b'; auto|]. intros I. apply N. now right.
Qed.
Definition words : list btype := [BIdentifier; BDefine; BLoop; BIf; BElif; BElse].
Lemma not_arg x vs : kind_in words x -> ~ In x (args vs).
Proof. intros K I. unfold args in I. apply in_map_iff in I as (v & <- & _). unfold kind_in in K. cbn in K. intuition discriminate. Qed.
Lemma known_one w op op' : known w op -> known w op' -> op = op'.
Proof. intros A B. apply words_spec in A, B. congruence. Qed.

Definition fine (x : btoken) (a : list btoken) (l : list step) : Prop :=
  ~ kind BDefine x /\ ~ (kind BIdentifier x /\ unknown (bt_value x)) /\ forall st, becomes x a st -> In st l.
Lemma fine_more x a l y : fine x a l -> fine x a (y :: l).
Proof. intros (A & B & C). split; [exact A|]. split; [exact B|]. intros st H. right. now apply C. Qed.
Lemma fine_cut x vs : kind_in [BIdentifier; BIf; BElif] x -> (kind BIdentifier x -> exists op, known (bt_value x) op) -> fine x (args vs) [].
Proof.
  intros K Kn. split; [intros D; kinds|]. split; [intros (I & U); destruct (Kn I) as (op & Ho); exact (U op Ho)|]. intros st H. exfalso.
  inversion H as [x' op us z a I Ho Z E1 E2|x' a I|x' a I|x' us b a I Kb E1 E2|x' us b a I Kb E1 E2]; subst.
  - refine (args_cut _ _ _ _ _ E2). intros A. kinds.
  - kinds.
  - kinds.
  - refine (args_cut _ _ _ _ _ E2). intros A. kinds.
  - refine (args_cut _ _ _ _ _ E2). intros A. kinds.
Qed.

Lemma body_find o ts l g o' r : body_says o ts l g o' r -> g = [] -> forall b x a, ts = b ++ x :: a -> kind_in words x ->
  fine x a l \/ exists p b', b = p ++ b' /\ r = b' ++ x :: a.
Proof.
  induction 1 as [o|o n op vs z ts l g o' r K Kn Z B IH|o n op vs K Kn|o n ts l g o' r K U B IH|c ts K|bl o c ts l g o' r K C B IH|bl o c ts l g o' r K C B IH
    |o w b0 ts l g o' r K Kb B IH|o w b0 ts l g o' r K Kb B IH|o w x0 ts K Kx|o w vs b0 ts l g o' r K Kb B IH|o w vs K|o w vs b0 ts l g o' r K Kb B IH|o w vs K|o t ts l g o' r K B IH|o t ts l g o' r K B IH];
    intros G b x a Q W; try discriminate G.
  - destruct b; discriminate.
  - destruct b as [|y b]; cbn in Q; inversion Q; subst.
    + left. split; [intros D; kinds|]. split; [intros (_ & U); exact (U op Kn)|]. intros st H.
      inversion H as [x' op' us z' a' I Ho Z' E1 E2|x' a' I|x' a' I|x' us b a' I Kb E1 E2|x' us b a' I Kb E1 E2]; subst; try (exfalso; kinds; fail).
      apply args_stop in E2 as (-> & -> & ->); [|kinds|kinds]. left. now rewrite (known_one _ _ _ Kn Ho).
    + change (z :: ts) with ([z] ++ ts) in H1. rewrite app_assoc in H1. apply skip_prefix in H1 as (b' & -> & ->).
      * destruct (IH eq_refl b' x a eq_refl W) as [F|(p & b2 & -> & ->)]; [left; now apply fine_more|]. right. exists (y :: (args vs ++ [z]) ++ p), b2. cbn. now rewrite <- !app_assoc.
      * intros I. apply in_app_or in I as [I|[I|[]]]; [now apply not_arg in I|]. subst. clear - Z W. unfold words in W. kinds.
  - destruct b as [|y b]; cbn in Q; inversion Q; subst.
    + left. apply fine_cut; [unfold kind_in; rewrite K; cbn; auto|]. intros _. now exists op.
    + exfalso. apply (not_arg x vs W). rewrite H1. apply in_or_app. right. now left.
  - destruct b as [|y b]; cbn in Q; inversion Q; subst; [exfalso; unfold words in W; clear - K W; kinds|]. right. exists [y], b. auto.
  - destruct b as [|y b]; cbn in Q; inversion Q; subst; [exfalso; unfold words in W; clear - K W; kinds|].
    destruct (IH eq_refl b x a eq_refl W) as [F|(p & b2 & -> & ->)]; [auto|]. right. exists (y :: p), b2. auto.
  - destruct b as [|y b]; cbn in Q; inversion Q; subst; [exfalso; unfold words in W; clear - K W; kinds|].
    destruct (IH eq_refl b x a eq_refl W) as [F|(p & b2 & -> & ->)]; [left; now apply fine_more|]. right. exists (y :: p), b2. auto.
  - destruct b as [|y b]; cbn in Q; inversion Q; subst.
    + left. split; [intros D; kinds|]. split; [intros (I & _); kinds|]. intros st H. inversion H as [x' op' us z' a' I Ho Z' E1 E2|x' a' I|x' a' I|x' us b a' I Kb' E1 E2|x' us b a' I Kb' E1 E2]; subst; try (exfalso; clear - K I; kinds; fail). now left.
    + destruct b as [|y' b]; cbn in H1; inversion H1; subst; [exfalso; unfold words in W; clear - Kb W; kinds|].
      destruct (IH eq_refl b x a eq_refl W) as [F|(p & b2 & -> & ->)]; [left; now apply fine_more|]. right. exists (y :: y' :: p), b2. auto.
  - destruct b as [|y b]; cbn in Q; inversion Q; subst.
    + left. split; [intros D; kinds|]. split; [intros (I & _); kinds|]. intros st H. inversion H as [x' op' us z' a' I Ho Z' E1 E2|x' a' I|x' a' I|x' us b a' I Kb' E1 E2|x' us b a' I Kb' E1 E2]; subst; try (exfalso; clear - K I; kinds; fail). now left.
    + destruct b as [|y' b]; cbn in H1; inversion H1; subst; [exfalso; unfold words in W; clear - Kb W; kinds|].
      destruct (IH eq_refl b x a eq_refl W) as [F|(p & b2 & -> & ->)]; [left; now apply fine_more|]. right. exists (y :: y' :: p), b2. auto.
  - destruct b as [|y b]; cbn in Q; inversion Q; subst.
    + left. split; [intros D; kinds|]. split; [intros (I & _); kinds|]. intros st H.
      inversion H as [x' op' us z' a' I Ho Z' E1 E2|x' a' I|x' a' I|x' us b a' I Kb' E1 E2|x' us b a' I Kb' E1 E2]; subst; try (exfalso; clear - K I; kinds; fail).
      apply args_stop in E2 as (-> & -> & ->); [|kinds|kinds]. now left.
    + change (b0 :: ts) with ([b0] ++ ts) in H1. rewrite app_assoc in H1. apply skip_prefix in H1 as (b' & -> & ->).
      * destruct (IH eq_refl b' x a eq_refl W) as [F|(p & b2 & -> & ->)]; [left; now apply fine_more|]. right. exists (y :: (args vs ++ [b0]) ++ p), b2. cbn. now rewrite <- !app_assoc.
      * intros I. apply in_app_or in I as [I|[I|[]]]; [now apply not_arg in I|]. subst. clear - Kb W. unfold words in W. kinds.
  - destruct b as [|y b]; cbn in Q; inversion Q; subst.
    + left. apply fine_cut; [unfold kind_in; rewrite K; cbn; auto|]. intros I. kinds.
    + exfalso. apply (not_arg x vs W). rewrite H1. apply in_or_app. right. now left.
  - destruct b as [|y b]; cbn in Q; inversion Q; subst.
    + left. split; [intros D; kinds|]. split; [intros (I & _); kinds|]. intros st H.
      inversion H as [x' op' us z' a' I Ho Z' E1 E2|x' a' I|x' a' I|x' us b a' I Kb' E1 E2|x' us b a' I Kb' E1 E2]; subst; try (exfalso; clear - K I; kinds; fail).
      apply args_stop in E2 as (-> & -> & ->); [|kinds|kinds]. now left.
    + change (b0 :: ts) with ([b0] ++ ts) in H1. rewrite app_assoc in H1. apply skip_prefix in H1 as (b' & -> & ->).
      * destruct (IH eq_refl b' x a eq_refl W) as [F|(p & b2 & -> & ->)]; [left; now apply fine_more|]. right. exists (y :: (args vs ++ [b0]) ++ p), b2. cbn. now rewrite <- !app_assoc.
      * intros I. apply in_app_or in I as [I|[I|[]]]; [now apply not_arg in I|]. subst. clear - Kb W. unfold words in W. kinds.
  - destruct b as [|y b]; cbn in Q; inversion Q; subst.
    + left. apply fine_cut; [unfold kind_in; rewrite K; cbn; auto|]. intros I. kinds.
    + exfalso. apply (not_arg x vs W). rewrite H1. apply in_or_app. right. now left.
  - destruct b as [|y b]; cbn in Q; inversion Q; subst; [exfalso; unfold words in W; clear - K W; kinds|].
    destruct (IH eq_refl b x a eq_refl W) as [F|(p & b2 & -> & ->)]; [auto|]. right. exists (y :: p), b2. auto.
Qed.
Lemma head_quiet head g : head_says head g -> g = [] -> Forall (kind_in [BArgument; BComma; BOpenParen; BCloseParen]) head.
Proof. induction 1; intros G; try discriminate; constructor; auto. Qed.

Lemma text_find o ts scs g : text_says o ts scs g -> g = [] -> forall b x a, ts = b ++ x :: a -> (forall p d, b = p ++ [d] -> ~ kind BDefine d) -> kind_in words x ->
  (kind BDefine x -> exists n a' sc, a = n :: a' /\ In sc scs /\ name_of n (sc_name sc)) /\
  ~ (kind BIdentifier x /\ unknown (bt_value x)) /\ forall st, becomes x a st -> exists sc, In sc scs /\ In st (sc_steps sc).
Proof.
  assert (D : forall d n u sc scs a, kind BDefine d -> In sc scs -> name_of n (sc_name sc) -> a = n :: u ->
    (kind BDefine d -> exists n a' sc, a = n :: a' /\ In sc scs /\ name_of n (sc_name sc)) /\ ~ (kind BIdentifier d /\ unknown (bt_value d)) /\
    forall st, becomes d a st -> exists sc, In sc scs /\ In st (sc_steps sc)).
  { intros d n u sc scs0 a K I Nm ->. split; [intros _; exists n, u, sc; auto|]. split; [intros (J & _); kinds|]. intros st H. exfalso. clear - K H. inversion H; subst; kinds. }
  assert (Hd : forall head x, head_says head [] -> kind_in words x -> ~ In x head).
  { intros head x S W I. apply head_quiet in S; auto. rewrite Forall_forall in S. apply S in I. clear - I W. unfold words in W. kinds. }
  induction 1 as [o|o t ts scs g K S IH|o d n name head ps gh b0 ts l gb o' r scs g K Kn P Hh Kb B S IH|o d n name head ps gh K Kn P Hh];
    intros G b x a Q Nn W; try discriminate G.
  - destruct b; discriminate.
  - apply app_eq_nil in G as [-> G]. apply app_eq_nil in G as [-> ->].
    destruct b as [|y b]; cbn in Q; inversion Q; subst; [eapply D; eauto; [now left|exact Kn]|].
    destruct b as [|y' b]; cbn in H1; inversion H1; subst; [elim (Nn [] y eq_refl K)|].
    change (b0 :: ts) with ([b0] ++ ts) in H2. rewrite app_assoc in H2. apply skip_prefix in H2 as (b' & -> & ->).
    + destruct (body_find _ _ _ _ _ _ B eq_refl b' x a eq_refl W) as [(F1 & F2 & F3)|(p & b2 & -> & ->)].
      * split; [intros J; elim (F1 J)|]. split; [exact F2|]. intros st H. eexists. split; [now left|]. now apply F3.
      * destruct (IH eq_refl b2 x a eq_refl) as (I1 & I2 & I3); [|exact W|].
        -- intros q d ->. apply (Nn (y :: y' :: (head ++ [b0]) ++ p ++ q)). cbn. now rewrite <- !app_assoc.
        -- split; [intros J; destruct (I1 J) as (n & a' & sc & E & I & M); exists n, a', sc; repeat split; auto; now right|]. split; [exact I2|].
           intros st H. destruct (I3 st H) as (sc & I & J). exists sc. split; [now right|exact J].
    + intros I. apply in_app_or in I as [I|[I|[]]]; [now apply (Hd head x)|]. subst. clear - Kb W. unfold words in W. kinds.
  - subst. destruct b as [|y b]; cbn in Q; inversion Q; subst; [eapply D; eauto; [now left|exact Kn]|].
    destruct b as [|y' b]; cbn in H1; inversion H1; subst; [elim (Nn [] y eq_refl K)|]. exfalso. apply (Hd (b ++ x :: a) x); auto. apply in_or_app. right. now left.
Qed.
