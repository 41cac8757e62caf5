(** The parser of scripts gives exactly the scripts of the tokens. *)
From Coq Require Import Ascii String NArith List Bool Arith Lia.
From Verif Require Import Prelude PreludeFacts InstrModel ComponentModel CalcModel BurnModel VmSpec BurnSpec BurnLex BurnParse ScriptsSpec.
Import ListNotations.
Local Open Scope N_scope.

Definition ins (b : blk) : instruction := match b with InIf => IIf | InLoop => ILoop end.
Lemma btype_eqb_eq a b : btype_eqb a b = true <-> a = b.
Proof. split; [destruct a, b; cbn; intro H; congruence|intros ->; now destruct b]. Qed.
Lemma btype_eqb_neq a b : btype_eqb a b = false <-> a <> b.
Proof. rewrite <- btype_eqb_eq. destruct (btype_eqb a b); split; congruence. Qed.

Lemma switches_any stop op : stop <> BArgument -> forall ts sw,
  (exists vs, ts = args vs /\ parse_switches stop op ts sw = Ok ([], [])) \/
  (exists vs z ts', ts = args vs ++ z :: ts' /\ kind stop z /\ parse_switches stop op ts sw = Ok ([mkStep op 0 (sw ++ vs)], ts')) \/
  parse_switches stop op ts sw = Panic.
Proof.
  intros Hs. induction ts as [|t ts IH]; intros sw; [left; exists []; auto|]. destruct t as [ty v]. destruct (btype_eqb ty BArgument) eqn:Ea.
  - apply btype_eqb_eq in Ea. subst ty. cbn [parse_switches bt_type bt_value]. destruct (IH (sw ++ [v])) as [(vs & -> & H)|[(vs & z & ts' & -> & K & H)|H]].
    + left. exists (v :: vs). auto.
    + right. left. exists (v :: vs), z, ts'. rewrite <- app_assoc in H. auto.
    + auto.
  - right. assert (Hq : parse_switches stop op (mkBtok ty v :: ts) sw = if btype_eqb ty stop then Ok ([mkStep op 0 sw], ts) else Panic)
      by (destruct ty; try reflexivity; discriminate).
    rewrite Hq. destruct (btype_eqb ty stop) eqn:E; auto. apply btype_eqb_eq in E. left. exists [], (mkBtok ty v), ts. rewrite app_nil_r. auto.
Qed.
Lemma switches_cut stop op vs : forall sw, parse_switches stop op (args vs) sw = Ok ([], []).
Proof. induction vs as [|v vs IH]; intros sw; [reflexivity|]. cbn. apply IH. Qed.
Lemma switches_found stop op z ts : stop <> BArgument -> kind stop z -> forall vs sw, parse_switches stop op (args vs ++ z :: ts) sw = Ok ([mkStep op 0 (sw ++ vs)], ts).
Proof.
  intros Hs K. induction vs as [|v vs IH]; intros sw.
  - cbn. unfold kind in K. rewrite K, app_nil_r. now destruct stop.
  - cbn. rewrite IH, <- app_assoc. reflexivity.
Qed.

Definition goes_on (ts : list btoken) : bool := match ts with n :: _ => btype_eqb (bt_type n) BElse || btype_eqb (bt_type n) BElif | [] => false end.
Lemma goes_on_spec ts : goes_on ts = true <-> continues ts.
Proof.
  destruct ts as [|t u]; cbn.
  - split; [discriminate|intros (t & u & H & _); discriminate].
  - rewrite orb_true_iff, !btype_eqb_eq. split.
    + intros H. exists t, u. split; auto. unfold kind_in; cbn. intuition.
    + intros (t' & u' & H & K). inversion H; subst. unfold kind_in in K; cbn in K. intuition.
Qed.
Lemma goes_off ts : ~ continues ts -> goes_on ts = false.
Proof. rewrite <- goes_on_spec. now destruct (goes_on ts). Qed.

Lemma body_fwd : forall f ts o acc steps punc r, parse_body f ts (map ins o) acc = Ok (ROk (steps, punc, r)) ->
  exists l o', steps = acc ++ l /\ punc = map ins o' /\ body_reads o ts l o' r.
Proof.
  induction f as [|f IH]; intros ts o acc steps punc r H; [discriminate|]. destruct ts as [|t ts]; cbn [parse_body] in H.
  { inversion H; subst. exists [], o. rewrite app_nil_r. repeat split. constructor. }
  assert (Skip : ~ kind_in [BIdentifier; BCloseBracket; BLoop; BElse; BIf; BElif] t -> parse_body f ts (map ins o) acc = Ok (ROk (steps, punc, r)) ->
    exists l o', steps = acc ++ l /\ punc = map ins o' /\ body_reads o (t :: ts) l o' r).
  { intros K G. apply IH in G as (l & o' & -> & -> & B). exists l, o'. repeat split. now apply BrOther. }
  unfold kind_in in Skip. destruct (bt_type t) eqn:Et; try (apply Skip; auto; cbn; intuition discriminate); clear Skip.
  - destruct (instr_from_str (bt_value t)) as [op|] eqn:Ei.
    + apply words_spec in Ei. destruct (switches_any BSemiColon op ltac:(discriminate) ts []) as [(vs & -> & S)|[(vs & z & ts' & -> & K & S)|S]]; rewrite S in H; cbn [bind] in H.
      * apply IH in H as (l & o' & -> & -> & B). inversion B; subst. exists [], o'. split; [now rewrite <- app_assoc|]. split; auto. eapply BrStepCut; eauto.
      * apply IH in H as (l & o' & -> & -> & B). exists (mkStep op 0 vs :: l), o'. split; [now rewrite <- app_assoc|]. split; auto. eapply BrStep; eauto.
      * discriminate.
    + apply IH in H as (l & o' & -> & -> & B). exists l, o'. repeat split. apply BrUnknown; auto. intros op (k & Hi & Hk). eapply (proj1 (words_none _) Ei); eauto.
  - destruct o as [|b o]; cbn [map] in H.
    + inversion H; subst. exists [], []. rewrite app_nil_r. repeat split. now constructor.
    + fold (goes_on ts) in H. destruct (goes_on ts) eqn:G.
      * change (ins b :: map ins o) with (map ins (b :: o)) in H. apply IH in H as (l & o' & -> & -> & B). exists l, o'. repeat split. apply BrBranch; auto. now apply goes_on_spec.
      * assert (N : ~ continues ts) by (rewrite <- goes_on_spec; congruence).
        destruct b; cbn [ins] in H; apply IH in H as (l & o' & -> & -> & B); [exists (closing_step InIf :: l), o'|exists (closing_step InLoop :: l), o'];
          (split; [now rewrite <- app_assoc|]; split; auto; now apply BrClose).
  - destruct ts as [|c ts]; [discriminate|]. destruct (btype_eqb (bt_type c) BOpenBracket) eqn:E.
    + apply btype_eqb_eq in E. change (ILoop :: map ins o) with (map ins (InLoop :: o)) in H. apply IH in H as (l & o' & -> & -> & B).
      exists (mkStep ILoop 0 [] :: l), o'. split; [now rewrite <- app_assoc|]. split; auto. now apply BrLoop.
    + apply btype_eqb_neq in E. inversion H; subst. exists [], o. rewrite app_nil_r. repeat split. apply BrBroken; auto. unfold kind_in. rewrite Et. cbn. auto.
  - destruct (switches_any BOpenBracket IIf ltac:(discriminate) ts []) as [(vs & -> & S)|[(vs & z & ts' & -> & K & S)|S]]; rewrite S in H; cbn [bind] in H; [| |discriminate];
      change (IIf :: map ins o) with (map ins (InIf :: o)) in H; apply IH in H as (l & o' & -> & -> & B).
    + inversion B; subst. exists [], (InIf :: o). split; [now rewrite <- app_assoc|]. split; auto. now apply BrIfCut.
    + exists (mkStep IIf 0 vs :: l), o'. split; [now rewrite <- app_assoc|]. split; auto. now apply BrIf.
  - destruct (switches_any BOpenBracket IElseIf ltac:(discriminate) ts []) as [(vs & -> & S)|[(vs & z & ts' & -> & K & S)|S]]; rewrite S in H; cbn [bind] in H; [| |discriminate];
      apply IH in H as (l & o' & -> & -> & B).
    + inversion B; subst. exists [], o'. split; [now rewrite <- app_assoc|]. split; auto. now apply BrElifCut.
    + exists (mkStep IElseIf 0 vs :: l), o'. split; [now rewrite <- app_assoc|]. split; auto. now apply BrElif.
  - destruct ts as [|c ts]; [discriminate|]. destruct (btype_eqb (bt_type c) BOpenBracket) eqn:E.
    + apply btype_eqb_eq in E. apply IH in H as (l & o' & -> & -> & B). exists (mkStep IElse 0 [] :: l), o'. split; [now rewrite <- app_assoc|]. split; auto. now apply BrElse.
    + apply btype_eqb_neq in E. inversion H; subst. exists [], o. rewrite app_nil_r. repeat split. apply BrBroken; auto. unfold kind_in. rewrite Et. cbn. auto.
Qed.

Lemma body_bwd o ts l o' r : body_reads o ts l o' r -> forall f acc, (length ts < f)%nat ->
  parse_body f ts (map ins o) acc = Ok (ROk (acc ++ l, map ins o', r)).
Proof.
  induction 1 as [o|o n op vs z ts l o' r K Kn Z B IH|o n op vs K Kn|o n ts l o' r K U B IH|c ts K|b o c ts l o' r K C B IH|b o c ts l o' r K C B IH
    |o w b ts l o' r K Kb B IH|o w b ts l o' r K Kb B IH|o w x ts K Kx|o w vs b ts l o' r K Kb B IH|o w vs K|o w vs b ts l o' r K Kb B IH|o w vs K|o t ts l o' r K B IH];
    intros f acc L; (destruct f as [|f]; [lia|]); cbn [parse_body]; unfold kind in *.
  - now rewrite app_nil_r.
  - rewrite K. apply words_spec in Kn. rewrite Kn, switches_found by (auto; discriminate). cbn [bind].
    cbn [length] in L. rewrite app_length in L. cbn [length] in L. rewrite IH by lia. now rewrite <- app_assoc.
  - rewrite K. apply words_spec in Kn. rewrite Kn, switches_cut. cbn [bind]. cbn [length] in L. destruct f; [lia|]. reflexivity.
  - rewrite K. assert (instr_from_str (bt_value n) = None) as -> by (apply words_none; intros k op Hi E; apply (U op); exists k; auto). cbn [length] in L. apply IH. lia.
  - rewrite K. cbn [map]. now rewrite app_nil_r.
  - rewrite K. cbn [map]. fold (goes_on ts). rewrite (proj2 (goes_on_spec ts) C). cbn [length] in L. apply IH. lia.
  - rewrite K. cbn [map]. fold (goes_on ts). rewrite (goes_off _ C). cbn [length] in L. destruct b; cbn [ins]; (rewrite IH by lia; now rewrite <- app_assoc).
  - rewrite K, Kb. cbn [btype_eqb length] in *. change (ILoop :: map ins o) with (map ins (InLoop :: o)). rewrite IH by lia. now rewrite <- app_assoc.
  - rewrite K, Kb. cbn [btype_eqb length] in *. rewrite IH by lia. now rewrite <- app_assoc.
  - apply btype_eqb_neq in Kx. destruct K as [K|[K|[]]]; rewrite <- K, Kx; now rewrite app_nil_r.
  - rewrite K, switches_found by (auto; discriminate). cbn [bind]. cbn [length] in L. rewrite app_length in L. cbn [length] in L.
    change (IIf :: map ins o) with (map ins (InIf :: o)). rewrite IH by lia. now rewrite <- app_assoc.
  - rewrite K, switches_cut. cbn [bind]. cbn [length] in L. destruct f; [lia|]. reflexivity.
  - rewrite K, switches_found by (auto; discriminate). cbn [bind]. cbn [length] in L. rewrite app_length in L. cbn [length] in L. rewrite IH by lia. now rewrite <- app_assoc.
  - rewrite K, switches_cut. cbn [bind]. cbn [length] in L. destruct f; [lia|]. reflexivity.
  - cbn [length] in L. unfold kind_in in K. destruct (bt_type t); try (elim K; cbn; tauto); apply IH; lia.
Qed.
Lemma body_shorter o ts l o' r : body_reads o ts l o' r -> (length r <= length ts)%nat.
Proof. induction 1; cbn [length] in *; rewrite ?app_length; cbn [length]; lia. Qed.

Lemma parameters_any ts : forall acc, exists head ps, parameters_of head ps /\
  ((ts = head /\ parse_parameters ts acc = (acc ++ ps, [])) \/ exists b r, ts = head ++ b :: r /\ kind BOpenBracket b /\ parse_parameters ts acc = (acc ++ ps, r)).
Proof.
  induction ts as [|t ts IH]; intros acc.
  - exists [], []. split; [constructor|]. left. now rewrite app_nil_r.
  - destruct (btype_eqb (bt_type t) BOpenBracket) eqn:Eb.
    { apply btype_eqb_eq in Eb. exists [], []. split; [constructor|]. right. exists t, ts. cbn [parse_parameters]. rewrite Eb, app_nil_r. auto. }
    destruct (btype_eqb (bt_type t) BArgument) eqn:Ea.
    { apply btype_eqb_eq in Ea. destruct (IH (acc ++ [bt_value t])) as (head & ps & P & Q). exists (t :: head), (bt_value t :: ps). split; [now constructor|].
      cbn [parse_parameters]. rewrite Ea, <- app_assoc in *. destruct Q as [(-> & Q)|(b & r & -> & K & Q)]; [left|right; exists b, r]; auto. }
    apply btype_eqb_neq in Ea, Eb. destruct (IH acc) as (head & ps & P & Q). exists (t :: head), ps. split; [apply PaOther; auto; unfold kind_in; cbn; intuition|].
    cbn [parse_parameters]. assert (Hq : match bt_type t with BArgument => parse_parameters ts (acc ++ [bt_value t]) | BOpenBracket => (acc, ts) | _ => parse_parameters ts acc end = parse_parameters ts acc)
      by (destruct (bt_type t); congruence).
    rewrite Hq. destruct Q as [(-> & Q)|(b & r & -> & K & Q)]; [left|right; exists b, r]; auto.
Qed.
Lemma parameters_all head ps : parameters_of head ps -> forall acc, parse_parameters head acc = (acc ++ ps, []).
Proof.
  induction 1 as [|t ts vs K P IH|t ts vs K P IH]; intros acc; cbn [parse_parameters].
  - now rewrite app_nil_r.
  - rewrite K, IH, <- app_assoc. reflexivity.
  - unfold kind_in in K. rewrite <- (IH acc). destruct (bt_type t); try reflexivity; elim K; cbn; auto.
Qed.
Lemma parameters_upto head ps b ts : kind BOpenBracket b -> parameters_of head ps -> forall acc, parse_parameters (head ++ b :: ts) acc = (acc ++ ps, ts).
Proof.
  intros Kb. induction 1 as [|t u vs K P IH|t u vs K P IH]; intros acc; cbn [app parse_parameters].
  - now rewrite Kb, app_nil_r.
  - rewrite K, IH, <- app_assoc. reflexivity.
  - unfold kind_in in K. rewrite <- (IH acc). destruct (bt_type t); try reflexivity; elim K; cbn; auto.
Qed.
Lemma name_any t : name_of t (match bt_type t with BIdentifier => bt_value t | _ => [] end).
Proof. unfold name_of, kind. destruct (bt_type t); try (right; split; [discriminate|reflexivity]). left; auto. Qed.
Lemma name_is t n : name_of t n -> match bt_type t with BIdentifier => bt_value t | _ => [] end = n.
Proof. unfold name_of, kind. intros [(-> & ->)|(H & ->)]; auto. destruct (bt_type t); congruence. Qed.

Lemma scripts_fwd : forall f ts o acc scs, parse_scripts f ts (map ins o) acc = Ok (ROk scs) -> exists l, scs = acc ++ l /\ scripts_read o ts l.
Proof.
  induction f as [|f IH]; intros ts o acc scs H; [discriminate|]. destruct ts as [|t ts]; cbn [parse_scripts] in H.
  { inversion H; subst. exists []. rewrite app_nil_r. split; auto. constructor. }
  destruct (btype_eqb (bt_type t) BDefine) eqn:E.
  - apply btype_eqb_eq in E. rewrite E in H. destruct ts as [|p ts]; [discriminate|]. destruct (parameters_any ts []) as (head & ps & P & Q).
    destruct Q as [(-> & Q)|(b & r & -> & K & Q)]; rewrite Q in H; cbn [app] in H.
    + cbn in H. apply IH in H as (l & -> & S). inversion S; subst. exists [mkScript (match bt_type p with BIdentifier => bt_value p | _ => [] end) [] [] ps []].
      split; [now rewrite app_nil_r|]. apply SsCut; auto. apply name_any.
    + destruct (parse_body (S (length r)) r (map ins o) []) as [[[[steps punc] r']|e]| |] eqn:B; try discriminate. cbn [bind] in H.
      apply body_fwd in B as (l & o' & -> & -> & B). apply IH in H as (scs' & -> & S). eexists. split; [now rewrite <- app_assoc|]. eapply SsScript; eauto. apply name_any.
  - apply btype_eqb_neq in E. assert (G : parse_scripts f ts (map ins o) acc = Ok (ROk scs)) by (destruct (bt_type t); auto; congruence).
    apply IH in G as (l & -> & S). exists l. split; auto. now apply SsOther.
Qed.
Lemma scripts_bwd o ts scs : scripts_read o ts scs -> forall f acc, (length ts < f)%nat -> parse_scripts f ts (map ins o) acc = Ok (ROk (acc ++ scs)).
Proof.
  induction 1 as [o|o t ts scs K S IH|o d n name head ps b ts l o' r scs K Kn P Kb B S IH|o d n name head ps K Kn P];
    intros f acc L; (destruct f as [|f]; [lia|]); cbn [parse_scripts]; cbn [length] in L.
  - now rewrite app_nil_r.
  - unfold kind in K. rewrite <- (IH f acc) by lia. destruct (bt_type t); auto; congruence.
  - rewrite K, (name_is _ _ Kn), (parameters_upto _ _ _ _ Kb P). rewrite (body_bwd _ _ _ _ _ B) by lia. cbn [bind app].
    rewrite IH; [now rewrite <- app_assoc|]. apply body_shorter in B. rewrite app_length in L. cbn [length] in L. lia.
  - rewrite K, (name_is _ _ Kn), (parameters_all _ _ P). cbn [length parse_body bind app]. destruct f; [lia|]. reflexivity.
Qed.

Theorem scripts_exact ts scs : parse_burn ts = Ok (ROk scs) <-> scripts_read [] ts scs.
Proof.
  unfold parse_burn. split.
  - intros H. change (@nil instruction) with (map ins []) in H. apply scripts_fwd in H as (l & -> & S). exact S.
  - intros S. change (@nil instruction) with (map ins []). now rewrite (scripts_bwd _ _ _ S) by lia.
Qed.

Lemma accounted_more ts ts' x : (forall t, In t ts -> In t ts') -> accounted ts x -> accounted ts' x.
Proof. intros U [k H1 H2 H3|t k H1 H2 H3 H4|t k H1 H2 H3 H4]; [eapply AcStep|eapply AcCondition|eapply AcBlock]; eauto. Qed.
Lemma args_in vs v (ts : list btoken) : In v vs -> In (mkBtok BArgument v) (args vs ++ ts).
Proof. intros H. apply in_or_app. left. unfold args. now apply in_map. Qed.
Lemma body_accounted o ts l o' r : body_reads o ts l o' r -> (forall t, In t r -> In t ts) /\ forall x, In x l -> accounted ts x.
Proof.
  induction 1 as [o|o n op vs z ts l o' r K Kn Z B IH|o n op vs K Kn|o n ts l o' r K U B IH|c ts K|b o c ts l o' r K C B IH|b o c ts l o' r K C B IH
    |o w b ts l o' r K Kb B IH|o w b ts l o' r K Kb B IH|o w x ts K Kx|o w vs b ts l o' r K Kb B IH|o w vs K|o w vs b ts l o' r K Kb B IH|o w vs K|o t ts l o' r K B IH];
    try (split; [cbn; try tauto; intuition|intros ? []; fail]).
  all: destruct IH as (IH1 & IH2); split; [intros t' Ht; apply IH1 in Ht; cbn; rewrite ?in_app_iff; cbn; tauto|]; intros x Hx.
  all: try (destruct Hx as [<-|Hx]).
  all: try (eapply (accounted_more ts); [intros t' Ht; cbn; rewrite ?in_app_iff; cbn; tauto|now apply IH2]).
  - destruct Kn as (k & Hk & Ek). apply (AcStep _ _ k); auto; [left; destruct n; unfold kind in K; cbn in *; subst; reflexivity|]. intros v Hv. right. now apply args_in.
  - apply (AcBlock _ _ c BCloseBracket); [destruct b; cbn; tauto|now left|auto|now destruct b].
  - apply (AcBlock _ _ w BLoop); [cbn; tauto|now left|auto|auto].
  - apply (AcBlock _ _ w BElse); [cbn; tauto|now left|auto|auto].
  - apply (AcCondition _ _ w BIf); [cbn; tauto|now left|auto|]. intros v Hv. right. now apply args_in.
  - apply (AcCondition _ _ w BElif); [cbn; tauto|now left|auto|]. intros v Hv. right. now apply args_in.
Qed.
Lemma scripts_accounted o ts scs : scripts_read o ts scs -> forall sc x, In sc scs -> In x (sc_steps sc) -> accounted ts x.
Proof.
  induction 1 as [o|o t ts scs K S IH|o d n name head ps b ts l o' r scs K Kn P Kb Bd S IH|o d n name head ps K Kn P]; intros sc x Hi Hx.
  - destruct Hi.
  - eapply accounted_more; [|eapply IH; eauto]. now right.
  - destruct (body_accounted _ _ _ _ _ Bd) as (B1 & B2). assert (I1 : forall t, In t ts -> In t (d :: n :: head ++ b :: ts)) by (intros t Ht; cbn; rewrite in_app_iff; cbn; auto).
    destruct Hi as [<-|Hi]; [apply (accounted_more ts); auto|]. apply (accounted_more r); eauto.
  - destruct Hi as [<-|[]]. destruct Hx.
Qed.

(** From the text to the scripts. *)
Theorem text_exact E code scs : compile_burn_script E code = Ok scs <-> exists ts, reads E code ts /\ scripts_read [] ts scs.
Proof.
  unfold compile_burn_script. split.
  - destruct (get_tokens E code) as [ts| |] eqn:T; try discriminate. cbn [bind]. destruct (parse_burn ts) as [[l|e]| |] eqn:P; try discriminate.
    cbn [bind]. intros H. inversion H; subst. exists ts. split; [now apply tokens_exact|now apply scripts_exact].
  - intros (ts & R & S). apply tokens_exact in R. apply scripts_exact in S. rewrite R. cbn [bind]. rewrite S. reflexivity.
Qed.
