(** Proofs about the parser of scripts. *)
From Coq Require Import Ascii String NArith List Bool Arith Lia.
From Verif Require Import Prelude PreludeFacts InstrModel ComponentModel CalcModel BurnModel VmSpec BurnSpec.
Import ListNotations.
Local Open Scope N_scope.

Lemma switches_shorter stop op : forall ts sw st ts', parse_switches stop op ts sw = Ok (st, ts') -> (length ts' <= length ts)%nat.
Proof.
  induction ts as [|t ts IH]; intros sw st ts' H; cbn [parse_switches] in H; [inversion H; auto|].
  destruct (bt_type t); try (destruct (btype_eqb _ stop); inversion H; subst; cbn; lia). apply IH in H. cbn. lia.
Qed.
Lemma switches_fuel stop op : forall ts sw, parse_switches stop op ts sw <> NoFuel.
Proof.
  induction ts as [|t ts IH]; intros sw; cbn [parse_switches]; [discriminate|].
  destruct (bt_type t); try (destruct (btype_eqb _ stop); discriminate). apply IH.
Qed.
Lemma body_fuel : forall f g ts punc steps, (length ts < f)%nat -> (length ts < g)%nat -> parse_body f ts punc steps = parse_body g ts punc steps.
Proof.
  induction f as [|f IH]; intros g ts punc steps Lf Lg; [lia|]. destruct g as [|g]; [lia|]. destruct ts as [|t ts]; [reflexivity|].
  cbn [length] in Lf, Lg. cbn [parse_body].
  destruct (bt_type t); try (apply IH; lia).
  - destruct (instr_from_str (bt_value t)) as [op|]; [|apply IH; lia].
    destruct (parse_switches BSemiColon op ts []) as [[st ts']| |] eqn:Es; [|reflexivity|reflexivity]. apply switches_shorter in Es. cbn [bind]. apply IH; lia.
  - destruct punc as [|top punc]; [reflexivity|]. destruct (match ts with n :: _ => _ | [] => false end); [apply IH; lia|]. destruct top; try reflexivity; apply IH; lia.
  - destruct ts as [|n ts]; [reflexivity|]. cbn [length] in Lf, Lg. destruct (btype_eqb _ _); [|reflexivity]. apply IH; lia.
  - destruct (parse_switches BOpenBracket IIf ts []) as [[st ts']| |] eqn:Es; [|reflexivity|reflexivity]. apply switches_shorter in Es. cbn [bind]. apply IH; lia.
  - destruct (parse_switches BOpenBracket IElseIf ts []) as [[st ts']| |] eqn:Es; [|reflexivity|reflexivity]. apply switches_shorter in Es. cbn [bind]. apply IH; lia.
  - destruct ts as [|n ts]; [reflexivity|]. cbn [length] in Lf, Lg. destruct (btype_eqb _ _); [|reflexivity]. apply IH; lia.
Qed.

(** The loop over the instructions with enough fuel. *)
Definition body (ts : list btoken) (punc : list instruction) (steps : list step) := parse_body (S (length ts)) ts punc steps.
Lemma body_step t ts punc steps : body (t :: ts) punc steps =
  match bt_type t with
  | BIdentifier =>
    match instr_from_str (bt_value t) with
    | Some op => ' (st, ts) <- parse_switches BSemiColon op ts [] ;; body ts punc (steps ++ st)
    | None => body ts punc steps
    end
  | BCloseBracket =>
    match punc with
    | [] => Ok (ROk (steps, punc, ts))
    | top :: punc' =>
      if match ts with n :: _ => btype_eqb (bt_type n) BElse || btype_eqb (bt_type n) BElif | [] => false end
      then body ts punc steps
      else match top with
           | IIf => body ts punc' (steps ++ [mkStep IEndIf 0 []])
           | ILoop => body ts punc' (steps ++ [mkStep IEndLoop 0 []])
           | _ => Ok (RErr (lit "Invalid scope signifier."))
           end
    end
  | BOpenBracket => body ts punc steps
  | BLoop =>
    match ts with
    | [] => Panic
    | check :: ts =>
      if btype_eqb (bt_type check) BOpenBracket then body ts (ILoop :: punc) (steps ++ [mkStep ILoop 0 []])
      else Ok (ROk (steps, punc, ts))
    end
  | BElif => ' (st, ts) <- parse_switches BOpenBracket IElseIf ts [] ;; body ts punc (steps ++ st)
  | BIf => ' (st, ts) <- parse_switches BOpenBracket IIf ts [] ;; body ts (IIf :: punc) (steps ++ st)
  | BElse =>
    match ts with
    | [] => Panic
    | check :: ts =>
      if btype_eqb (bt_type check) BOpenBracket then body ts punc (steps ++ [mkStep IElse 0 []])
      else Ok (ROk (steps, punc, ts))
    end
  | _ => body ts punc steps
  end.
Proof.
  unfold body at 1. cbn [length]. remember (S (length ts)) as f eqn:Hf. cbn [parse_body]. subst f. unfold body.
  destruct (bt_type t); try reflexivity.
  - destruct (instr_from_str (bt_value t)) as [op|]; [|reflexivity].
    destruct (parse_switches BSemiColon op ts []) as [[st ts']| |] eqn:Es; [|reflexivity|reflexivity]. apply switches_shorter in Es. cbn [bind]. apply body_fuel; lia.
  - destruct ts as [|n ts]; [reflexivity|]. destruct (btype_eqb _ _); [|reflexivity]. apply body_fuel; cbn [length]; lia.
  - destruct (parse_switches BOpenBracket IIf ts []) as [[st ts']| |] eqn:Es; [|reflexivity|reflexivity]. apply switches_shorter in Es. cbn [bind]. apply body_fuel; lia.
  - destruct (parse_switches BOpenBracket IElseIf ts []) as [[st ts']| |] eqn:Es; [|reflexivity|reflexivity]. apply switches_shorter in Es. cbn [bind]. apply body_fuel; lia.
  - destruct ts as [|n ts]; [reflexivity|]. destruct (btype_eqb _ _); [|reflexivity]. apply body_fuel; cbn [length]; lia.
Qed.

(** ** Words for steps *)
Lemma words_spec w op : instr_from_str w = Some op <-> exists k, In (k, op) step_words /\ w = lit k.
Proof.
  unfold instr_from_str. split.
  - intros H. repeat (match type of H with context [str_eqb w (lit ?k)] => destruct (str_eqb_spec w (lit k)) as [->|];
      [inversion H; subst; exists k; split; [cbn; tauto|reflexivity]|] end). discriminate.
  - intros (k & H & ->). cbn in H. repeat (destruct H as [H|H]; [inversion H; subst; reflexivity|]). destruct H.
Qed.
Lemma words_none w : instr_from_str w = None <-> forall k op, In (k, op) step_words -> w <> lit k.
Proof.
  split.
  - intros H k op Hi ->. assert (instr_from_str (lit k) = Some op) by (apply words_spec; eauto). congruence.
  - intros H. destruct (instr_from_str w) as [op|] eqn:Ew; [|reflexivity]. apply words_spec in Ew as (k & Hi & ->). now elim (H k op).
Qed.

(** ** Structured scripts *)
Lemma switches_run stop op vs ts : stop <> BArgument -> forall sw, parse_switches stop op (args vs ++ btok stop :: ts) sw = Ok ([mkStep op 0 (sw ++ vs)], ts).
Proof.
  intros Hs. induction vs as [|v vs IH]; intros sw; cbn [args map app parse_switches bt_type bt_value].
  - rewrite app_nil_r. destruct stop; try reflexivity. now elim Hs.
  - fold (args vs). rewrite IH. now rewrite <- app_assoc.
Qed.
Lemma skip_args vs : forall ts punc steps, body (args vs ++ ts) punc steps = body ts punc steps.
Proof. induction vs as [|v vs IH]; intros; [reflexivity|]. cbn [args map app]. rewrite body_step. cbn [bt_type]. apply IH. Qed.
Definition not_else (ts : list btoken) : Prop := match ts with t :: _ => bt_type t <> BElse /\ bt_type t <> BElif | [] => True end.
Lemma tokens_not_else p rest : not_else rest -> not_else (tokens p ++ rest).
Proof. destruct p; cbn; auto; intros _; split; discriminate. Qed.
Lemma close_block top punc ts steps : not_else ts -> body (btok BCloseBracket :: ts) (top :: punc) steps =
  match top with
  | IIf => body ts punc (steps ++ [mkStep IEndIf 0 []])
  | ILoop => body ts punc (steps ++ [mkStep IEndLoop 0 []])
  | _ => Ok (RErr (lit "Invalid scope signifier."))
  end.
Proof.
  intros H. rewrite body_step. cbn [bt_type btok].
  replace (match ts with n :: _ => btype_eqb (bt_type n) BElse || btype_eqb (bt_type n) BElif | [] => false end) with false; [reflexivity|].
  destruct ts as [|n ts]; [reflexivity|]. destruct H as [H1 H2]. destruct (bt_type n); try reflexivity; congruence.
Qed.

Scheme flat_ind2 := Induction for flat Sort Prop with flat_branches_ind2 := Induction for flat_branches Sort Prop.
Combined Scheme flat_mut from flat_ind2, flat_branches_ind2.

Lemma flat_runs :
  (forall p l, flat p l -> forall rest punc steps, not_else rest -> body (tokens p ++ rest) punc steps = body rest punc (steps ++ l)) /\
  (forall m l, flat_branches m l -> forall rest punc steps, not_else rest ->
    body (btok BCloseBracket :: branch_tokens m ++ rest) (IIf :: punc) steps = body rest punc (steps ++ l ++ [mkStep IEndIf 0 []])).
Proof.
  apply flat_mut.
  - intros rest punc steps H. cbn [tokens app]. now rewrite app_nil_r.
  - intros k op w vs r l Hi Hw F IH rest punc steps H. cbn [tokens app]. rewrite body_step. cbn [bt_type bt_value].
    rewrite (proj2 (words_spec w op)) by eauto. rewrite <- app_assoc. cbn [app]. rewrite switches_run by discriminate. cbn [bind app].
    rewrite IH by auto. now rewrite <- app_assoc.
  - intros w vs r l Hw F IH rest punc steps H. cbn [tokens app]. rewrite body_step. cbn [bt_type bt_value]. rewrite (proj2 (words_none w)) by auto.
    rewrite <- app_assoc, skip_args. cbn [app]. rewrite body_step. cbn [bt_type btok]. now apply IH.
  - intros b r lb lr F1 IH1 F2 IH2 rest punc steps H. cbn [tokens app]. rewrite body_step. cbn [bt_type btok btype_eqb].
    rewrite <- app_assoc. cbn [app]. rewrite IH1 by (cbn; split; discriminate). rewrite close_block by now apply tokens_not_else. rewrite IH2 by auto.
    f_equal. repeat (rewrite <- app_assoc; cbn [app]). reflexivity.
  - intros vs b m r lb lm lr F1 IH1 F2 IH2 F3 IH3 rest punc steps H. cbn [tokens app]. rewrite body_step. cbn [bt_type btok]. rewrite <- app_assoc. cbn [app].
    rewrite (switches_run BOpenBracket) by discriminate. cbn [bind app]. rewrite <- app_assoc. cbn [app]. rewrite IH1 by (cbn; split; discriminate).
    rewrite <- app_assoc. rewrite IH2 by now apply tokens_not_else. rewrite IH3 by auto. f_equal. repeat (rewrite <- app_assoc; cbn [app]). reflexivity.
  - intros rest punc steps H. cbn [branch_tokens app]. now apply close_block.
  - intros b lb F IH rest punc steps H. cbn [branch_tokens app]. rewrite body_step. cbn [bt_type btok btype_eqb orb]. rewrite body_step. cbn [bt_type btok btype_eqb].
    rewrite <- app_assoc. cbn [app]. rewrite IH by (cbn; split; discriminate). rewrite close_block by auto. f_equal. repeat (rewrite <- app_assoc; cbn [app]). reflexivity.
  - intros vs b m lb lm F1 IH1 F2 IH2 rest punc steps H. cbn [branch_tokens app]. rewrite body_step. cbn [bt_type btok btype_eqb orb]. rewrite body_step. cbn [bt_type btok].
    rewrite <- app_assoc. cbn [app]. rewrite (switches_run BOpenBracket) by discriminate. cbn [bind app]. rewrite <- app_assoc. cbn [app].
    rewrite IH1 by (cbn; split; discriminate). rewrite IH2 by auto. f_equal. repeat (rewrite <- app_assoc; cbn [app]). reflexivity.
Qed.

Lemma parameters_run ps ts : forall acc, parse_parameters (args ps ++ btok BOpenBracket :: ts) acc = (acc ++ ps, ts).
Proof.
  induction ps as [|v ps IH]; intros acc; cbn [args map app parse_parameters bt_type bt_value btok]; [now rewrite app_nil_r|].
  fold (args ps). rewrite IH. now rewrite <- app_assoc.
Qed.

Lemma definitions_run ds scs : Forall2 defines ds scs -> forall f acc, (length (concat (map definition_tokens ds)) < f)%nat ->
  parse_scripts f (concat (map definition_tokens ds)) [] acc = Ok (ROk (acc ++ scs)).
Proof.
  induction 1 as [|[[name ps] p] sc ds scs (l & F & ->) H IH]; intros f acc L; cbn [map concat] in *.
  - destruct f; [lia|]. cbn. now rewrite app_nil_r.
  - destruct f; [lia|]. rewrite app_length in L. cbn [definition_tokens length] in L. cbn [definition_tokens app parse_scripts bt_type btok bt_value].
    repeat (rewrite <- app_assoc; cbn [app]). rewrite parameters_run. cbn [app].
    match goal with |- context [parse_body (S (length ?t)) ?t [] []] => change (parse_body (S (length t)) t [] []) with (body t [] []) end.
    rewrite (proj1 flat_runs p l F) by (cbn; split; discriminate). rewrite body_step. cbn [bt_type btok bind app]. rewrite IH by lia. now rewrite <- app_assoc.
Qed.
Theorem parse_definitions ds scs : Forall2 defines ds scs -> parse_burn (concat (map definition_tokens ds)) = Ok (ROk scs).
Proof. intros H. unfold parse_burn. rewrite (definitions_run ds scs H) by lia. reflexivity. Qed.

(** Every structured script has a list of steps. *)
Scheme src_ind2 := Induction for src Sort Prop with branches_ind2 := Induction for branches Sort Prop.
Combined Scheme src_mut from src_ind2, branches_ind2.
Lemma flat_total : (forall p, exists l, flat p l) /\ (forall m, exists l, flat_branches m l).
Proof.
  apply src_mut.
  - eexists. constructor.
  - intros w vs r (l & H). destruct (instr_from_str w) as [op|] eqn:Ew.
    + apply words_spec in Ew as (k & Hi & ->). eexists. eapply FlStep; eauto.
    + exists l. apply FlUnknown; auto. now apply words_none.
  - intros b (lb & H1) r (lr & H2). eexists. constructor; eauto.
  - intros vs b (lb & H1) m (lm & H2) r (lr & H3). eexists. constructor; eauto.
  - eexists. constructor.
  - intros b (lb & H). eexists. constructor; eauto.
  - intros vs b (lb & H1) m (lm & H2). eexists. constructor; eauto.
Qed.

(** ** The parser on any tokens *)
Definition block (i : instruction) : Prop := i = IIf \/ i = ILoop.
Lemma body_any : forall f ts punc steps, Forall block punc -> (length ts < f)%nat ->
  match parse_body f ts punc steps with
  | Ok (ROk (_, punc', ts')) => Forall block punc' /\ (length ts' <= length ts)%nat
  | Ok (RErr _) => False
  | Panic => True
  | NoFuel => False
  end.
Proof.
  assert (W : forall n m (x : outcome (result (list step * list instruction * list btoken) (list N))), (n <= m)%nat ->
    match x with Ok (ROk (_, punc', ts')) => Forall block punc' /\ (length ts' <= n)%nat | Ok (RErr _) => False | Panic => True | NoFuel => False end ->
    match x with Ok (ROk (_, punc', ts')) => Forall block punc' /\ (length ts' <= m)%nat | Ok (RErr _) => False | Panic => True | NoFuel => False end).
  { intros n m [[[[? ?] ?]|?]| |] L; auto. intros [H1 H2]. split; auto. lia. }
  induction f as [|f IH]; intros ts punc steps F L; [lia|]. destruct ts as [|t ts]; [cbn; auto|]. cbn [length] in L. cbn [parse_body].
  assert (S1 : forall stop op punc', Forall block punc' ->
     match ' (st, ts) <- parse_switches stop op ts [] ;; parse_body f ts punc' (steps ++ st) with
     | Ok (ROk (_, punc', ts')) => Forall block punc' /\ (length ts' <= length (t :: ts))%nat | Ok (RErr _) => False | Panic => True | NoFuel => False end).
  { intros stop op punc' Fp. destruct (parse_switches stop op ts []) as [[st ts']| |] eqn:Es; cbn [bind]; auto.
    - apply switches_shorter in Es. apply (W (length ts')); [cbn; lia|]. apply IH; [exact Fp|lia].
    - now apply switches_fuel in Es. }
  assert (S2 : forall punc' steps', Forall block punc' -> match parse_body f ts punc' steps' with
     | Ok (ROk (_, punc', ts')) => Forall block punc' /\ (length ts' <= length (t :: ts))%nat | Ok (RErr _) => False | Panic => True | NoFuel => False end).
  { intros punc' steps' Fp. apply (W (length ts)); [cbn; lia|]. apply IH; auto. lia. }
  destruct (bt_type t); try (now apply S2).
  - destruct (instr_from_str (bt_value t)); [apply S1; auto|now apply S2].
  - destruct punc as [|top punc]; [split; [auto|cbn; lia]|]. destruct (match ts with n :: _ => _ | [] => false end); [now apply S2|].
    inversion F as [|? ? [->| ->] F']; subst; now apply S2.
  - destruct ts as [|n ts]; [exact I|]. destruct (btype_eqb _ _); [|split; [auto|cbn; lia]].
    apply (W (length ts)); [cbn; lia|]. apply IH; [constructor; auto; now right|cbn in L; lia].
  - apply S1. constructor; auto. now left.
  - apply S1; auto.
  - destruct ts as [|n ts]; [exact I|]. destruct (btype_eqb _ _); [|split; [auto|cbn; lia]].
    apply (W (length ts)); [cbn; lia|]. apply IH; [auto|cbn in L; lia].
Qed.
Lemma parameters_shorter : forall ts acc, (length (snd (parse_parameters ts acc)) <= length ts)%nat.
Proof. induction ts as [|t ts IH]; intros acc; cbn [parse_parameters]; [auto|]. destruct (bt_type t); cbn [length snd]; try (etransitivity; [apply IH|]; lia). lia. Qed.
Theorem parse_total ts : parse_burn ts = Panic \/ exists scs, parse_burn ts = Ok (ROk scs).
Proof.
  unfold parse_burn. assert (G : forall f ts punc acc, Forall block punc -> (length ts < f)%nat ->
    parse_scripts f ts punc acc = Panic \/ exists scs, parse_scripts f ts punc acc = Ok (ROk scs)).
  { induction f as [|f IH]; intros ts' punc acc F L; [lia|]. destruct ts' as [|t ts']; [right; eexists; reflexivity|]. cbn [length] in L. cbn [parse_scripts].
    destruct (bt_type t); try (apply IH; [auto|lia]). destruct ts' as [|n ts']; [now left|].
    pose proof (parameters_shorter ts' []) as P. destruct (parse_parameters ts' []) as [ps ts2]. cbn [snd] in P.
    pose proof (body_any (S (length ts2)) ts2 punc [] F) as B. destruct (parse_body (S (length ts2)) ts2 punc []) as [[[[steps punc'] ts3]|e]| |]; cbn [bind].
    - destruct B as [B1 B2]; [lia|]. cbn [length] in L. apply IH; auto. lia.
    - exfalso. apply B. lia.
    - now left.
    - exfalso. apply B. lia. }
  apply G; [constructor|lia].
Qed.

(** ** Structured scripts as programs of the runner *)
Scheme means_ind2 := Induction for means Sort Prop with means_branches_ind2 := Induction for means_branches Sort Prop.
Combined Scheme means_mut from means_ind2, means_branches_ind2.
Lemma one_word k op k' op' : In (k, op) step_words -> In (k', op') step_words -> lit k = lit k' -> op = op'.
Proof. intros H K Q. assert (instr_from_str (lit k) = Some op) by (apply words_spec; eauto). assert (instr_from_str (lit k') = Some op') by (apply words_spec; eauto). congruence. Qed.
Lemma means_lays : (forall p q, means p q -> forall l, flat p l -> lays q l) /\
  (forall m c, means_branches m c -> forall l, flat_branches m l -> lays_clauses c (l ++ [mkStep IEndIf 0 []])).
Proof.
  apply means_mut.
  - intros l F. inversion F; subst. constructor.
  - intros k op w vs r p Hi -> S M IH l F. inversion F as [|k' op' ? ? ? l' Hi' Hw F'|? ? ? ? Hn F'| |]; subst.
    + rewrite (one_word _ _ _ _ Hi Hi' Hw) in S |- *. constructor; auto.
    + now elim (Hn k op).
  - intros k op w vs r p Hi -> S M IH l F. inversion F as [|k' op' ? ? ? l' Hi' Hw F'|? ? ? ? Hn F'| |]; subst.
    + rewrite (one_word _ _ _ _ Hi Hi' Hw) in S |- *. constructor; auto.
    + now elim (Hn k op).
  - intros k w vs r p Hi -> M IH l F. inversion F as [|k' op' ? ? ? l' Hi' Hw F'|? ? ? ? Hn F'| |]; subst.
    + rewrite <- (one_word _ _ _ _ Hi Hi' Hw). constructor; auto.
    + now elim (Hn k IPerformScript).
  - intros w vs r p Hn M IH l F. inversion F as [|k' op' ? ? ? l' Hi' Hw F'|? ? ? ? Hn' F'| |]; subst; auto. now elim (Hn k' op').
  - intros b r p q M1 IH1 M2 IH2 l F. inversion F; subst. constructor; auto.
  - intros c cs b m r p q s M1 IH1 M2 IH2 M3 IH3 l F. inversion F; subst.
    match goal with |- lays _ (_ :: ?lb ++ ?lm ++ ?e :: ?lr) => replace (lb ++ lm ++ e :: lr) with (lb ++ (lm ++ [e]) ++ lr) by (now rewrite <- app_assoc) end.
    econstructor; eauto; reflexivity.
  - intros l F. inversion F; subst. now constructor.
  - intros b p M IH l F. inversion F; subst. constructor; auto.
  - intros c cs b m p q M1 IH1 M2 IH2 l F. inversion F; subst. cbn [app]. rewrite <- app_assoc. econstructor; eauto; reflexivity.
Qed.
