(** The laws hold for the machine. *)
From Coq Require Import NArith List Bool Lia.
From Verif Require Import Prelude PreludeFacts ComponentModel RelModel DbModel DbFacts DbGenSpec DbSpec PastSpec WorldSpec World LawSpec.
Import ListNotations.
Local Open Scope N_scope.

Definition eqw (w w' : world) : Prop :=
  shown w = shown w' /\ (forall i, found w i = found w' i) /\ (forall i, spot w i = spot w' i) /\ (forall t, many w t = many w' t) /\ forall t j r, value w t j r = value w' t j r.
Definition oeq (a b : option world) : Prop := match a, b with Some w, Some w' => eqw w w' | None, None => True | _, _ => False end.
Lemma eqw_refl w : eqw w w.
Proof. repeat split. Qed.
Lemma eqw_sym w w' : eqw w w' -> eqw w' w.
Proof. intros (A & B & C & D & E). repeat split; intros; now symmetry. Qed.
Lemma eqw_trans a b c : eqw a b -> eqw b c -> eqw a c.
Proof. intros (A & B & C & D & E) (A' & B' & C' & D' & E'). repeat split; intros; etransitivity; eauto. Qed.
Lemma oeq_sym a b : oeq a b -> oeq b a.
Proof. destruct a, b; cbn; auto. apply eqw_sym. Qed.
Lemma oeq_trans a b c : oeq a b -> oeq b c -> oeq a c.
Proof. destruct a, b, c; cbn; try tauto. apply eqw_trans. Qed.

Section Law.
Context (f : fmpfile).

Lemma eq_represents d w w' : eqw w w' -> represents f d w -> represents f d w'.
Proof.
  intros (A & B & C & D & E) (R1 & R2 & R3 & R4 & R5). split; [congruence|]. split; [|split; [exact R3|split; [exact R4|]]].
  - intros i. rewrite R2, B, C. reflexivity.
  - intros t j r. rewrite R5, D, E. reflexivity.
Qed.

Lemma write_eq w w' i fl v : eqw w w' -> oeq (write f w i fl v) (write f w' i fl v).
Proof.
  intros (A & B & C & D & E). unfold write. rewrite B, C, D. destruct (occurs f i); cbn; auto. destruct (nthN _ _); cbn; auto. destruct (place_of _ _); cbn; auto. destruct (_ <? _); cbn; auto.
  repeat split; cbn; auto. intros. now rewrite E.
Qed.
Lemma go_eq w w' b p : eqw w w' -> oeq (go f w b p) (go f w' b p).
Proof.
  intros (A & B & C & D & E). unfold go. rewrite <- A, <- B. destruct (_ && _); cbn; auto. repeat split; cbn; auto. intros i. unfold but. rewrite A. destruct (i =? shown w'); auto.
Qed.
Lemma show_eq w w' rs p : eqw w w' -> eqw (show w rs p) (show w' rs p).
Proof. intros (A & B & C & D & E). repeat split; cbn; auto; intros i; unfold but; rewrite A; destruct (i =? shown w'); auto. Qed.
Lemma show_all_eq w w' : eqw w w' -> oeq (show_all f w) (show_all f w').
Proof.
  intros H. pose proof H as (A & B & C & D & E). unfold show_all. rewrite <- A, <- D, <- C. destruct (_ && _); cbn [oeq]; auto. now apply show_eq.
Qed.
Lemma step_eq w w' o : eqw w w' -> oeq (step f w o) (step f w' o).
Proof.
  intros H. pose proof H as (A & B & C & D & E). destruct o as [|name fl v|fl v|rs| | | | | | |h|]; cbn [step].
  - rewrite <- A. destruct (_ && _); cbn [oeq]; auto. repeat split; cbn; auto.
    + intros i. rewrite <- B, <- D. reflexivity.
    + intros i. rewrite <- B, <- C. reflexivity.
    + intros t. unfold but. rewrite <- !D. reflexivity.
    + intros t j r. rewrite <- D, <- E. reflexivity.
  - destruct (named f name); cbn; auto. now apply write_eq.
  - rewrite <- A. now apply write_eq.
  - destruct rs; [now apply show_all_eq|]. rewrite <- A. destruct (_ && _); cbn [oeq]; auto. now apply show_eq.
  - now apply show_all_eq.
  - rewrite <- A, <- B. now apply go_eq.
  - rewrite <- A, <- C. now apply go_eq.
  - rewrite <- A, <- B, <- C. now apply go_eq.
  - now apply go_eq.
  - rewrite <- A, <- B. now apply go_eq.
  - repeat split; auto.
  - repeat split; auto.
Qed.
Lemma steps_eq : forall os w w', eqw w w' -> oeq (steps f w os) (steps f w' os).
Proof.
  induction os as [|o os IH]; intros w w' H; cbn [steps]; [exact H|]. pose proof (step_eq w w' o H) as K. destruct (step f w o), (step f w' o); cbn in K; try tauto. now apply IH.
Qed.
Lemma steps_app : forall a b w, steps f w (a ++ b) = match steps f w a with Some w' => steps f w' b | None => None end.
Proof. induction a as [|o a IH]; intros b w; cbn [app steps]; [reflexivity|]. destruct (step f w o); auto. Qed.

Lemma go_found w b p w' : go f w b p = Some w' -> shown w' = shown w /\ found w' = found w /\ many w' = many w /\ value w' = value w /\ spot w' = but (spot w) (shown w) p.
Proof. unfold go. destruct (_ && _); [|discriminate]. intros Q. injection Q as <-. repeat split. Qed.
(** Two moves, where the second one does not ask more than the first. *)
Lemma go_go w b b' p q : (b = false -> b' = false) ->
  oeq (match go f w b p with Some w' => go f w' b' q | None => None end) (if b then go f w b' q else go f w false q).
Proof.
  intros H. unfold go at 1. destruct (occurs f (shown w)) eqn:O; cbn [andb]; [|unfold go; rewrite O; destruct b; exact I].
  destruct (negb (lenN (found w (shown w)) =? 0)) eqn:L.
  - rewrite orb_true_r. unfold go. cbn [at_spot shown found]. rewrite O, L, !orb_true_r. assert (K : eqw (at_spot (at_spot w p) q) (at_spot w q)).
    { repeat split; cbn. intros i. unfold but. destruct (i =? shown w); auto. }
    destruct b; cbn [oeq andb]; exact K.
  - rewrite orb_false_r. destruct b.
    + unfold go. cbn [at_spot shown found]. rewrite O, L. destruct b'; cbn [orb andb oeq]; [|exact I]. repeat split; cbn. intros i. unfold but. destruct (i =? shown w); auto.
    + unfold go. rewrite O, L. exact I.
Qed.
Lemma go_same w b p : spot w (shown w) = p -> oeq (go f w b p) (if occurs f (shown w) && (b || negb (lenN (found w (shown w)) =? 0)) then Some w else None).
Proof. intros H. unfold go. destruct (_ && _); cbn [oeq]; auto. repeat split; cbn. intros i. unfold but. destruct (N.eqb_spec i (shown w)); congruence. Qed.

Lemma created w w1 : step f w OCreate = Some w1 -> occurs f (shown w1) = true /\ spot w1 (shown w1) = lenN (found w1 (shown w1)) - 1 /\ negb (lenN (found w1 (shown w1)) =? 0) = true.
Proof.
  cbn [step]. destruct (occurs f (shown w)) eqn:O; [|discriminate]. destruct (_ <? _); [|discriminate]. cbn [andb]. intros Q. injection Q as <-. cbn [shown found spot]. rewrite N.eqb_refl, lenN_app. assert (L : lenN [many w (base f (shown w))] = 1) by reflexivity. rewrite L. split; [exact O|]. split; lia.
Qed.

(** What a write does, and when it is possible. *)
Definition wrote_at (w : world) (i j r : N) (v : list N) : world :=
  mkWorld (shown w) (found w) (spot w) (many w) (fun t k s => if (t =? base f i) && (k =? j) && (s =? r) then v else value w t k s).
Definition target (w : world) (i : N) (fl : list N) : option (N * N) :=
  if occurs f i then match nthN (found w i) (spot w i), place_of fl (headings f (base f i)) with Some r, Some j => if r <? many w (base f i) then Some (j, r) else None | _, _ => None end else None.
Lemma write_target w i fl v : write f w i fl v = option_map (fun p => wrote_at w i (fst p) (snd p) v) (target w i fl).
Proof. unfold write, target. destruct (occurs f i); [|reflexivity]. destruct (nthN _ _); [|reflexivity]. destruct (place_of _ _); [|reflexivity]. destruct (_ <? _); reflexivity. Qed.
Lemma target_wrote w i j r v i' fl : target (wrote_at w i j r v) i' fl = target w i' fl.
Proof. reflexivity. Qed.
Lemma place_inj fl fl' l j : place_of fl l = Some j -> place_of fl' l = Some j -> fl = fl'.
Proof. intros A B. apply place_ok in A as [A _]. apply place_ok in B as [B _]. congruence. Qed.
Lemma target_diff w i fl fl' j r j' r' : fl <> fl' -> target w i fl = Some (j, r) -> target w i fl' = Some (j', r') -> j <> j'.
Proof.
  unfold target. destruct (occurs f i); [|discriminate]. destruct (nthN _ _); [|discriminate]. destruct (place_of fl _) eqn:A; [|discriminate]. destruct (place_of fl' _) eqn:B; [|discriminate]. destruct (_ <? _); [|discriminate].
  intros Nf P Q. injection P as -> ->. injection Q as -> ->. intros ->. apply Nf. eapply place_inj; eauto.
Qed.
Lemma kept w i fl v w1 : write f w i fl v = Some w1 -> shown w1 = shown w.
Proof. rewrite write_target. destruct (target w i fl); [|discriminate]. cbn. intros Q. injection Q as <-. reflexivity. Qed.
Lemma twice w i fl v v' : oeq (match write f w i fl v with Some w1 => write f w1 i fl v' | None => None end) (write f w i fl v').
Proof.
  rewrite !write_target. destruct (target w i fl) as [[j r]|] eqn:T; cbn [option_map]; [|exact I]. rewrite write_target, target_wrote, T. cbn [option_map oeq fst snd]. repeat split; cbn. intros t k s. destruct (_ && _ && _); reflexivity.
Qed.
Lemma either w i fl fl' v v' : fl <> fl' -> oeq (match write f w i fl v with Some w1 => write f w1 i fl' v' | None => None end) (match write f w i fl' v' with Some w1 => write f w1 i fl v | None => None end).
Proof.
  intros D. rewrite !write_target. destruct (target w i fl) as [[j r]|] eqn:T, (target w i fl') as [[j' r']|] eqn:T'; cbn [option_map]; rewrite ?write_target, ?target_wrote, ?T, ?T'; cbn [option_map oeq fst snd]; auto.
  pose proof (target_diff _ _ _ _ _ _ _ _ D T T') as Nj. repeat split; cbn. intros t k s. destruct (N.eqb_spec k j), (N.eqb_spec k j'); subst; rewrite ?andb_true_r, ?andb_false_r; cbn [andb]; auto. congruence.
Qed.

Lemma law_ok a b : law a b -> forall w, oeq (steps f w a) (steps f w b).
Proof.
  assert (One : forall w o, steps f w [o] = step f w o) by (intros w o; cbn [steps]; now destruct (step f w o)).
  assert (Two : forall w o o', steps f w [o; o'] = match step f w o with Some w' => step f w' o' | None => None end) by (intros w o o'; cbn [steps]; destruct (step f w o) as [w1|]; [now destruct (step f w1 o')|reflexivity]).
  assert (G : forall w o o' b1 p b2 (q : world -> N), step f w o = go f w b1 p -> (b1 = false -> b2 = false) -> (forall w', step f w' o' = go f w' b2 (q w')) ->
    (forall w', go f w b1 p = Some w' -> q w' = q w) -> (b1 = false \/ True) -> oeq (steps f w [o; o']) (steps f w [o'])).
  { intros w o o' b1 p b2 q S1 B S2 Q _. rewrite One, Two, S1, S2. pose proof (go_go w b1 b2 p (q w) B) as K. destruct (go f w b1 p) as [w1|] eqn:E.
    - rewrite S2, (Q w1 eq_refl). destruct b1; [exact K|]. rewrite (B eq_refl) in *. exact K.
    - destruct b1; [exact K|]. rewrite (B eq_refl). exact K. }
  assert (La : forall w b p w', go f w b p = Some w' -> lenN (found w' (shown w')) - 1 = lenN (found w (shown w)) - 1) by (intros w b0 p w' E; apply go_found in E as (-> & -> & _); reflexivity).
  destruct 1; intros w.
  - repeat split.
  - repeat split.
  - apply (G w OFirst OFirst true 0 true (fun _ => 0)); auto.
  - apply (G w OPrevious OFirst true (spot w (shown w) - 1) true (fun _ => 0)); auto.
  - rewrite One, Two. cbn [step]. unfold go at 1 3. destruct (occurs f (shown w)) eqn:O; cbn [orb andb]; [|exact I]. unfold go. cbn [at_spot shown found spot]. rewrite O. cbn [orb andb oeq]. repeat split; cbn. intros i. unfold but. rewrite N.eqb_refl. destruct (i =? shown w); auto.
  - apply (G w OFirst OLast true 0 false (fun w => lenN (found w (shown w)) - 1)); auto. intros w' E. now apply La in E.
  - apply (G w OPrevious OLast true (spot w (shown w) - 1) false (fun w => lenN (found w (shown w)) - 1)); auto. intros w' E. now apply La in E.
  - eapply (G w ONext OLast false _ false (fun w => lenN (found w (shown w)) - 1)); [reflexivity|auto|auto| |auto]. intros w' E. now apply La in E.
  - eapply (G w OLast OLast false _ false (fun w => lenN (found w (shown w)) - 1)); [reflexivity|auto|auto| |auto]. intros w' E. now apply La in E.
  - rewrite One, Two. cbn [step]. unfold go at 1 3. destruct (occurs f (shown w)) eqn:O; cbn [orb andb]; [|exact I]. destruct (negb _) eqn:L; [|exact I]. unfold go. cbn [at_spot shown found spot]. rewrite O, L. cbn [orb andb oeq].
    repeat split; cbn. intros i. unfold but. rewrite N.eqb_refl, N.ltb_irrefl. destruct (i =? shown w); auto.
  - eapply (G w (OGoto n) OLast false _ false (fun w => lenN (found w (shown w)) - 1)); [reflexivity|auto|auto| |auto]. intros w' E. now apply La in E.
  - eapply (G w (OGoto n) (OGoto m) false _ false (fun w => N.min m (lenN (found w (shown w)) - 1))); [reflexivity|auto|auto| |auto]. intros w' E. apply La in E. now rewrite E.
  - eapply (G w OFirst (OGoto n) true _ false (fun w => N.min n (lenN (found w (shown w)) - 1))); [reflexivity|auto|auto| |auto]. intros w' E. apply La in E. now rewrite E.
  - rewrite One, Two. destruct (step f w OCreate) as [w1|] eqn:E; [|exact I]. apply created in E as (O & X & Y). cbn [step]. pose proof (go_same w1 false _ X) as K. rewrite O, Y in K. exact K.
  - rewrite One, Two. destruct (step f w OCreate) as [w1|] eqn:E; [|exact I]. apply created in E as (O & X & Y). cbn [step]. pose proof (go_same w1 false _ X) as K. rewrite O, Y in K. rewrite X, N.ltb_irrefl. exact K.
  - rewrite !One. cbn [step]. destruct (show_all f w); cbn; auto using eqw_refl.
  - rewrite One, Two. cbn [step]. unfold show_all at 1 3. destruct (_ && _) eqn:Q; [|exact I]. unfold show_all. cbn [show shown many spot]. rewrite Q. cbn [oeq]. unfold but. rewrite N.eqb_refl.
    repeat split; cbn; intros i; unfold but; destruct (i =? shown w); auto.
  - rewrite One, Two. cbn [step]. destruct (occurs f (shown w) && (0 <? width f (base f (shown w)))) eqn:Q.
    + assert (K : forall rs0 p, oeq (if occurs f (shown (show w rs0 p)) && (0 <? width f (base f (shown (show w rs0 p)))) then Some (show (show w rs0 p) (r :: rs') 0) else None) (Some (show w (r :: rs') 0))).
      { intros rs0 p. cbn [show shown]. rewrite Q. cbn [oeq]. repeat split; cbn; intros i; unfold but; destruct (i =? shown w); auto. }
      destruct rs as [|r0 rs]; [unfold show_all; rewrite Q|]; apply K.
    + destruct rs as [|r0 rs]; [unfold show_all; rewrite Q|]; exact I.
  - rewrite One, Two. cbn [step]. unfold show_all. destruct (occurs f (shown w) && (0 <? width f (base f (shown w)))) eqn:Q; [|exact I]. cbn [show shown]. rewrite Q. cbn [oeq]. repeat split; cbn; intros i; unfold but; destruct (i =? shown w); auto.
  - rewrite One, Two. cbn [step]. destruct (occurs f (shown w) && (0 <? width f (base f (shown w)))) eqn:Q; [|exact I]. unfold go. cbn [show shown found]. destruct (occurs f (shown w)); [|discriminate]. cbn [orb andb oeq]. repeat split; cbn; intros i; unfold but; destruct (i =? shown w); auto.
  - rewrite One, Two. cbn [step]. pose proof (twice w (shown w) field v v') as K. assert (Sh : forall w1, write f w (shown w) field v = Some w1 -> shown w1 = shown w) by apply kept. destruct (write f w (shown w) field v) as [w1|]; [|exact K]. now rewrite (Sh w1 eq_refl).
  - rewrite One, Two. cbn [step]. destruct (named f name) as [i|]; [|exact I]. apply twice.
  - rewrite !Two. cbn [step]. match goal with D : ?f1 <> ?f2 |- _ => pose proof (either w (shown w) f1 f2 v u D) as K end.
    assert (Sh : forall fl v w1, write f w (shown w) fl v = Some w1 -> shown w1 = shown w) by (intros fl v0; apply kept).
    destruct (write f w (shown w) f0 v) as [w1|] eqn:E1; [rewrite (Sh _ _ _ E1)|]; (destruct (write f w (shown w) g u) as [w2|] eqn:E2; [rewrite (Sh _ _ _ E2)|]); exact K.
  - rewrite !Two. cbn [step]. destruct (named f name) as [i|]; [|exact I]. now apply either.
  - rewrite !Two. cbn [step]. destruct (named f name) as [i|]; [|exact I]. rewrite !write_target. unfold target. cbn [found spot many]. destruct (occurs f i); [|exact I]. destruct (nthN _ _); [|exact I]. destruct (place_of _ _); [|exact I]. destruct (_ <? _); [|exact I]. repeat split.
Qed.

Lemma equal_ok a b : equal a b -> forall w, oeq (steps f w a) (steps f w b).
Proof.
  induction 1 as [os|pre a b post os L H IH]; intros w; [destruct (steps f w os); cbn; auto using eqw_refl|]. eapply oeq_trans; [|apply IH]. rewrite !steps_app. destruct (steps f w pre) as [w1|]; [|exact I].
  rewrite !steps_app. assert (K : oeq (steps f w1 a) (steps f w1 b)) by (destruct L as [L|L]; [now apply law_ok|apply oeq_sym; now apply law_ok]).
  destruct (steps f w1 a) as [x|], (steps f w1 b) as [y|]; cbn in K; try tauto. now apply steps_eq.
Qed.
End Law.
