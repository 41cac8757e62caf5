(** Proofs about the lines printed while a file is decompiled. *)
From Coq Require Import Ascii String NArith ZArith List Bool Arith Lia Permutation.
From Verif Require Import Prelude PreludeFacts Utf8 EncodingModel CharConvModel ChunkModel InstrModel ComponentModel DecompModel DecompSpec DecompMaps DecompCalc DecompScript HistorySpec History History3 StepsSpec Steps Steps2 Steps3 ReportModel ReportSpec.
From Verif Require Abort4.
Import ListNotations.
Local Open Scope N_scope.

Lemma and_snd {A B} (x : reported A) (k : A -> reported B) : snd (and_report x k) = bind (snd x) (fun a => snd (k a)).
Proof. unfold and_report. destruct (snd x); reflexivity. Qed.
Lemma bind_same {A B} (x y : outcome A) (f g : A -> outcome B) : x = y -> (forall a, f a = g a) -> bind x f = bind y g.
Proof. intros -> H. destruct y; cbn; auto. Qed.

(** Codes without anything behind them. *)
Lemma calc_one f c l r : ~ In c [0x9c; 0xfb; 0x10; 0x13; 0x1a] -> exists r', calc_loop_reported (S f) (c :: l) r = calc_loop_reported f l r' /\ calc_loop (S f) (c :: l) r = calc_loop f l r'.
Proof.
  intros H. destruct c as [|p]; [eexists; split; reflexivity|].
  repeat match goal with p : positive |- _ => destruct p as [p|p|]; try (eexists; split; reflexivity) end; exfalso; apply H; cbn; tauto.
Qed.
Lemma calc_snd f : forall l r, snd (calc_loop_reported f l r) = calc_loop f l r.
Proof.
  induction f as [|f IH]; intros [|c l] r; try reflexivity. destruct (in_dec N.eq_dec c [0x9c; 0xfb; 0x10; 0x13; 0x1a]) as [I|I].
  2: { destruct (calc_one f c l r I) as (r' & -> & ->). apply IH. }
  cbn in I. repeat destruct I as [<-|I]; try contradiction.
  - destruct l; cbn [calc_loop_reported calc_loop]; auto.
  - destruct l as [|b l]; cbn [calc_loop_reported calc_loop]; auto. unfold prints. cbn [snd]. apply IH.
  - cbn [calc_loop_reported calc_loop]. rewrite and_snd. apply bind_same; auto.
  - destruct l as [|b l]; cbn [calc_loop_reported calc_loop]; auto. rewrite and_snd. apply bind_same; auto. intros []. apply IH.
  - destruct l as [|b l]; cbn [calc_loop_reported calc_loop]; auto. rewrite and_snd. apply bind_same; auto. intros []. apply IH.
Qed.
Lemma calculation_snd d : snd (calculation_reported d) = decompile_calculation d.
Proof. apply calc_snd. Qed.

Lemma intrinsic_is b : intrinsic_report b = if b =? 3 then [] else [RFunction].
Proof. destruct b as [|[[p|p|]|p|]]; reflexivity. Qed.
Lemma calc_told f : forall l r m x, calc_loop_reported f l r = (m, Ok x) -> calc_tells l m.
Proof.
  induction f as [|f IH]; intros l r m x H; [discriminate|]. destruct l as [|c l]; [inversion H; subst; exists []; split; [constructor|reflexivity]|].
  destruct (in_dec N.eq_dec c [0x9c; 0xfb; 0x10; 0x13; 0x1a]) as [I|I].
  2: { destruct (calc_one f c l r I) as (r' & E & _). rewrite E in H. apply IH in H as (cs & C & ->). exists ([c] :: cs). split; [now constructor|reflexivity]. }
  cbn in I. repeat destruct I as [<-|I]; try contradiction.
  - destruct l as [|b l]; cbn [calc_loop_reported] in H; [discriminate|]. apply IH in H as (cs & C & ->). exists ([156; b] :: cs). split; [constructor; cbn; auto|reflexivity].
  - destruct l as [|b l]; cbn [calc_loop_reported] in H; [discriminate|]. unfold prints in H. destruct (calc_loop_reported f l _) as [m' y] eqn:E. cbn [fst snd] in H. inversion H; subst.
    apply IH in E as (cs & C & ->). exists ([251; b] :: cs). split; [constructor; cbn; auto|]. rewrite intrinsic_is. cbn [filter strange]. change (251 =? 251) with true. cbn [andb]. destruct (b =? 3); reflexivity.
  - cbn [calc_loop_reported] in H. unfold and_report, mute in H. cbn [fst snd] in H. unfold at_ in H. destruct (nthN l 8) as [b|] eqn:N; [|discriminate]. cbn [unwrap] in H.
    destruct (calc_loop_reported f (skipn 19 l) _) as [m' y] eqn:E. cbn [fst snd app] in H. inversion H; subst. apply IH in E as (cs & C & ->).
    rewrite <- (firstn_skipn 19 l). exists ((16 :: firstn 19 l) :: cs). split; [|].
    + apply CdNumber; [|exact C]. assert (L : 8 < lenN l) by (destruct (N.lt_ge_cases 8 (lenN l)) as [G|G]; [exact G|apply nthN_None in G; congruence]).
      unfold lenN in *. rewrite firstn_length. destruct (le_lt_dec 19 (length l)); [left; lia|right]. split; [lia|]. split; [lia|]. apply skipn_all2. lia.
    + cbn [filter]. change (strange (16 :: firstn 19 l)) with (match firstn 19 l with x :: _ => (16 =? 251) && negb (x =? 3) | [] => false end). destruct (firstn 19 l); reflexivity.
  - destruct l as [|b l]; cbn [calc_loop_reported] in H; [discriminate|]. unfold and_report, mute in H. cbn [fst snd] in H. destruct (take_exact b l) as [[t l3]| |] eqn:T; try discriminate.
    destruct (calc_loop_reported f l3 _) as [m' y] eqn:E. cbn [fst snd app] in H. inversion H; subst. apply IH in E as (cs & C & ->). apply take_exact_inv in T as [-> ->].
    exists ((19 :: lenN t :: t) :: cs). split; [constructor; cbn; auto|reflexivity].
  - destruct l as [|b l]; cbn [calc_loop_reported] in H; [discriminate|]. unfold and_report, mute in H. cbn [fst snd] in H. destruct (take_exact b l) as [[t l3]| |] eqn:T; try discriminate.
    destruct (calc_loop_reported f l3 _) as [m' y] eqn:E. cbn [fst snd app] in H. inversion H; subst. apply IH in E as (cs & C & ->). apply take_exact_inv in T as [-> ->].
    exists ((26 :: lenN t :: t) :: cs). split; [constructor; cbn; auto|reflexivity].
Qed.
(** In any case nothing but such lines. *)
Lemma calc_any f : forall l r, Forall (eq RFunction) (fst (calc_loop_reported f l r)).
Proof.
  induction f as [|f IH]; intros [|c l] r; try constructor. destruct (in_dec N.eq_dec c [0x9c; 0xfb; 0x10; 0x13; 0x1a]) as [I|I].
  2: { destruct (calc_one f c l r I) as (r' & -> & _). apply IH. }
  cbn in I. repeat destruct I as [<-|I]; try contradiction.
  - destruct l; cbn [calc_loop_reported]; [constructor|apply IH].
  - destruct l as [|b l]; cbn [calc_loop_reported]; [constructor|]. unfold prints. cbn [fst]. apply Forall_app. split; [|apply IH]. rewrite intrinsic_is. destruct (b =? 3); repeat constructor.
  - cbn [calc_loop_reported]. unfold and_report, mute. cbn [fst snd]. destruct (at_ l 8); cbn [fst app]; try constructor. apply IH.
  - destruct l as [|b l]; cbn [calc_loop_reported]; [constructor|]. unfold and_report, mute. cbn [fst snd]. destruct (take_exact b l) as [[]| |]; cbn [fst app]; try constructor. apply IH.
  - destruct l as [|b l]; cbn [calc_loop_reported]; [constructor|]. unfold and_report, mute. cbn [fst snd]. destruct (take_exact b l) as [[]| |]; cbn [fst app]; try constructor. apply IH.
Qed.

(** The codes of a calculation are determined. *)
Lemma codes_det d cs : codes d cs -> forall cs', codes d cs' -> cs = cs'.
Proof.
  induction 1 as [|b d cs I C IH|b x d cs I C IH|n d cs L C IH|b t d cs I C IH]; intros cs' H'.
  - now inversion H'.
  - inversion H' as [|b' d' cs1 I' C'|b' x' d' cs1 I' C'|n' d' cs1 L' C'|b' t' d' cs1 I' C']; subst; [now rewrite (IH _ C')|..]; exfalso; apply I; cbn in *; tauto.
  - inversion H' as [|b' d' cs1 I' C'|b' x' d' cs1 I' C'|n' d' cs1 L' C'|b' t' d' cs1 I' C']; subst; [exfalso; apply I'; cbn in *; tauto|now rewrite (IH _ C')|cbn in I; intuition discriminate|].
    cbn in I, I'. destruct I as [<-|[<-|[]]]; destruct I' as [I'|[I'|[]]]; discriminate.
  - inversion H' as [|b' d' cs1 I' C'|b' x' d' cs1 I' C' E|n' d' cs1 L' C' E|b' t' d' cs1 I' C' E]; subst; [exfalso; apply I'; cbn in *; tauto|cbn in I'; intuition discriminate| |cbn in I'; intuition discriminate].
    assert (Q : n = n' /\ d = d'). { destruct L as [L|(L1 & L2 & ->)], L' as [L'|(L1' & L2' & ->)]; rewrite ?app_nil_r in *.
      - apply app_inj_len in E as [-> ->]; auto; congruence.
      - subst. exfalso. rewrite lenN_app in L2'. lia.
      - subst. exfalso. rewrite lenN_app in L2. lia.
      - auto. }
    destruct Q as [-> ->]. now rewrite (IH _ C').
  - inversion H' as [|b' d' cs1 I' C'|b' x' d' cs1 I' C' E|n' d' cs1 L' C' E|b' t' d' cs1 I' C' E E']; subst; [exfalso; apply I'; cbn in *; tauto| |cbn in I; intuition discriminate|].
    + cbn in I, I'. destruct I as [<-|[<-|[]]]; destruct I' as [I'|[I'|[]]]; discriminate.
    + match goal with H : _ ++ _ = _ ++ _ |- _ => apply app_inj_len in H as [-> ->]; [|congruence] end. now rewrite (IH _ C').
Qed.
Lemma calc_tells_det d l l' : calc_tells d l -> calc_tells d l' -> l = l'.
Proof. intros (cs & C & ->) (cs' & C' & ->). now rewrite (codes_det _ _ C _ C'). Qed.

(** Without the lines these are the functions of DecompModel.v. *)
Lemma occurrence_snd ch s : snd (occurrence_reported ch s) = arm_occurrence ch s.
Proof.
  unfold occurrence_reported. destruct (cref ch) as [k|] eqn:K; [|reflexivity]. destruct (N.eq_dec k 2) as [->|Hk].
  - unfold arm_occurrence. rewrite K. rewrite and_snd. apply bind_same; [reflexivity|intros d]. rewrite and_snd. apply bind_same; [reflexivity|intros t]. rewrite and_snd. apply bind_same; [reflexivity|intros b]. reflexivity.
  - destruct k as [|[p|[p|p|]|]]; reflexivity || congruence.
Qed.
Lemma push_snd i g h l : (forall st, snd (g st) = h st) -> snd (push_reported l i g) = push_switch l i h.
Proof.
  intros H. induction l as [|x l IH]; [reflexivity|]. cbn [push_reported push_switch]. destruct (step_index x =? i); rewrite and_snd; apply bind_same; auto.
Qed.
Lemma mod_snd s i g h : (forall l, snd (g l) = h l) -> snd (mod_reported s i g) = mod_steps s i h.
Proof. intros H. unfold mod_reported, mod_steps. rewrite and_snd. apply bind_same; [reflexivity|intros sc]. rewrite and_snd. apply bind_same; auto. Qed.
Lemma value_snd k i ch s : snd (value_reported k i ch s) = arm_step_value k i ch s.
Proof.
  unfold value_reported, arm_step_value. set (n := match cref ch with Some k => k | None => 0 end). destruct (N.eq_dec n 5) as [->|Hn].
  - apply mod_snd. intros l. apply push_snd. intros st. destruct (instr_eqb (opcode st) ISetVariable); [reflexivity|]. destruct (instr_eqb (opcode st) IExitScript); [|reflexivity].
    rewrite and_snd. apply bind_same; [reflexivity|intros d]. rewrite and_snd. apply bind_same; [apply calculation_snd|reflexivity].
  - clearbody n. destruct n as [|[[p|[p|p|]|]|p|]]; reflexivity || congruence.
Qed.
Lemma step_calc_snd k i ch s : snd (step_calc_reported k i ch s) = arm_step_calc k i ch s.
Proof.
  unfold step_calc_reported, arm_step_calc. set (n := match cref ch with Some k => k | None => 0 end). rewrite and_snd. apply bind_same; [|intros s'; rewrite and_snd; reflexivity]. destruct (N.eq_dec n 5) as [->|Hn].
  - rewrite and_snd. apply bind_same; [reflexivity|intros d]. rewrite and_snd. apply bind_same; [apply calculation_snd|reflexivity].
  - clearbody n. destruct n as [|[[p|[p|p|]|]|p|]]; reflexivity || congruence.
Qed.

(** What a record can print, by its directory. *)
Definition report_arm (path : list N) (ch : chunk) (s : dstate) : reported dstate :=
  match place_of path with
  | POccurrence => occurrence_reported ch s
  | _ =>
    match step_place_of path with
    | SValue k i => value_reported k i ch s
    | SCalc k i => step_calc_reported k i ch s
    | _ => mute (dispatch path ch s)
    end
  end.
Lemma report_place path ch s : dispatch_reported path ch s = report_arm path ch s.
Proof.
  unfold report_arm, dispatch_reported, place_of, step_place_of, dispatch.
  repeat match goal with |- context [match ?x with _ => _ end] => is_var x; destruct x end; try reflexivity.
Qed.

Lemma dispatch_snd path ch s : snd (dispatch_reported path ch s) = dispatch path ch s.
Proof.
  rewrite report_place. unfold report_arm. pose proof (dispatch_place path ch s) as P. pose proof (dispatch_step path ch s) as Q.
  destruct (place_of path); try (rewrite <- P; cbn [at_arm]; apply occurrence_snd); destruct (step_place_of path); try reflexivity; rewrite <- Q; cbn [step_arm]; (apply value_snd || apply step_calc_snd).
Qed.
Lemma chunk_loop_snd buf bound start fuel : forall off path s, snd (chunk_loop_reported fuel buf off bound start path s) = chunk_loop fuel buf off bound start path s.
Proof.
  induction fuel as [|fuel IH]; intros off path s; [reflexivity|]. cbn [chunk_loop_reported chunk_loop]. destruct (off <? bound); [|reflexivity].
  rewrite and_snd. apply bind_same; [reflexivity|]. intros [[[ch off'] path']|e]; [|reflexivity]. rewrite and_snd. apply bind_same; [apply dispatch_snd|auto].
Qed.
Lemma sector_loop_snd buf last fuel : forall i s, snd (sector_loop_reported fuel buf last i s) = sector_loop fuel buf last i s.
Proof.
  induction fuel as [|fuel IH]; intros i s; [reflexivity|]. cbn [sector_loop_reported sector_loop]. destruct (i =? 0); [reflexivity|].
  rewrite and_snd. apply bind_same; [reflexivity|intros rest]. rewrite and_snd. apply bind_same; [reflexivity|intros sec]. destruct (i <? last); [|reflexivity].
  rewrite and_snd. apply bind_same; [apply (chunk_loop_snd buf _ _ (S fuel))|auto].
Qed.
Theorem decompile_snd order fuel buf : snd (decompile_reported order fuel buf) = decompile order fuel buf.
Proof.
  unfold decompile_reported, decompile. rewrite and_snd. apply bind_same; [reflexivity|intros rest]. rewrite and_snd. apply bind_same; [reflexivity|intros sec].
  rewrite and_snd. apply bind_same; [apply sector_loop_snd|intros s]. rewrite and_snd. apply bind_same; reflexivity.
Qed.

(** One record. *)
Lemma push_told i g l : forall m l', push_reported l i g = (m, Ok l') ->
  exists pre st post st', l = pre ++ st :: post /\ step_index st = i /\ Forall (fun x => step_index x <> i) pre /\ g st = (m, Ok st').
Proof.
  induction l as [|x l IH]; intros m l' H; [discriminate|]. cbn [push_reported] in H. unfold and_report, mute in H. destruct (N.eqb_spec (step_index x) i) as [E|E].
  - destruct (g x) as [m' [st'| |]] eqn:G; cbn [fst snd] in H; try discriminate. rewrite app_nil_r in H. inversion H; subst. exists [], x, l, st'. repeat split; auto.
  - destruct (push_reported l i g) as [m' [r| |]]; cbn [fst snd] in H; try discriminate. rewrite app_nil_r in H. inversion H; subst.
    destruct (IH _ _ eq_refl) as (pre & st & post & st' & -> & I & F & G). exists (x :: pre), st, post, st'. repeat split; auto.
Qed.
Lemma mod_told s k g m s' : mod_reported s k g = (m, Ok s') -> exists l', g (stp s k) = (m, Ok l').
Proof.
  unfold mod_reported, and_report, mute, stp, nam. cbv zeta. destruct (nget (f_scripts (d_file s)) k) as [sc|]; cbn [unwrap fst snd app]; [|discriminate].
  destruct (g (sc_steps sc)) as [m' [l'| |]]; cbn [fst snd]; try discriminate. rewrite app_nil_r. intros [= -> _]. eauto.
Qed.
Lemma value_eq k i ch s : value_reported k i ch s =
  if has_key 5 ([], ch) then mod_reported s k (fun steps => push_reported steps i (fun st =>
      if instr_eqb (opcode st) ISetVariable then mute (Ok (add_switch (text_of ([], ch)) st))
      else if instr_eqb (opcode st) IExitScript then and_report (mute (unwrap (cdata ch))) (fun d => and_report (calculation_reported d) (fun c => mute (Ok (add_switch c st))))
      else mute (Ok st))) else mute (Ok s).
Proof. unfold value_reported, has_key, text_of. cbn [snd]. cbv zeta. destruct (cref ch) as [[|[[p|[p|p|]|]|p|]]|]; reflexivity. Qed.
Lemma calc_eq k i ch s : step_calc_reported k i ch s =
  and_report (if has_key 5 ([], ch) then and_report (mute (unwrap (cdata ch))) (fun d => and_report (calculation_reported d) (fun c => mute (mod_steps s k (fun steps => push_switch steps i (fun st => Ok (add_switch c st))))))
    else mute (Ok s)) (fun s => and_report (mute (unwrap (nget (f_scripts (d_file s)) k))) (fun _ => mute (Ok s))).
Proof. unfold step_calc_reported, has_key. cbn [snd]. destruct (cref ch) as [[|[[p|[p|p|]|]|p|]]|]; reflexivity. Qed.

Lemma calc_here {A} ch (k : list N -> outcome A) m a p : and_report (mute (unwrap (cdata ch))) (fun d => and_report (calculation_reported d) (fun c => mute (k c))) = (m, Ok a) -> calc_of (p, ch) m.
Proof.
  unfold and_report, mute. cbn [fst snd]. destruct (cdata ch) as [d|] eqn:E; cbn [unwrap]; [|discriminate]. destruct (calculation_reported d) as [m' [c| |]] eqn:Q; cbn [fst snd app]; try discriminate.
  rewrite app_nil_r. intros [= -> _]. exists d. split; [exact E|]. eapply calc_told. exact Q.
Qed.
Lemma place_first path : place_of path = POccurrence -> step_place_of path = SOther.
Proof.
  unfold place_of, step_place_of. repeat match goal with |- context [match ?x with _ => _ end] => is_var x; destruct x end; try discriminate; reflexivity.
Qed.
Lemma record_tells h path ch s m s' : so_far h s -> dispatch_reported path ch s = (m, Ok s') -> entry_tells h (path, ch) m.
Proof.
  intros F. rewrite report_place. unfold report_arm. destruct (place_of path) eqn:P.
  2: { intros H. unfold occurrence_reported in H. assert (O : occurrence_here (path, ch) = true) by (unfold occurrence_here, at_place; cbn [fst]; now rewrite P).
       destruct (cref ch) as [k|] eqn:K.
       - destruct (N.eq_dec k 2) as [->|Hk].
         + unfold and_report, mute in H. cbn [fst snd] in H. destruct (cdata ch) as [d|] eqn:D; cbn [unwrap] in H; [|discriminate]. unfold at_ in H. destruct (nthN d 6) as [t|]; cbn [unwrap] in H; [|discriminate].
           destruct (nthN d 2) as [b|] eqn:B; cbn [unwrap] in H; [|discriminate]. cbn [prints fst snd app] in H. inversion H; subst. apply EtOccurrence.
           * unfold starts_occurrence. rewrite O. apply has_key_some. exact K.
           * unfold byte_of. cbn [snd]. now rewrite D.
         + assert (Q : mute (arm_occurrence ch s) = (m, Ok s')) by (destruct k as [|[p|[p|p|]|]]; exact H || congruence). inversion Q; subst.
           apply EtOther; [unfold starts_occurrence; rewrite O; apply has_key_other; congruence|..]; intros k' i; unfold step_here; cbn [fst]; rewrite (place_first _ P); discriminate.
       - inversion H; subst. apply EtOther; [unfold starts_occurrence; rewrite O; apply has_key_other; congruence|..]; intros k' i; unfold step_here; cbn [fst]; rewrite (place_first _ P); discriminate. }
  all: assert (O : starts_occurrence (path, ch) = false) by (unfold starts_occurrence, occurrence_here, at_place; cbn [fst]; now rewrite P).
  all: destruct (step_place_of path) as [x|x i|x i|x i|x|] eqn:Q; intros H;
    try (inversion H; subst; apply EtOther; [exact O|..]; intros k' i'; unfold step_here; cbn [fst]; rewrite Q; discriminate).
  all: try (rewrite value_eq in H; destruct (has_key 5 ([], ch)) eqn:K; [|inversion H; subst; eapply EtValueKey; [exact Q|exact K]];
    apply mod_told in H as (l' & H); apply push_told in H as (pre & st & post & st' & E & I & Fp & G);
    destruct (instr_eqb (opcode st) ISetVariable) eqn:V;
    [inversion G; subst; eapply EtValue; [exact Q|exact K|apply (sf_steps _ _ F)|rewrite E; repeat eexists; eauto|intros C; rewrite C in V; discriminate]|];
    destruct (instr_eqb (opcode st) IExitScript) eqn:X;
    [eapply EtExit; [exact Q|exact K|apply (sf_steps _ _ F)|rewrite E; repeat eexists; eauto; now apply instr_dec|eapply calc_here; exact G]
    |inversion G; subst; eapply EtValue; [exact Q|exact K|apply (sf_steps _ _ F)|rewrite E; repeat eexists; eauto|intros C; rewrite C in X; discriminate]]).
  all: rewrite calc_eq in H; destruct (has_key 5 ([], ch)) eqn:K.
  all: unfold and_report at 1 in H; match type of H with context [match snd ?X with _ => _ end] => destruct X as [m1 [s1| |]] eqn:X1 end; cbn [fst snd] in H; try discriminate.
  all: unfold and_report, mute in H; cbn [fst snd] in H; destruct (nget (f_scripts (d_file s1)) _); cbn [unwrap fst snd app] in H; try discriminate; rewrite ?app_nil_r in H; inversion H; subst.
  all: first [eapply EtCalc; [exact Q|exact K|eapply calc_here; exact X1]|inversion X1; subst; eapply EtCalcKey; [exact Q|exact K]].
Qed.
