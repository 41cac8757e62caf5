(** Control flow, the other way: a run that ends is an execution of the program. *)
From Coq Require Import Ascii String NArith List Bool Sorted Lia Arith.
From Verif Require Import Prelude PreludeFacts StrOrder StrOrderFacts InstrModel ComponentModel CalcModel CalcSpec CalcFacts DbModel DbSpec DbFacts DbProofs
  EvalModel EvalSpec EvalProofs EvalCycle EvalFuel VmModel VmSpec VmTestSpec VmParts VmSteps VmRun.
Import ListNotations.
Local Open Scope N_scope.

Ltac len := repeat rewrite lenN_app; repeat rewrite lenN_cons; repeat rewrite lenN_app; repeat rewrite lenN_cons; repeat rewrite lenN_nil; lia.
Ltac lists := cbn [app]; repeat (rewrite <- app_assoc; cbn [app]); reflexivity.

Section R.
Context (E : fenv) (file : fmpfile).
Local Notation vm_step := (vm_step E file).
Local Notation run_test := (run_test E file).

(** ** Every running script has a scope *)
Definition scoped (s : vm) : Prop := lenN (vm_ip s) <= lenN (vm_vars s).
Lemma jump_ip s i : lenN (vm_ip (jump s i)) = lenN (vm_ip s).
Proof. unfold jump. destruct (vm_ip s) as [|[a b] l] eqn:K; cbn; rewrite ?K; reflexivity. Qed.
Lemma jump_vars s i : vm_vars (jump s i) = vm_vars s.
Proof. unfold jump. destruct (vm_ip s) as [|[a b] l]; reflexivity. Qed.
Lemma scoped_jump s i : scoped (jump s i) <-> scoped s.
Proof. unfold scoped. now rewrite jump_ip, jump_vars. Qed.
Lemma scoped_advance s : scoped (advance s) <-> scoped s.
Proof. apply scoped_jump. Qed.

Lemma scoped_step s s' : scoped s -> vm_step s = Ok s' -> scoped s'.
Proof.
  intros W H. unfold VmModel.vm_step in H.
  apply bind_ok in H as (u & _ & H). apply bind_ok in H as (sc & _ & H).
  destruct (nthN (sc_steps sc) (here s)) as [cur|].
  2:{ inversion H; subst. unfold scoped in *. cbn. destruct (vm_ip s); cbn in *; unfold lenN in *; cbn [length] in *; lia. }
  destruct (opcode cur); repeat (match goal with
    | K : bind _ _ = Ok _ |- _ => apply bind_ok in K as (? & ? & K)
    | K : (if ?x then _ else _) = Ok _ |- _ => destruct x
    | K : (match ?x with Some _ => _ | None => _ end) = Ok _ |- _ => destruct x
    | K : (match ?x with ROk _ => _ | RErr _ => _ end) = Ok _ |- _ => destruct x
    | K : Ok _ = Ok _ |- _ => inversion K; subst; clear K
    | K : Panic = Ok _ |- _ => discriminate K
    end; cbv zeta in *);
    repeat (rewrite ?scoped_advance, ?scoped_jump); auto; try exact W.
  all: try (destruct (layout_lookup _ _); exact W).
  all: try (destruct (str_eqb _ _); exact W).
  all: try (unfold scoped in *; cbn; rewrite updateN_len; exact W).
  all: try (unfold scoped in *; cbn; rewrite lenN_app; lia).
  all: try (change (scoped (advance s)); now apply scoped_advance).
  all: try (change (scoped (jump s n)); now apply scoped_jump).
  all: try (change (scoped (advance (jump s (lenN (sc_steps sc))))); now apply scoped_advance, scoped_jump).
  unfold scoped in *. unfold advance. cbn [vm_ip vm_vars with_ip]. rewrite jump_vars, lenN_cons, jump_ip. cbn [vm_ip vm_vars with_vars].
  rewrite lenN_app, lenN_cons, lenN_nil. lia.
Qed.

(** ** An unknown script *)
Lemma current_more d vs n x : n <= lenN vs -> current_scope (mkView d (vs ++ x) n) = current_scope (mkView d vs n).
Proof.
  intros H. unfold current_scope, subU. cbn [vw_vars vw_depth]. destruct (N.leb_spec 1 n) as [K|K]; [|reflexivity]. cbn [bind].
  unfold at_. rewrite nthN_app_l by lia. reflexivity.
Qed.

Context (maps : layouts) (t : test).
Local Notation state := (state maps t).
Local Notation runs := (runs file t).
Local Notation does := (does E maps).
Local Notation leaves := (leaves E).
Local Notation computes := (computes E).

Lemma computes_more n m c v x : n <= lenN (m_vars m) -> computes n m c v ->
  computes n (mkMem (m_db m) (m_vars m ++ x) (m_find m) (m_criteria m) (m_pass m)) c v.
Proof.
  intros H C. unfold VmSpec.computes, calc_gives in *. cbn [m_db m_vars]. destruct C as [C1 [k C2]]. split; auto. exists k. intros f Hf.
  rewrite <- (C2 f Hf). apply calculation_view; [reflexivity|]. now apply current_more.
Qed.

Ltac enter R Hk H := 
  match type of R with VmSteps.runs _ _ ?name ?fr ?code =>
  match type of H with context [vm_step (VmSteps.state _ _ _ _ ?k ?m ?br ?lps)] =>
    let scr := fresh "scr" in let Rs := fresh in let Rc := fresh in
    destruct (running_state file maps t name fr code k m br lps R) as (scr & Rs & Rc);
    unfold VmModel.vm_step in H; change (vm_test (state name fr k m br lps)) with (Some t) in H; cbn [unwrap bind] in H; rewrite Rs in H; cbn [bind] in H; rewrite Rc in H;
    change (here (state name fr k m br lps)) with k in H; rewrite Hk in H; clear Rs Rc
  end end.
Ltac dig H x K := apply bind_ok in H as (x & K & H).

Lemma unknown_step name fr code k m br lps s c cs callee : runs name fr code -> nthN code k = Some s -> opcode s = IPerformScript ->
  switches s = c :: cs -> computes (lenN fr + 1) m c (in_quotes callee) -> find_script file callee = None ->
  vm_step (state name fr k m br lps) = Ok (state name fr k (mkMem (m_db m) (m_vars m ++ [[]]) (m_find m) (m_criteria m) (m_pass m)) br lps).
Proof.
  intros R Hk O S C F. destruct (running_state file maps t name fr code k m br lps R) as (scr & Rs & Rc).
  unfold VmModel.vm_step. change (vm_test (state name fr k m br lps)) with (Some t). cbn [unwrap bind]. rewrite Rs. cbn [bind]. rewrite Rc.
  change (here (state name fr k m br lps)) with k. rewrite Hk, O, (switch0 _ _ _ S). cbn [bind].
  rewrite (proj2 (calc_state _ _ _ _ _ _ _ _ _ _ _) C). cbn [bind].
  pose proof (proj2 (strip_quotes' (in_quotes callee) callee) eq_refl) as Q. apply bind_ok in Q as (w & Q1 & Q2). rewrite Q1. cbn [bind]. rewrite Q2. cbn [bind].
  rewrite F. reflexivity.
Qed.
Lemma unknown_runs name fr code k br lps s c cs callee : runs name fr code -> nthN code k = Some s -> opcode s = IPerformScript ->
  switches s = c :: cs -> find_script file callee = None ->
  forall fuel m, m_pass m = true -> lenN fr + 1 <= lenN (m_vars m) -> computes (lenN fr + 1) m c (in_quotes callee) ->
  run_test fuel (state name fr k m br lps) = NoFuel.
Proof.
  intros R Hk O S F. induction fuel as [|fuel IH]; intros m P W C; cbn [VmModel.run_test];
    change (vm_pass (state name fr k m br lps)) with (m_pass m); change (vm_ip (state name fr k m br lps)) with ((name, k) :: fr); rewrite P; [reflexivity|].
  rewrite (unknown_step name fr code k m br lps s c cs callee) by auto. cbn [bind]. apply IH; auto.
  - cbn [m_vars]. rewrite lenN_app. lia.
  - now apply computes_more.
Qed.

(** ** What a step that went well tells *)
Lemma back_leaving name fr code k m br lps s s1 : runs name fr code -> nthN code k = Some s -> leaving s ->
  vm_step (state name fr k m br lps) = Ok s1 ->
  exists m' b, leaves (lenN fr + 1) s m m' b /\
    if b : bool then exists j, past_end_loop (skipn (N.to_nat k) code) k = Ok j /\ s1 = state name fr j m' br lps else s1 = state name fr (k + 1) m' br lps.
Proof.
  intros R Hk [O|[O Sw]] H; enter R Hk H; rewrite O in H.
  - dig H c K1. dig H v K2. apply switch0_inv in K1 as (cs & K1). apply calc_state in K2. destruct (str_eqb_spec v (lit "true")).
    + subst v. exists m, true. split; [eapply LvExit; eauto|]. dig H j K3. exists j. split; auto. inversion H. reflexivity.
    + exists m, false. split; [eapply LvStay; eauto|]. inversion H. reflexivity.
  - dig H c K1. dig H v K2. dig H exi K3.
    destruct (switches s) as [|c0 [|e cs]] eqn:S; cbn in Sw; try lia. apply at_ok in K1. rewrite nthN_0 in K1. inversion K1; subst c0. clear K1.
    replace (nthN (c :: e :: cs) 1) with (Some e) in K3 by (change 1 with (1 + 0); now rewrite nthN_succ, nthN_0). dig K3 w K4. apply calc_state in K2, K4.
    assert (X : negb (str_eqb w (lit "false")) || negb (str_eqb w []) || negb (str_eqb w (lit "0")) = true).
    { destruct (str_eqb_spec w (lit "false")); [|reflexivity]. destruct (str_eqb_spec w []); [subst; discriminate|reflexivity]. }
    rewrite X in K3. assert (exi = true) by congruence. subst exi. clear K3 X.
    change (vm_find (state name fr k m br lps)) with (m_find m) in H. change (vm_db (state name fr k m br lps)) with (m_db m) in H.
    destruct (m_find m) eqn:F.
    + exists m, false. split; [eapply LvFind; eauto|]. inversion H. reflexivity.
    + dig H o K5. dig H d K6. apply move_spec in K6.
      dig H o' K7. apply pointer_ok' in K5, K7. destruct (N.eqb_spec (to_ptr o') (to_ptr o)) as [Q|Q].
      * exists (set_db m d), true. split; [eapply LvStuck; eauto; congruence|]. dig H j K8. exists j. split; auto. inversion H. reflexivity.
      * exists (set_db m d), false. split; [eapply LvMoved; eauto|]. inversion H. reflexivity.
Qed.
Lemma back_if name fr code k m br lps s s1 : runs name fr code -> nthN code k = Some s -> opcode s = IIf ->
  vm_step (state name fr k m br lps) = Ok s1 -> exists c cs v, switches s = c :: cs /\ computes (lenN fr + 1) m c v.
Proof.
  intros R Hk O H. enter R Hk H. rewrite O in H. dig H c K1. dig H v K2. apply switch0_inv in K1 as (cs & K1). apply calc_state in K2. eauto.
Qed.
Lemma back_else_if name fr code k m lps s s1 : runs name fr code -> nthN code k = Some s -> opcode s = IElseIf ->
  vm_step (state name fr k m false lps) = Ok s1 -> exists c cs v, switches s = c :: cs /\ computes (lenN fr + 1) m c v.
Proof.
  intros R Hk O H. enter R Hk H. rewrite O in H. change (vm_branch (state name fr k m false lps)) with false in H. cbv iota zeta in H.
  dig H c K1. dig H v K2. apply switch0_inv in K1 as (cs & K1). apply calc_state in K2. eauto.
Qed.
Lemma back_call name fr code k m br lps s s1 : runs name fr code -> nthN code k = Some s -> opcode s = IPerformScript ->
  vm_step (state name fr k m br lps) = Ok s1 -> exists c cs callee, switches s = c :: cs /\ computes (lenN fr + 1) m c (in_quotes callee).
Proof.
  intros R Hk O H. enter R Hk H. rewrite O in H. dig H c K1. dig H v K2. apply switch0_inv in K1 as (cs & K1). apply calc_state in K2.
  dig H w K3. dig H callee K4. exists c, cs, callee. split; auto. enough (v = in_quotes callee) by now subst.
  apply strip_quotes'. rewrite K3. exact K4.
Qed.

(** ** Runs *)
Lemma run_inv f s s' : vm_pass s = true -> vm_ip s <> [] -> run_test f s = Ok s' ->
  exists f' s1, f = S f' /\ vm_step s = Ok s1 /\ run_test f' s1 = Ok s'.
Proof.
  intros P I H. destruct f as [|f]; cbn [VmModel.run_test] in H; rewrite P in H; destruct (vm_ip s); try (now elim I); try discriminate.
  apply bind_ok in H as (s1 & H1 & H2). eauto.
Qed.
Lemma run_goes a b : goes E file a b -> forall f s', run_test f a = Ok s' -> exists f', (f' <= f)%nat /\ run_test f' b = Ok s'.
Proof.
  induction 1 as [s|s s1 s2 P I H _ IH]; intros f s' R; [eauto|]. apply run_inv in R as (f' & s1' & -> & H1 & H2); auto.
  rewrite H in H1. inversion H1; subst s1'. destruct (IH _ _ H2) as (f2 & L & H3). exists f2. split; [lia|auto].
Qed.
Lemma past_skip : forall l r i, Forall (fun s => opcode s <> IEndLoop) l -> past_end_loop (l ++ r) i = past_end_loop r (i + lenN l).
Proof.
  induction l as [|x l IH]; intros r i H.
  - cbn [app]. f_equal. rewrite lenN_nil. lia.
  - inversion H; subst. cbn [app past_end_loop]. rewrite lenN_cons. replace (i + (lenN l + 1)) with (i + 1 + lenN l) by lia. rewrite <- IH by auto.
    destruct (opcode x); try reflexivity. now elim H2.
Qed.
Lemma scoped_mem name fr k m br lps : scoped (state name fr k m br lps) <-> lenN fr + 1 <= lenN (m_vars m).
Proof. unfold scoped. cbn [vm_ip vm_vars VmSteps.state]. now rewrite lenN_cons. Qed.
Lemma scoped_goes a b : goes E file a b -> scoped a -> scoped b.
Proof. induction 1; auto. intros. apply IHgoes. eapply scoped_step; eauto. Qed.

Context (library : list N -> option prog).
Context (cl : bool).
Hypothesis LIB : cl = true -> forall name sc, find_script file name = Some sc -> exists q, library name = Some q /\ respected q /\ lays q (sc_steps sc).
Local Notation exec := (exec E maps library).
Local Notation chooses := (chooses E maps library).
Local Notation repeats := (repeats E maps library).

(** A run from a state [a] that has got to [m] at position [k]: it goes on, and ends in [s'] with at most [f] steps. *)
Definition on (f : nat) (name : list N) (fr : list (list N * N)) (k : N) (m : mem) (br : bool) (lps : list N) (s' : vm) : Prop :=
  m_pass m = true /\ lenN fr + 1 <= lenN (m_vars m) /\ exists f', (f' <= f)%nat /\ run_test f' (state name fr k m br lps) = Ok s'.
Definition broke (X : mem -> Prop) (s' : vm) : Prop := vm_pass s' = false /\ X (mem_of s').

Definition exec_back (f : nat) : Prop :=
  forall p name fr code pre l post lo fi le br lps m s', runs name fr code -> code = pre ++ l ++ post -> lays p l -> (calls p = true -> cl = true) ->
  tame lo fi le p = true -> (fi = true -> br = false) -> (le = true -> lo = false) -> on f name fr (lenN pre) m br lps s' ->
  (exists m' lps', exec (lenN fr + 1) p m Through m' /\ (lo = false -> lps' = lps) /\ on f name fr (lenN pre + lenN l) m' br lps' s') \/
  (le = true /\ exists m' j, exec (lenN fr + 1) p m Exits m' /\ past_end_loop post (lenN pre + lenN l) = Ok j /\ on f name fr j m' br lps s') \/
  broke (exec (lenN fr + 1) p m Failed) s'.
Definition chooses_back (f : nat) : Prop :=
  forall q name fr code pre k post lo lps m s', runs name fr code -> code = pre ++ k ++ post -> lays_clauses q k -> (calls_clauses q = true -> cl = true) ->
  tame_clauses lo q = true -> on f name fr (lenN pre) m false lps s' ->
  (exists m' lps', chooses (lenN fr + 1) q m Through m' /\ (lo = false -> lps' = lps) /\ on f name fr (lenN pre + lenN k) m' false lps' s') \/
  broke (chooses (lenN fr + 1) q m Failed) s'.
Definition repeats_back (f : nat) : Prop :=
  forall p name fr code pre l b post fi br lps m s', runs name fr code -> code = pre ++ l ++ b :: post -> lays p l -> (calls p = true -> cl = true) ->
  opcode b = IEndLoop -> tame false fi true p = true -> (fi = true -> br = false) -> 1 <= lenN pre ->
  on f name fr (lenN pre) m br (lenN pre - 1 :: lps) s' ->
  (exists m', repeats (lenN fr + 1) p m Through m' /\ on f name fr (lenN pre + lenN l + 1) m' br (lenN pre - 1 :: lps) s') \/
  broke (repeats (lenN fr + 1) p m Failed) s'.

Lemma on_step f name fr k m br lps s' : on f name fr k m br lps s' -> exists f1 s1, (S f1 <= f)%nat /\
  vm_step (state name fr k m br lps) = Ok s1 /\ run_test f1 s1 = Ok s' /\ scoped s1.
Proof.
  intros (P & W & f' & L & H). apply run_inv in H as (f1 & s1 & -> & H1 & H2); [|exact P|discriminate]. exists f1, s1. repeat split; auto.
  eapply scoped_step; [apply scoped_mem; exact W|exact H1].
Qed.
Lemma on_more f g name fr k m br lps s' : on f name fr k m br lps s' -> (f <= g)%nat -> on g name fr k m br lps s'.
Proof. intros (P & W & f' & L & H) K. repeat split; auto. exists f'. split; [lia|auto]. Qed.
Lemma on_intro f name fr k m br lps s' : run_test f (state name fr k m br lps) = Ok s' -> scoped (state name fr k m br lps) -> m_pass m = true ->
  on f name fr k m br lps s'.
Proof. intros H W P. repeat split; auto; [now apply scoped_mem in W|]. exists f. auto. Qed.
Lemma on_at f name fr k k' m br lps s' : k = k' -> on f name fr k m br lps s' -> on f name fr k' m br lps s'.
Proof. now intros ->. Qed.
Lemma run_broke f name fr k m br lps s' : run_test f (state name fr k m br lps) = Ok s' -> m_pass m = false -> mem_of s' = m /\ vm_pass s' = false.
Proof.
  intros H P. destruct f; cbn [VmModel.run_test] in H; change (vm_pass (state name fr k m br lps)) with (m_pass m) in H; rewrite P in H; inversion H; subst;
    (split; [now destruct m|exact P]).
Qed.
(** After the first part of a program, the rest decides. *)
Lemma back_rest (f : nat) (X : ending -> mem -> Prop) p name fr code pre l (pre0 l0 : list step) post lo fi le br lps lps1 m s' :
  exec_back f -> runs name fr code -> code = pre ++ l ++ post -> lays p l -> (calls p = true -> cl = true) -> tame lo fi le p = true -> (fi = true -> br = false) ->
  (le = true -> lo = false) -> on f name fr (lenN pre) m br lps1 s' -> (lo = false -> lps1 = lps) -> lenN pre + lenN l = lenN pre0 + lenN l0 ->
  (forall e m', exec (lenN fr + 1) p m e m' -> X e m') ->
  (exists m' lps', X Through m' /\ (lo = false -> lps' = lps) /\ on f name fr (lenN pre0 + lenN l0) m' br lps' s') \/
  (le = true /\ exists m' j, X Exits m' /\ past_end_loop post (lenN pre0 + lenN l0) = Ok j /\ on f name fr j m' br lps s') \/
  broke (X Failed) s'.
Proof.
  intros B R Hc Hl CL T Hb Hlo O Hlps HL HX. rewrite <- HL.
  destruct (B p name fr code pre l post lo fi le br lps1 m s' R Hc Hl CL T Hb Hlo O) as [(m' & lps' & H1 & H2 & H3)|[(H0 & m' & j & H1 & H2 & H3)|(H1 & H2)]].
  - left. exists m', lps'. repeat split; auto; try apply H3. intros K. rewrite H2, Hlps; auto.
  - right. left. split; auto. exists m', j. repeat split; auto; try apply H3. rewrite (Hlps (Hlo H0)) in H3. apply H3.
  - right. right. split; auto.
Qed.

Theorem backwards : forall f, exec_back f /\ chooses_back f /\ repeats_back f.
Proof.
  induction f as [f IH] using lt_wf_ind.
  assert (IHe : forall g, (g < f)%nat -> exec_back g) by (intros; now apply IH).
  assert (IHc : forall g, (g < f)%nat -> chooses_back g) by (intros; now apply IH).
  assert (IHr : forall g, (g < f)%nat -> repeats_back g) by (intros; now apply IH).
  clear IH.
  (* weakening of conclusions to f *)
  assert (UPe : forall g (X : ending -> mem -> Prop) name fr k post lo le br lps s', (g <= f)%nat ->
    (exists m' lps', X Through m' /\ (lo = false -> lps' = lps) /\ on g name fr k m' br lps' s') \/
    (le = true /\ exists m' j, X Exits m' /\ past_end_loop post k = Ok j /\ on g name fr j m' br lps s') \/ broke (X Failed) s' ->
    (exists m' lps', X Through m' /\ (lo = false -> lps' = lps) /\ on f name fr k m' br lps' s') \/
    (le = true /\ exists m' j, X Exits m' /\ past_end_loop post k = Ok j /\ on f name fr j m' br lps s') \/ broke (X Failed) s').
  { intros g X name fr k post lo le br lps s' L [(m' & lps' & H1 & H2 & H3)|[(H0 & m' & j & H1 & H2 & H3)|H]].
    - left. exists m', lps'. split; auto. split; auto. eapply on_more; eauto.
    - right. left. split; auto. exists m', j. split; auto. split; auto. eapply on_more; eauto.
    - auto. }
  assert (BE : exec_back f).
  { intros p name fr code pre l post lo fi le br lps m s' R Hc Hl CL T Hb Hlo O. destruct Hl as [|s p l Si Hl|s p l Le Hl|s p l Os Hl|a b p q l k Oa Ob Hl Hk|a c cs p q r l k j Oa Sa Hl Hk Hj];
      cbn [tame] in T; cbn [calls] in CL.
    - left. exists m, lps. split; [constructor|]. split; auto. now rewrite lenN_nil, N.add_0_r.
    - (* simple *) destruct (on_step _ _ _ _ _ _ _ _ O) as (f1 & s1 & L & H1 & H2 & W1).
      apply (step_simple E file maps t name fr code) with (s := s) in H1; auto; [|rewrite Hc; apply nthN_app_len]. destruct H1 as (m1 & D & ->).
      destruct (m_pass m1) eqn:P1.
      + eapply (UPe f1); [lia|]. apply (back_rest f1 (fun e m' => exec (lenN fr + 1) (Do s p) m e m') p name fr code (pre ++ [s]) l pre (s :: l) post lo fi le br lps lps m1 s' (IHe f1 ltac:(lia))); auto; try len.
        * rewrite Hc. lists.
        * eapply on_at; [|apply on_intro; eauto]. len.
        * intros e m' X. eapply XDo; eauto.
      + right. right. destruct (run_broke _ _ _ _ _ _ _ _ H2 P1) as [Q1 Q2]. split; auto. rewrite Q1. eapply XFail; eauto.
    - (* leaving *) apply andb_true_iff in T as [T1 T2]. subst le. destruct (on_step _ _ _ _ _ _ _ _ O) as (f1 & s1 & L & H1 & H2 & W1).
      apply back_leaving with (code := code) (s := s) in H1; auto; [|rewrite Hc; apply nthN_app_len]. destruct H1 as (m1 & b & D & H1).
      assert (P1 : m_pass m1 = true) by (rewrite (leaves_pass _ _ _ _ _ _ D); apply O). destruct b.
      + right. left. split; auto. destruct H1 as (j & H1 & ->). exists m1, j. split; [now apply XLeave|]. split.
        * rewrite Hc, skipn_len in H1. rewrite <- H1, past_skip; [reflexivity|]. constructor; [destruct Le as [K|[K _]]; congruence|].
          rewrite (Hlo eq_refl) in T2. eapply (proj1 lays_no_loop); eauto.
        * eapply on_more; [apply on_intro; eauto|lia].
      + subst s1. eapply (UPe f1); [lia|]. apply (back_rest f1 (fun e m' => exec (lenN fr + 1) (Leave s p) m e m') p name fr code (pre ++ [s]) l pre (s :: l) post lo fi true br lps lps m1 s' (IHe f1 ltac:(lia))); auto; try len.
        * rewrite Hc. lists.
        * eapply on_at; [|apply on_intro; eauto]. len.
        * intros e m' X. eapply XStay; eauto.
    - (* call *) apply andb_true_iff in T as [T T2]. apply andb_true_iff in T as [-> ->]. rewrite (Hb eq_refl) in *.
      destruct (on_step _ _ _ _ _ _ _ _ O) as (f1 & s1 & L & H1 & H2 & W1). destruct O as (P & W & f0 & L0 & H0).
      assert (Nk : nthN code (lenN pre) = Some s) by (rewrite Hc; apply nthN_app_len).
      destruct (back_call _ _ _ _ _ _ _ _ _ R Nk Os H1) as (c & cs & callee & S & C).
      destruct (find_script file callee) as [sc|] eqn:F; [|rewrite (unknown_runs name fr code (lenN pre) false lps s c cs callee R Nk Os S F f0 m P W C) in H0; discriminate].
      destruct (LIB (CL eq_refl) _ _ F) as (q & Lq & Tq & Lay).
      rewrite (step_call E file maps t name fr code (lenN pre) m false lps s c cs callee sc R Nk Os S C F) in H1. inversion H1; subst s1. clear H1.
      assert (R' : runs callee ((name, lenN pre + 1) :: fr) (sc_steps sc)) by (exists sc; auto).
      destruct (IHe f1 ltac:(lia) q callee ((name, lenN pre + 1) :: fr) (sc_steps sc) [] (sc_steps sc) [] true true false false lps
        (mkMem (m_db m) (m_vars m ++ [[]]) (m_find m) (m_criteria m) (m_pass m)) s') as [(m1 & lps1 & X1 & _ & O1)|[(K & _)|(Q1 & Q2)]]; auto; try discriminate.
      + now rewrite app_nil_r.
      + apply on_intro; auto.
      + destruct (on_step _ _ _ _ _ _ _ _ O1) as (f2 & s2 & L2 & H3 & H4 & W2). rewrite lenN_nil, N.add_0_l in H3.
        rewrite (step_pop E file maps t _ _ _ m1 false lps1 _ R') in H3 by lia. inversion H3; subst s2. clear H3.
        eapply (UPe f2); [lia|]. rewrite lenN_cons in X1.
        apply (back_rest f2 (fun e m' => exec (lenN fr + 1) (Call s p) m e m') p name fr code (pre ++ [s]) l pre (s :: l) post true true le false lps lps1 m1 s' (IHe f2 ltac:(lia))); auto; try len.
        * rewrite Hc. lists.
        * apply (on_at _ _ _ (lenN pre + 1)); [len|]. apply on_intro; auto. apply O1.
        * intros e m' X. eapply XCall; eauto.
      + right. right. split; auto. rewrite lenN_cons in Q2. eapply XCallFail; eauto.
    - (* loop *) assert (CL1 : calls p = true -> cl = true) by (intros Kc; apply CL; now rewrite Kc).
      assert (CL2 : calls q = true -> cl = true) by (intros Kc; apply CL; rewrite Kc; apply orb_true_r).
      apply andb_true_iff in T as [T T2]. apply andb_true_iff in T as [-> T1].
      destruct (on_step _ _ _ _ _ _ _ _ O) as (f1 & s1 & L & H1 & H2 & W1).
      rewrite (step_loop E file maps t name fr code (lenN pre) m br lps a R) in H1; auto; [|rewrite Hc; apply nthN_app_len]. inversion H1; subst s1. clear H1.
      destruct (IHr f1 ltac:(lia) p name fr code (pre ++ [a]) l b (k ++ post) fi br lps m s') as [(m1 & X1 & O1)|(Q1 & Q2)]; auto.
      + rewrite Hc. lists.
      + len.
      + eapply on_at; [|replace (lenN (pre ++ [a]) - 1) with (lenN pre) by len; apply on_intro; eauto; apply O]. len.
      + eapply (UPe f1); [lia|].
        apply (back_rest f1 (fun e m' => exec (lenN fr + 1) (Loop p q) m e m') q name fr code (pre ++ a :: l ++ [b]) k pre (a :: l ++ b :: k) post true fi le br lps (lenN (pre ++ [a]) - 1 :: lps) m1 s' (IHe f1 ltac:(lia))); auto; try len.
        * rewrite Hc. lists.
        * eapply on_at; [|exact O1]. len.
        * intros e m' X. eapply XLoop; eauto.
      + right. right. split; auto. eapply XLoopFail; eauto.
    - (* if *) assert (CL1 : calls p = true -> cl = true) by (intros Kc; apply CL; now rewrite Kc).
      assert (CL2 : calls_clauses q = true -> cl = true) by (intros Kc; apply CL; rewrite Kc; now rewrite orb_true_r).
      assert (CL3 : calls r = true -> cl = true) by (intros Kc; apply CL; rewrite Kc; apply orb_true_r).
      apply andb_true_iff in T as [T T4]. apply andb_true_iff in T as [T T3]. apply andb_true_iff in T as [-> T2]. rewrite (Hb eq_refl) in *.
      destruct (on_step _ _ _ _ _ _ _ _ O) as (f1 & s1 & L & H1 & H2 & W1).
      assert (Nk : nthN code (lenN pre) = Some a) by (rewrite Hc; apply nthN_app_len).
      destruct (back_if _ _ _ _ _ _ _ _ _ R Nk Oa H1) as (c' & cs' & v & S & C). rewrite Sa in S. inversion S; subst c' cs'. clear S.
      rewrite (step_if E file maps t name fr code (lenN pre) m false lps a c cs v R Nk Oa Sa C) in H1. destruct (str_eqb_spec v (lit "true")) as [Ev|V]; [rewrite Ev in C; clear Ev|].
      + inversion H1; subst s1. clear H1.
        destruct (IHe f1 ltac:(lia) p name fr code (pre ++ [a]) l (k ++ j ++ post) lo false false true lps m s') as [(m1 & lps1 & X1 & E1 & O1)|[(K & _)|(Q1 & Q2)]]; auto; try discriminate.
        * rewrite Hc. lists.
        * eapply on_at; [|apply on_intro; eauto; apply O]. len.
        * assert (G : goes E file (state name fr (lenN (pre ++ [a]) + lenN l) m1 true lps1) (state name fr (lenN (pre ++ a :: l) + lenN k) m1 false lps1)).
          { replace (lenN (pre ++ [a]) + lenN l) with (lenN (pre ++ a :: l)) by len. eapply (pass_over E file maps t name fr code (pre ++ a :: l) q k (j ++ post)); eauto; [rewrite Hc; lists|apply O1]. }
          destruct O1 as (P1 & W1' & f2 & L2 & H3). destruct (run_goes _ _ G _ _ H3) as (f3 & L3 & H4).
          eapply (UPe f3); [lia|].
          apply (back_rest f3 (fun e m' => exec (lenN fr + 1) (If c p q r) m e m') r name fr code (pre ++ a :: l ++ k) j pre (a :: l ++ k ++ j) post lo true le false lps lps1 m1 s' (IHe f3 ltac:(lia))); auto; try len.
          -- rewrite Hc. lists.
          -- eapply on_at; [|apply on_intro; [exact H4| |exact P1]]; [len|]. now apply scoped_mem.
          -- intros e m' X. eapply XIf; eauto.
        * right. right. split; auto. eapply XIfEnds; eauto. discriminate.
      + inversion H1; subst s1. clear H1.
        assert (PO : match scan is_clause (skipn (N.to_nat (lenN pre)) code) (lenN pre) with Some j => j | None => lenN code end = lenN (pre ++ a :: l)).
        { destruct (clauses_start _ _ Hk) as (a' & k' & -> & Oa').
          replace code with (pre ++ (a :: l) ++ a' :: k' ++ j ++ post) by (rewrite Hc; lists).
          rewrite skipn_len, scan_app; [cbn [scan]; rewrite Oa'; len|]. constructor; [now rewrite Oa|]. eapply lays_no_clause; eauto. }
        rewrite PO in H2, W1.
        destruct (IHc f1 ltac:(lia) q name fr code (pre ++ a :: l) k (j ++ post) lo lps m s') as [(m1 & lps1 & X1 & E1 & O1)|(Q1 & Q2)]; auto.
        * rewrite Hc. lists.
        * apply on_intro; auto. apply O.
        * eapply (UPe f1); [lia|].
          apply (back_rest f1 (fun e m' => exec (lenN fr + 1) (If c p q r) m e m') r name fr code (pre ++ a :: l ++ k) j pre (a :: l ++ k ++ j) post lo true le false lps lps1 m1 s' (IHe f1 ltac:(lia))); auto; try len.
          -- rewrite Hc. lists.
          -- eapply on_at; [|exact O1]. len.
          -- intros e m' X. eapply XElse; eauto.
        * right. right. split; auto. eapply XElseEnds; eauto. discriminate. }
  assert (BC : chooses_back f).
  { intros q name fr code pre k post lo lps m s' R Hc Hk CL T O. destruct Hk as [e Oe|a p l e Oa Hl Oe|a c cs p q l k Oa Sa Hl Hk]; cbn [tame_clauses] in T; cbn [calls_clauses] in CL.
    - (* no else *) left. exists m, lps. split; [constructor|]. split; auto. destruct (on_step _ _ _ _ _ _ _ _ O) as (f1 & s1 & L & H1 & H2 & W1).
      rewrite (step_end_if E file maps t name fr code (lenN pre) m false lps e R) in H1; auto; [|rewrite Hc; apply nthN_app_len]. inversion H1; subst s1.
      eapply on_at; [|eapply on_more; [apply on_intro; eauto; apply O|lia]]. len.
    - (* else *) destruct (on_step _ _ _ _ _ _ _ _ O) as (f1 & s1 & L & H1 & H2 & W1).
      rewrite (step_else E file maps t name fr code (lenN pre) m lps a R) in H1; auto; [|rewrite Hc; apply nthN_app_len]. inversion H1; subst s1. clear H1.
      destruct (IHe f1 ltac:(lia) p name fr code (pre ++ [a]) l (e :: post) lo false false false lps m s') as [(m1 & lps1 & X1 & E1 & O1)|[(K & _)|(Q1 & Q2)]]; auto; try discriminate.
      + rewrite Hc. lists.
      + eapply on_at; [|apply on_intro; eauto; apply O]. len.
      + left. exists m1, lps1. split; [now constructor|]. split; auto. destruct (on_step _ _ _ _ _ _ _ _ O1) as (f2 & s2 & L2 & H3 & H4 & W2).
        rewrite (step_end_if E file maps t name fr code _ m1 false lps1 e R) in H3; auto; [|apply (nth_at (pre ++ a :: l) e post); [rewrite Hc; lists|len]].
        inversion H3; subst s2. eapply on_at; [|eapply on_more; [apply on_intro; eauto; apply O1|lia]]. len.
      + right. split; auto. now constructor.
    - (* else if *) assert (CL1 : calls p = true -> cl = true) by (intros Kc; apply CL; now rewrite Kc).
      assert (CL2 : calls_clauses q = true -> cl = true) by (intros Kc; apply CL; rewrite Kc; now rewrite orb_true_r).
      apply andb_true_iff in T as [T1 T2]. destruct (on_step _ _ _ _ _ _ _ _ O) as (f1 & s1 & L & H1 & H2 & W1).
      assert (Nk : nthN code (lenN pre) = Some a) by (rewrite Hc; apply nthN_app_len).
      destruct (back_else_if _ _ _ _ _ _ _ _ R Nk Oa H1) as (c' & cs' & v & S & C). rewrite Sa in S. inversion S; subst c' cs'. clear S.
      rewrite (step_else_if E file maps t name fr code (lenN pre) m lps a c cs v R Nk Oa Sa C) in H1. destruct (str_eqb_spec v (lit "true")) as [Ev|V]; [rewrite Ev in C; clear Ev|].
      + inversion H1; subst s1. clear H1.
        destruct (IHe f1 ltac:(lia) p name fr code (pre ++ [a]) l (k ++ post) lo false false true lps m s') as [(m1 & lps1 & X1 & E1 & O1)|[(K & _)|(Q1 & Q2)]]; auto; try discriminate.
        * rewrite Hc. lists.
        * eapply on_at; [|apply on_intro; eauto; apply O]. len.
        * assert (G : goes E file (state name fr (lenN (pre ++ [a]) + lenN l) m1 true lps1) (state name fr (lenN (pre ++ a :: l) + lenN k) m1 false lps1)).
          { replace (lenN (pre ++ [a]) + lenN l) with (lenN (pre ++ a :: l)) by len. eapply (pass_over E file maps t name fr code (pre ++ a :: l) q k post); eauto; [rewrite Hc; lists|apply O1]. }
          destruct O1 as (P1 & W1' & f2 & L2 & H3). destruct (run_goes _ _ G _ _ H3) as (f3 & L3 & H4).
          left. exists m1, lps1. split; [now constructor|]. split; auto. eapply on_at; [|eapply on_more; [apply on_intro; [exact H4| |exact P1]|lia]]; [len|]. now apply scoped_mem.
        * right. split; auto. now constructor.
      + inversion H1; subst s1. clear H1.
        assert (PO : match scan is_clause (skipn (N.to_nat (lenN pre + 1)) code) (lenN pre + 1) with Some j => j | None => N.max (lenN pre + 1) (lenN code) end = lenN (pre ++ a :: l)).
        { destruct (clauses_start _ _ Hk) as (a' & k' & -> & Oa').
          replace code with ((pre ++ [a]) ++ l ++ a' :: k' ++ post) by (rewrite Hc; lists).
          rewrite skipn_len' by len. rewrite scan_app; [cbn [scan]; rewrite Oa'; len|]. eapply lays_no_clause; eauto. }
        rewrite PO in H2, W1.
        destruct (IHc f1 ltac:(lia) q name fr code (pre ++ a :: l) k post lo lps m s') as [(m1 & lps1 & X1 & E1 & O1)|(Q1 & Q2)]; auto.
        * rewrite Hc. lists.
        * apply on_intro; auto. apply O.
        * left. exists m1, lps1. split; [eapply ChNext; eauto|]. split; auto. eapply on_at; [|eapply on_more; [exact O1|lia]]. len.
        * right. split; auto. eapply ChNext; eauto. }
  split; [exact BE|]. split; [exact BC|].
  intros p name fr code pre l b post fi br lps m s' R Hc Hl CL Ob T Hb Hp O.
  destruct (BE p name fr code pre l (b :: post) false fi true br (lenN pre - 1 :: lps) m s') as [(m1 & lps1 & X1 & E1 & O1)|[(_ & m1 & j & X1 & Pj & O1)|(Q1 & Q2)]]; auto.
  - rewrite (E1 eq_refl) in O1. destruct (on_step _ _ _ _ _ _ _ _ O1) as (f2 & s2 & L2 & H3 & H4 & W2).
    rewrite (step_end_loop E file maps t name fr code _ m1 br (lenN pre - 1) lps b R) in H3; auto; [|apply (nth_at (pre ++ l) b post); [rewrite Hc; lists|len]].
    inversion H3; subst s2. clear H3.
    destruct (IHr f2 ltac:(lia) p name fr code pre l b post fi br lps m1 s') as [(m2 & X2 & O2)|(Q1 & Q2)]; auto.
    + eapply on_at; [|apply on_intro; eauto; apply O1]. lia.
    + left. exists m2. split; [eapply RpAgain; eauto|]. eapply on_more; [exact O2|lia].
    + right. split; auto. eapply RpAgain; eauto.
  - left. exists m1. split; [now apply RpExit|]. cbn [past_end_loop] in Pj. rewrite Ob in Pj. inversion Pj; subst j. exact O1.
  - right. split; auto. now apply RpFail.
Qed.
End R.
