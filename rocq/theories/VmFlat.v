(** Whole tests; blocks without nesting; and the databases the runner reaches. *)
From Coq Require Import Ascii String NArith List Bool Sorted Lia Arith.
From Verif Require Import Prelude PreludeFacts StrOrder StrOrderFacts InstrModel ComponentModel CalcModel CalcSpec CalcFacts DbModel DbGenSpec DbSpec DbFacts DbProofs DbInv
  EvalModel EvalSpec EvalProofs EvalCycle EvalFuel VmModel VmSpec VmTestSpec VmParts VmSteps VmRun VmBack.
Import ListNotations.
Local Open Scope N_scope.

Lemma first_script_spec file name sc : find_script file name = Some sc <-> first_script file name sc.
Proof.
  unfold find_script, first_script, vals. induction (map snd (f_scripts file)) as [|x l IH]; cbn [find].
  - split; [discriminate|]. intros (b & a & K & _). destruct b; discriminate.
  - destruct (str_eqb_spec (sc_name x) name) as [K|K].
    + split.
      * intros H. inversion H; subst. exists [], l. auto.
      * intros (b & a & H1 & H2 & H3). destruct b as [|y b]; inversion H1; subst; auto. inversion H3; subst. now elim H4.
    + rewrite IH. split; intros (b & a & H1 & H2 & H3).
      * exists (x :: b), a. subst l. repeat split; auto.
      * destruct b as [|y b]; inversion H1; subst; [now elim K|]. exists b, a. inversion H3; subst. auto.
Qed.
Lemma find_script_none file name : find_script file name = None <-> forall sc, ~ first_script file name sc.
Proof.
  split.
  - intros H sc K. apply first_script_spec in K. congruence.
  - intros H. destruct (find_script file name) eqn:K; auto. apply first_script_spec in K. now elim (H s).
Qed.

Lemma describes_fwd library file p : describes library file p ->
  forall name q, library name = Some q -> respected q /\ exists sc, find_script file name = Some sc /\ lays q (sc_steps sc).
Proof. intros [H _] name q K. destruct (H _ _ K) as (H1 & sc & H2 & H3). split; auto. exists sc. now rewrite first_script_spec. Qed.
Lemma describes_back library file p : describes library file p -> calls p = true ->
  forall name sc, find_script file name = Some sc -> exists q, library name = Some q /\ respected q /\ lays q (sc_steps sc).
Proof.
  intros [H H'] C name sc K. pose proof K as K'. apply first_script_spec in K'. destruct (library name) as [q|] eqn:L; [|now elim (H' C _ _ K')].
  exists q. split; auto. destruct (H _ _ L) as (H1 & sc' & H2 & H3). split; auto. apply first_script_spec in H2. congruence.
Qed.

(** The runner's state in the form of VmSteps. *)
Lemma state_of s t name k fr : vm_test s = Some t -> vm_ip s = (name, k) :: fr ->
  s = state (vm_layouts s) t name fr k (mem_of s) (vm_branch s) (vm_loops s).
Proof. destruct s; cbn. intros -> ->. reflexivity. Qed.
Lemma current_state file s cur : current file s cur ->
  exists t name k fr code, s = state (vm_layouts s) t name fr k (mem_of s) (vm_branch s) (vm_loops s) /\
    vm_test s = Some t /\ vm_ip s = (name, k) :: fr /\ lenN (vm_ip s) = lenN fr + 1 /\ nthN code k = Some cur /\ runs file t name fr code.
Proof.
  intros (t & name & k & fr & code & H1 & H2 & H3 & H4). exists t, name, k, fr, code. split; [now apply state_of|]. split; auto. split; auto.
  split; [rewrite H2; apply lenN_cons|]. split; auto. unfold runs. destruct fr; [now symmetry|]. destruct H4 as (sc & H4 & ->). exists sc.
  now rewrite first_script_spec.
Qed.

Lemma run_more E file : forall f s s', run_test E file f s = Ok s' -> forall g, (f <= g)%nat -> run_test E file g s = Ok s'.
Proof.
  induction f as [|f IH]; intros s s' H g L.
  - destruct g; cbn [run_test] in *; destruct (vm_pass s); auto; destruct (vm_ip s); auto; discriminate.
  - destruct g as [|g]; [lia|]. cbn [run_test] in *. destruct (vm_pass s); auto. destruct (vm_ip s); auto.
    apply bind_ok in H as (s1 & H1 & H2). rewrite H1. cbn [bind]. apply IH; auto. lia.
Qed.

(** ** Whole tests *)
Section Whole.
Context (E : fenv) (file : fmpfile) (library : list N -> option prog) (p : prog) (D : describes library file p).
Context (s0 : vm) (t : test) (Rd : ready s0) (Rp : respected p) (Lp : lays p (sc_steps (te_script t))).

Lemma load_state : load_test s0 t = state (vm_layouts s0) t (sc_name (te_script t)) [] 0 (start s0) false (vm_loops s0).
Proof. destruct Rd as (H1 & H2 & H3). unfold load_test, state, start, with_vars, with_ip, with_test. cbn [vm_ip vm_vars vm_test vm_loops vm_pass vm_branch vm_find vm_db vm_layouts vm_criteria m_db m_vars m_find m_criteria m_pass]. now rewrite H1, H3. Qed.

Lemma whole_fwd e m' : exec E (vm_layouts s0) library 1 p (start s0) e m' ->
  exists fuel s', run_test E file fuel (load_test s0 t) = Ok s' /\ mem_of s' = m' /\ ended e s'.
Proof.
  intros X. rewrite load_state.
  pose proof (proj1 (simulation E file (vm_layouts s0) t library (describes_fwd _ _ _ D)) 1 p (start s0) e m' X
    (sc_name (te_script t)) [] (sc_steps (te_script t)) [] (sc_steps (te_script t)) [] true true false false (vm_loops s0)) as S.
  cbn [app] in S. rewrite app_nil_r in S. specialize (S eq_refl eq_refl eq_refl Lp Rp ltac:(auto) ltac:(discriminate) (proj1 (proj2 Rd))).
  destruct e.
  - destruct S as (lps' & G & _ & P). destruct (goes_run _ _ _ _ G) as (n & Hn). rewrite lenN_nil, N.add_0_l in Hn.
    exists (n + 1)%nat. eexists. rewrite Hn. cbn [run_test plus]. change (vm_pass (state (vm_layouts s0) t (sc_name (te_script t)) [] (lenN (sc_steps (te_script t))) m' false lps')) with (m_pass m').
    rewrite P. cbn [vm_ip state]. rewrite (step_pop E file (vm_layouts s0) t _ [] (sc_steps (te_script t))) by (reflexivity || lia). cbn [bind vm_pass vm_ip].
    rewrite P. split; [reflexivity|]. split; [destruct m'; cbn in *; now subst|]. repeat split; auto.
  - destruct S as [S _]. discriminate.
  - destruct S as (P & name & fr & k & br & lps & G). destruct (goes_run _ _ _ _ G) as (n & Hn). exists n.
    specialize (Hn 0%nat). rewrite Nat.add_0_r in Hn. cbn [run_test] in Hn. change (vm_pass (state (vm_layouts s0) t name fr k m' br lps)) with (m_pass m') in Hn.
    rewrite P in Hn. eexists. split; [exact Hn|]. split; [now destruct m'|exact P].
Qed.
Lemma whole_back fuel s' : run_test E file fuel (load_test s0 t) = Ok s' ->
  exists e, exec E (vm_layouts s0) library 1 p (start s0) e (mem_of s') /\ ended e s'.
Proof.
  rewrite load_state. intros H. destruct Rd as (H1 & H2 & H3).
  destruct (backwards E file (vm_layouts s0) t library (calls p) (describes_back _ _ _ D) fuel) as [B _].
  destruct (B p (sc_name (te_script t)) [] (sc_steps (te_script t)) [] (sc_steps (te_script t)) [] true true false false (vm_loops s0) (start s0) s')
    as [(m' & lps' & X & _ & P & W & f & L & G)|[(K & _)|(P & X)]]; auto; try discriminate.
  - reflexivity.
  - cbn [app]. now rewrite app_nil_r.
  - repeat split; auto; [cbn; rewrite lenN_app, lenN_cons, lenN_nil; lia|]. exists fuel. auto.
  - exists Through. rewrite lenN_nil, N.add_0_l in G. apply run_inv in G as (f' & s1 & -> & G1 & G2); [|exact P|discriminate].
    rewrite (step_pop E file (vm_layouts s0) t _ [] (sc_steps (te_script t))) in G1 by (reflexivity || lia). inversion G1; subst s1.
    assert (s' = mkVm [] (m_vars m') (Some t) lps' (m_pass m') false (m_find m') (m_db m') (vm_layouts s0) (m_criteria m')).
    { destruct f'; cbn [run_test vm_pass vm_ip] in G2; destruct (m_pass m'); inversion G2; reflexivity. }
    subst s'. change (lenN (@nil (list N * N)) + 1) with 1 in X. split; [destruct m'; exact X|]. repeat split; auto.
  - exists Failed. split; [exact X|exact P].
Qed.
End Whole.

(** ** Blocks without nesting *)
Fixpoint straight (l : list step) (rest : prog) : prog := match l with [] => rest | s :: l => Do s (straight l rest) end.
Fixpoint clause_prog (bs : list (list N * list step)) (els : option (list step)) : clauses :=
  match bs with
  | (c, b) :: bs => ElseIf c (straight b Done) (clause_prog bs els)
  | [] => match els with Some b => Else (straight b Done) | None => NoElse end
  end.

Lemma straight_lays l k p : Forall simple l -> lays p k -> lays (straight l p) (l ++ k).
Proof. induction l as [|s l IH]; intros F L; [exact L|]. inversion F; subst. constructor; auto. Qed.
Lemma straight_alone l : Forall simple l -> lays (straight l Done) l.
Proof. induction 1; constructor; auto. Qed.
Lemma straight_tame lo fi le l p : tame lo fi le (straight l p) = tame lo fi le p.
Proof. induction l; auto. Qed.
Lemma straight_exec E maps lib n : forall l p m e m', exec E maps lib n (straight l p) m e m' <->
  (exists m1, in_order E maps n l m Through m1 /\ exec E maps lib n p m1 e m') \/ (e = Failed /\ in_order E maps n l m Failed m').
Proof.
  induction l as [|s l IH]; intros p m e m'; cbn [straight].
  - split.
    + intros H. left. exists m. split; [constructor|auto].
    + intros [(m1 & H & K)|[_ H]]; inversion H; now subst.
  - split.
    + intros H. inversion H; subst.
      * apply IH in H8 as [(m2 & H8 & H9)|[-> H8]].
        -- left. exists m2. split; auto. econstructor; eauto.
        -- right. split; auto. econstructor; eauto.
      * right. split; auto. now apply InFail.
    + intros [(m1 & H & K)|[-> H]].
      * inversion H; subst. eapply XDo; eauto. apply IH. left. eauto.
      * inversion H; subst; [|now apply XFail]. eapply XDo; eauto. apply IH. right. auto.
Qed.
Lemma in_order_ending E maps n l m e m' : in_order E maps n l m e m' -> e <> Exits.
Proof. induction 1; auto; discriminate. Qed.
Lemma straight_only E maps lib n l m e m' : exec E maps lib n (straight l Done) m e m' <-> in_order E maps n l m e m'.
Proof.
  rewrite straight_exec. split.
  - intros [(m1 & H & K)|[-> H]]; auto. inversion K; now subst.
  - intros H. destruct e; [|now elim (in_order_ending _ _ _ _ _ _ _ H)|auto]. left. exists m'. split; auto. constructor.
Qed.

Lemma clauses_lays bs els : Forall (fun e => Forall simple (snd e)) bs -> match els with Some b => Forall simple b | None => True end ->
  lays_clauses (clause_prog bs els) (clause_steps bs els).
Proof.
  intros F Fe. induction bs as [|[c b] bs IH]; cbn [clause_prog clause_steps].
  - destruct els as [b|]; [|now constructor]. cbn [app]. constructor; auto. now apply straight_alone.
  - inversion F; subst. econstructor; try reflexivity; auto. now apply straight_alone.
Qed.
Lemma clauses_tame lo bs els : tame_clauses lo (clause_prog bs els) = true.
Proof.
  induction bs as [|[c b] bs IH]; cbn [clause_prog tame_clauses].
  - destruct els; auto. cbn. now rewrite straight_tame.
  - now rewrite straight_tame, IH.
Qed.
Lemma clauses_pick E maps lib n els : forall bs m e m', chooses E maps lib n (clause_prog bs els) m e m' <->
  exists body, picks E n m (match els with Some b => b | None => [] end) bs body /\ in_order E maps n body m e m'.
Proof.
  induction bs as [|[c b] bs IH]; intros m e m'; cbn [clause_prog].
  - split.
    + intros H. exists (match els with Some b => b | None => [] end). split; [constructor|]. destruct els; inversion H; subst; [eapply straight_only; eauto|constructor].
    + intros (body & H & K). inversion H; subst. destruct els.
      * constructor. now apply straight_only.
      * inversion K; subst. constructor.
  - split.
    + intros H. inversion H; subst.
      * exists b. split; [now constructor|]. eapply straight_only; eauto.
      * match goal with K : chooses _ _ _ _ _ _ _ _ |- _ => apply IH in K as (body & K1 & K2) end. exists body. split; auto. eapply PickNext; eauto.
    + intros (body & H & K). inversion H; subst.
      * apply ChHere; auto. now apply straight_only.
      * eapply ChNext; eauto. apply IH. eauto.
Qed.

Definition flat_if (c : list N) (b : list step) (bs : list (list N * list step)) (els : option (list step)) (rest : prog) : prog :=
  If c (straight b Done) (clause_prog bs els) rest.
Lemma flat_if_exec E maps lib n c b bs els rest m e m' : exec E maps lib n (flat_if c b bs els rest) m e m' <->
  exists body, picks E n m (match els with Some b => b | None => [] end) ((c, b) :: bs) body /\
    ((exists m1, in_order E maps n body m Through m1 /\ exec E maps lib n rest m1 e m') \/ (e = Failed /\ in_order E maps n body m Failed m')).
Proof.
  split.
  - intros H. inversion H; subst.
    + exists b. split; [now constructor|]. left. exists m'0. split; auto. eapply straight_only; eauto.
    + exists b. split; [now constructor|]. right. match goal with K : exec _ _ _ _ _ _ _ _ |- _ => apply straight_only in K; destruct e; [congruence|now elim (in_order_ending _ _ _ _ _ _ _ K)|auto] end.
    + match goal with K : chooses _ _ _ _ _ _ _ _ |- _ => apply clauses_pick in K as (body & K1 & K2) end. exists body. split; [eapply PickNext; eauto|]. left. eauto.
    + match goal with K : chooses _ _ _ _ _ _ _ _ |- _ => apply clauses_pick in K as (body & K1 & K2) end. exists body. split; [eapply PickNext; eauto|]. right.
      destruct e; [congruence|now elim (in_order_ending _ _ _ _ _ _ _ K2)|auto].
  - intros (body & H & K). inversion H; subst.
    + destruct K as [(m1 & K1 & K2)|[-> K]].
      * eapply XIf; eauto. now apply straight_only.
      * eapply XIfEnds; eauto; [now apply straight_only|discriminate].
    + destruct K as [(m1 & K1 & K2)|[-> K]].
      * eapply XElse; eauto. apply clauses_pick. eauto.
      * eapply XElseEnds; eauto; [apply clauses_pick; eauto|discriminate].
Qed.

Definition flat_loop (before : list step) (x : step) (after : list step) (rest : prog) : prog :=
  Loop (straight before (Leave x (straight after Done))) rest.
Scheme repeats_mut_r := Minimality for repeats Sort Prop.
Lemma body_exec E maps lib n before x after m e m' : exec E maps lib n (straight before (Leave x (straight after Done))) m e m' <->
  (e = Failed /\ in_order E maps n before m Failed m') \/
  (exists m1, in_order E maps n before m Through m1 /\
    ((e = Exits /\ leaves E n x m1 m' true) \/ (exists m2, leaves E n x m1 m2 false /\ in_order E maps n after m2 e m'))).
Proof.
  rewrite straight_exec. split.
  - intros [(m1 & H & K)|H]; auto. right. exists m1. split; auto. inversion K; subst; auto. right. eexists. split; eauto. eapply straight_only; eauto.
  - intros [H|(m1 & H & [[-> K]|(m2 & K & L)])]; auto; left; exists m1; (split; [auto|]).
    + now apply XLeave.
    + eapply XStay; eauto. now apply straight_only.
Qed.
Lemma flat_repeats E maps lib n before x after m e m' :
  repeats E maps lib n (straight before (Leave x (straight after Done))) m e m' <-> rounds E maps n before x after m e m'.
Proof.
  split.
  - remember (straight before (Leave x (straight after Done))) as p eqn:Ep. intros H. revert Ep.
    induction H as [n p m m1 e m' H _ IH|n p m m' H|n p m m' H] using repeats_mut_r; intros ->.
    + specialize (IH eq_refl). apply body_exec in H as [(K & _)|(m2 & H1 & [[K _]|(m3 & H2 & H3)])]; try discriminate. eapply RoundAgain; eauto.
    + apply body_exec in H as [(K & _)|(m2 & H1 & [[_ K]|(m3 & H2 & H3)])]; try discriminate; [eapply RoundExit; eauto|].
      now elim (in_order_ending _ _ _ _ _ _ _ H3).
    + apply body_exec in H as [(_ & K)|(m2 & H1 & [[K _]|(m3 & H2 & H3)])]; try discriminate; [now apply RoundFail|]. eapply RoundFailAfter; eauto.
  - induction 1 as [m m1 m' H1 H2|m m1 m2 m3 e m' H1 H2 H3 _ IH|m m' H|m m1 m2 m' H1 H2 H3].
    + apply RpExit. apply body_exec. right. exists m1. auto.
    + eapply RpAgain; [|exact IH]. apply body_exec. right. exists m1. split; auto. right. eauto.
    + apply RpFail. apply body_exec. auto.
    + apply RpFail. apply body_exec. right. exists m1. split; auto. right. eauto.
Qed.
Lemma flat_loop_exec E maps lib n before x after rest m e m' : exec E maps lib n (flat_loop before x after rest) m e m' <->
  (exists m1, rounds E maps n before x after m Through m1 /\ exec E maps lib n rest m1 e m') \/ (e = Failed /\ rounds E maps n before x after m Failed m').
Proof.
  split.
  - intros H. inversion H; subst.
    + left. exists m'0. split; auto. eapply flat_repeats; eauto.
    + right. split; auto. eapply flat_repeats; eauto.
  - intros [(m1 & H & K)|[-> H]].
    + eapply XLoop; eauto. now apply flat_repeats.
    + apply XLoopFail. now apply flat_repeats.
Qed.

(** ** The databases the runner reaches *)
Lemma found_proper cl d cs rs : reached cl d -> finds d cs rs -> proper d (OFind rs).
Proof.
  intros R (S & I & _). split; auto. intros o Ho. apply Forall_forall. intros r Hr. apply I in Hr as (c & _ & field & values & _ & Hc & Hv).
  destruct Hc as (o' & tb & i & fd & H1 & H2 & _ & H3 & <-). unfold get_current_occurrence in Ho. apply at_ok in Ho.
  assert (o' = o) by congruence. subst o'. apply reached_sound in R. destruct (s_rect _ R _ _ H2) as (n & Hn).
  exists tb, n. split; auto. split; [intros K; rewrite K in H3; apply nthN_lt in H3; rewrite lenN_nil in H3; lia|]. split; auto. unfold holds in Hn. rewrite Forall_forall in Hn.
  specialize (Hn fd). rewrite <- Hn; [now apply nthN_lt in Hv|]. apply nthN_Some in H3. now apply nth_error_In in H3.
Qed.

Lemma step_reached E file cl s s' : reached cl (vm_db s) -> vm_step E file s = Ok s' -> reached cl (vm_db s').
Proof.
  intros R H. unfold vm_step in H. apply bind_ok in H as (u & _ & H). apply bind_ok in H as (sc & _ & H).
  destruct (nthN (sc_steps sc) (here s)) as [cur|]; [|inversion H; subst; exact R].
  assert (JD : forall x i, vm_db (jump x i) = vm_db x) by (intros x i; unfold jump; destruct (vm_ip x) as [|[? ?] ?]; reflexivity).
  assert (AD : forall x, vm_db (advance x) = vm_db x) by (intros x; apply JD).
  assert (OP : forall o d, o <> OClear -> proper (vm_db s) o -> apply_op (vm_db s) o = Ok d -> reached cl d).
  { intros o d H1 H2 H3. refine (ReachStep _ _ o _ R H2 _ H3). intros ->. now elim H1. }
  assert (MV : forall v d, move_record (vm_db s) v = Ok d -> reached cl d).
  { intros v d K. apply move_spec in K. destruct K as [d0 v n d' _ K|d0 d' K|d0 d' K|d0 d' K|d0 d' K|d0 v _ _].
    - exact (OP (OGoto n) d' ltac:(discriminate) I K).
    - exact (OP OPrevious d' ltac:(discriminate) I K).
    - exact (OP ONext d' ltac:(discriminate) I K).
    - exact (OP OFirst d' ltac:(discriminate) I K).
    - exact (OP OLast d' ltac:(discriminate) I K).
    - exact R. }
  destruct (opcode cur); repeat (match goal with
    | K : bind _ _ = Ok _ |- _ => apply bind_ok in K as (? & ? & K)
    | K : (if ?x then _ else _) = Ok _ |- _ => destruct x
    | K : (match ?x with Some _ => _ | None => _ end) = Ok _ |- _ => destruct x
    | K : Ok _ = Ok _ |- _ => inversion K; subst; clear K
    end; cbv zeta in *; try discriminate); rewrite ?JD, ?AD; try exact R;
    try (cbn [vm_db with_db with_ip with_vars with_find with_criteria with_branch with_loops with_pass]; rewrite ?JD, ?AD; eauto; fail).
  - (* layout *) destruct (layout_lookup _ _); [|exact R]. cbn [vm_db with_db]. eapply (OP (OLayout _)); [discriminate|exact I|reflexivity].
  - (* new *) cbn [vm_db with_db]. eapply (OP OCreate); [discriminate|exact I|eassumption].
  - (* show all *) cbn [vm_db with_db]. eapply (OP OShowAll); [discriminate|exact I|eassumption].
  - (* find *) cbn [vm_db with_db with_find with_criteria]. 
    match goal with K : matching_any _ _ = Ok _ |- _ => apply finds_found in K; eapply (OP (OFind _)); [discriminate| |eassumption]; eapply found_proper; eauto end.
  - (* field *) match goal with K : get_current_record_by_table_field_mut _ ?p0 ?p1 = Ok ?r |- _ => destruct r; [|discriminate];
      apply bind_ok in H as (d & H6 & H); inversion H; subst; rewrite AD; cbn [vm_db with_db];
      match goal with V : calc _ _ _ = Ok ?v |- _ => apply (OP (OWrite p0 p1 v)); [discriminate|exact I|]; cbn [apply_op]; rewrite K; exact H6 end end.
  - (* else if *) change (reached cl (vm_db (advance (jump s (lenN (sc_steps sc)))))). rewrite AD, JD. exact R.
  - (* assert *) destruct (str_eqb _ _); exact R.
Qed.
Lemma run_reached E file cl : forall f s s', reached cl (vm_db s) -> run_test E file f s = Ok s' -> reached cl (vm_db s').
Proof.
  induction f as [|f IH]; intros s s' R H; cbn [run_test] in H; destruct (vm_pass s); try (inversion H; subst; exact R); destruct (vm_ip s); try (inversion H; subst; exact R); try discriminate.
  apply bind_ok in H as (s1 & H1 & H2). eapply IH; [|exact H2]. eapply step_reached; eauto.
Qed.
Lemma tests_reached E file cl fuel : forall ts s rs s', reached cl (vm_db s) -> run_tests_loop E file fuel ts s = Ok (rs, s') -> reached cl (vm_db s').
Proof.
  induction ts as [|t ts IH]; intros s rs s' R H; cbn [run_tests_loop] in H; [inversion H; subst; exact R|].
  apply bind_ok in H as (s1 & H1 & H). apply bind_ok in H as ([rs1 s2] & H2 & H). inversion H; subst.
  eapply IH; [|exact H2]. eapply run_reached; [|exact H1]. exact R.
Qed.

(** ** A step never runs out of fuel *)
Lemma bind_nofuel {A B} (x : outcome A) (f : A -> outcome B) : bind x f = NoFuel -> x = NoFuel \/ exists a, f a = NoFuel.
Proof. destruct x; cbn; eauto; discriminate. Qed.
Lemma at_nofuel {A} (l : list A) i : at_ l i <> NoFuel.
Proof. unfold at_, unwrap. destruct (nthN l i); discriminate. Qed.
Lemma calc_nofuel E s c : calc E s c <> NoFuel.
Proof. unfold calc. destruct (eval_calculation _ _ _ _); discriminate. Qed.
Lemma past_nofuel : forall l i, past_end_loop l i <> NoFuel.
Proof. induction l as [|x l IH]; intros i; cbn [past_end_loop]; [discriminate|]. destruct (opcode x); auto; discriminate. Qed.
Ltac nofuel := repeat (match goal with
    | K : bind _ _ = NoFuel |- _ => apply bind_nofuel in K as [K|[? K]]
    | K : at_ _ _ = NoFuel |- _ => now apply at_nofuel in K
    | K : calc _ _ _ = NoFuel |- _ => now apply calc_nofuel in K
    | K : past_end_loop _ _ = NoFuel |- _ => now apply past_nofuel in K
    | K : unwrap ?x = NoFuel |- _ => destruct x; discriminate
    | K : context [match ?x with _ => _ end] |- _ => destruct x
    end; cbv zeta beta in *; try discriminate).
Lemma modify_nofuel d f : (forall o, f o <> NoFuel) -> modify_current d f <> NoFuel.
Proof. intros F H. unfold modify_current, put, get_current_occurrence in H. nofuel. now apply F in H. Qed.
Lemma matching_nofuel d : forall cs, matching_any d cs <> NoFuel.
Proof.
  induction cs as [|c cs IH]; cbn [matching_any]; [discriminate|]. intros H. apply bind_nofuel in H as [H|[a H]].
  - unfold matching, get_field_vals_for_current_table, get_current_table, get_current_occurrence, first_named in H. nofuel.
  - apply bind_nofuel in H as [H|[b H]]; [now apply IH|discriminate].
Qed.
Lemma step_never_nofuel E file s : vm_step E file s <> NoFuel.
Proof.
  intros H. unfold vm_step, running in H. nofuel.
  all: try (unfold create_record, reset_found_set, update_found_set, write_place, get_current_record_by_table_field_mut, move_record, goto_record,
    goto_first_record, goto_last_record, goto_next_record, goto_previous_record, get_current_table, get_current_occurrence, get_occurrence_by_name,
    current_place, occurrence_index, first_index, get_records_n, read_place, put, subU in H; nofuel).
  all: try (now apply matching_nofuel in H).
  all: try (revert H; apply modify_nofuel; intros o H; unfold subU in H; nofuel; discriminate).
  all: unfold reset_found_set, get_current_table, get_current_occurrence in H; nofuel; revert H; apply modify_nofuel; discriminate.
Qed.
Lemma run_panics E file : forall f s, run_test E file f s = Panic -> forall g, (f <= g)%nat -> run_test E file g s = Panic.
Proof.
  induction f as [|f IH]; intros s H g L.
  - cbn [run_test] in H. destruct (vm_pass s); [destruct (vm_ip s)|]; discriminate.
  - destruct g as [|g]; [lia|]. cbn [run_test] in *. destruct (vm_pass s); auto. destruct (vm_ip s); auto.
    destruct (vm_step E file s); cbn [bind] in *; auto. apply IH; auto. lia.
Qed.
Lemma straight_app l k p : straight (l ++ k) p = straight l (straight k p).
Proof. induction l; cbn; congruence. Qed.
