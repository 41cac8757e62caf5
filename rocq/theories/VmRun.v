(** Control flow: the runner executes the programs it respects as they are meant. *)
From Coq Require Import Ascii String NArith List Bool Sorted Lia Arith.
From Verif Require Import Prelude PreludeFacts StrOrder StrOrderFacts InstrModel ComponentModel CalcModel CalcSpec CalcFacts DbModel DbSpec DbFacts DbProofs
  EvalModel EvalSpec EvalProofs EvalCycle EvalFuel VmModel VmSpec VmParts VmSteps.
Import ListNotations.
Local Open Scope N_scope.

Section R.
Context (E : fenv) (file : fmpfile) (maps : layouts) (t : test).
Local Notation state := (state maps t).
Local Notation runs := (runs file t).
Local Notation vm_step := (vm_step E file).
Local Notation does := (does E maps).
Local Notation leaves := (leaves E).
Local Notation computes := (computes E).

Ltac enter R Hk := 
  match type of R with VmSteps.runs _ _ ?name ?fr ?code =>
  match goal with |- context [vm_step (VmSteps.state _ _ _ _ ?k ?m ?br ?lps)] =>
    destruct (running_state file maps t name fr code k m br lps R) as (scr & Rs & Rc);
    unfold VmModel.vm_step; change (vm_test (state name fr k m br lps)) with (Some t); cbn [unwrap bind]; rewrite Rs; cbn [bind]; rewrite Rc;
    change (here (state name fr k m br lps)) with k; rewrite Hk
  end end.

Lemma step_leaving name fr code k m br lps s m' b : runs name fr code -> nthN code k = Some s -> leaves (lenN fr + 1) s m m' b ->
  vm_step (state name fr k m br lps) =
    if b then bind (past_end_loop (skipn (N.to_nat k) code) k) (fun j => Ok (state name fr j m' br lps)) else Ok (state name fr (k + 1) m' br lps).
Proof.
  intros R Hk L. enter R Hk. destruct L as [c cs O S C|c cs v O S C V|c e cs v w d p q O S C1 C2 F M P Q D|c e cs v w d p O S C1 C2 F M P Q|c e cs v w O S C1 C2 F];
    rewrite O, (switch0 _ _ _ S); cbn [bind].
  - rewrite (proj2 (calc_state _ _ _ _ _ _ _ _ _ _ _) C). cbn [bind]. rewrite str_eqb_refl. reflexivity.
  - rewrite (proj2 (calc_state _ _ _ _ _ _ _ _ _ _ _) C). cbn [bind]. destruct (str_eqb_spec v (lit "true")); [contradiction|]. reflexivity.
  - rewrite (proj2 (calc_state _ _ _ _ _ _ _ _ _ _ _) C1). cbn [bind]. rewrite (proj1 (at_ok _ _ _) (switch1 _ _ _ _ S)).
    rewrite (proj2 (calc_state _ _ _ _ _ _ _ _ _ _ _) C2). cbn [bind]. change (vm_find (state name fr k m br lps)) with (m_find m). rewrite F.
    change (vm_db (state name fr k m br lps)) with (m_db m). apply pointer_get in P as (o & P1 & P2), Q as (o' & Q1 & Q2). rewrite P1. cbn [bind].
    rewrite (proj2 (move_spec _ _ _) M). cbn [bind]. rewrite Q1. cbn [bind].
    destruct (N.eqb_spec (to_ptr o') (to_ptr o)); [congruence|]. now destruct (_ || _ || _).
  - rewrite (proj2 (calc_state _ _ _ _ _ _ _ _ _ _ _) C1). cbn [bind]. rewrite (proj1 (at_ok _ _ _) (switch1 _ _ _ _ S)).
    rewrite (proj2 (calc_state _ _ _ _ _ _ _ _ _ _ _) C2). cbn [bind]. change (vm_find (state name fr k m br lps)) with (m_find m). rewrite F.
    change (vm_db (state name fr k m br lps)) with (m_db m). apply pointer_get in P as (o & P1 & P2), Q as (o' & Q1 & Q2). rewrite P1. cbn [bind].
    rewrite (proj2 (move_spec _ _ _) M). cbn [bind]. rewrite Q1. cbn [bind].
    replace (to_ptr o' =? to_ptr o) with true by (symmetry; apply N.eqb_eq; congruence).
    assert (X : negb (str_eqb w (lit "false")) || negb (str_eqb w []) || negb (str_eqb w (lit "0")) = true).
    { destruct (str_eqb_spec w (lit "false")); [|reflexivity]. destruct (str_eqb_spec w []); [subst; discriminate|reflexivity]. }
    rewrite X. reflexivity.
  - rewrite (proj2 (calc_state _ _ _ _ _ _ _ _ _ _ _) C1). cbn [bind]. rewrite (proj1 (at_ok _ _ _) (switch1 _ _ _ _ S)).
    rewrite (proj2 (calc_state _ _ _ _ _ _ _ _ _ _ _) C2). cbn [bind]. change (vm_find (state name fr k m br lps)) with (m_find m). rewrite F. reflexivity.
Qed.

Lemma step_loop name fr code k m br lps s : runs name fr code -> nthN code k = Some s -> opcode s = ILoop ->
  vm_step (state name fr k m br lps) = Ok (state name fr (k + 1) m br (k :: lps)).
Proof. intros R Hk O. enter R Hk. rewrite O. reflexivity. Qed.
Lemma step_end_loop name fr code k m br l lps s : runs name fr code -> nthN code k = Some s -> opcode s = IEndLoop ->
  vm_step (state name fr k m br (l :: lps)) = Ok (state name fr (l + 1) m br (l :: lps)).
Proof. intros R Hk O. enter R Hk. rewrite O. reflexivity. Qed.
Lemma step_end_if name fr code k m br lps s : runs name fr code -> nthN code k = Some s -> opcode s = IEndIf ->
  vm_step (state name fr k m br lps) = Ok (state name fr (k + 1) m false lps).
Proof. intros R Hk O. enter R Hk. rewrite O. reflexivity. Qed.
Lemma step_if name fr code k m br lps s c cs v : runs name fr code -> nthN code k = Some s -> opcode s = IIf -> switches s = c :: cs ->
  computes (lenN fr + 1) m c v ->
  vm_step (state name fr k m br lps) = Ok (
    if str_eqb v (lit "true") then state name fr (k + 1) m true lps
    else state name fr (match scan is_clause (skipn (N.to_nat k) code) k with Some j => j | None => lenN code end) m br lps).
Proof.
  intros R Hk O S C. enter R Hk. rewrite O, (switch0 _ _ _ S). cbn [bind]. rewrite (proj2 (calc_state _ _ _ _ _ _ _ _ _ _ _) C). cbn [bind].
  destruct (str_eqb v (lit "true")); reflexivity.
Qed.
Lemma step_else_if name fr code k m lps s c cs v : runs name fr code -> nthN code k = Some s -> opcode s = IElseIf -> switches s = c :: cs ->
  computes (lenN fr + 1) m c v ->
  vm_step (state name fr k m false lps) = Ok (
    if str_eqb v (lit "true") then state name fr (k + 1) m true lps
    else state name fr (match scan is_clause (skipn (N.to_nat (k + 1)) code) (k + 1) with Some j => j | None => N.max (k + 1) (lenN code) end) m false lps).
Proof.
  intros R Hk O S C. enter R Hk. rewrite O, (switch0 _ _ _ S). cbn [bind]. rewrite (proj2 (calc_state _ _ _ _ _ _ _ _ _ _ _) C). cbn [bind].
  change (vm_branch (state name fr k m false lps)) with false. cbv iota.
  change (here (advance (state name fr k m false lps))) with (k + 1). destruct (str_eqb v (lit "true")); [reflexivity|].
  destruct (scan is_clause (skipn (N.to_nat (k + 1)) code) (k + 1)); reflexivity.
Qed.
Lemma step_else name fr code k m lps s : runs name fr code -> nthN code k = Some s -> opcode s = IElse ->
  vm_step (state name fr k m false lps) = Ok (state name fr (k + 1) m false lps).
Proof. intros R Hk O. enter R Hk. rewrite O. reflexivity. Qed.
Lemma step_skip name fr code k m lps s j : runs name fr code -> nthN code k = Some s -> opcode s = IElse \/ opcode s = IElseIf ->
  scan is_end_if (skipn (N.to_nat k) code) k = Some j ->
  vm_step (state name fr k m true lps) = Ok (state name fr j m false lps).
Proof.
  intros R Hk [O|O] Hj; enter R Hk; rewrite O; change (vm_branch (state name fr k m true lps)) with true; cbv iota zeta; rewrite Hj; reflexivity.
Qed.
Lemma step_call name fr code k m br lps s c cs callee sc : runs name fr code -> nthN code k = Some s -> opcode s = IPerformScript -> switches s = c :: cs ->
  computes (lenN fr + 1) m c (in_quotes callee) -> find_script file callee = Some sc ->
  vm_step (state name fr k m br lps) =
    Ok (state callee ((name, k + 1) :: fr) 0 (mkMem (m_db m) (m_vars m ++ [[]]) (m_find m) (m_criteria m) (m_pass m)) br lps).
Proof.
  intros R Hk O S C F. enter R Hk. rewrite O, (switch0 _ _ _ S). cbn [bind]. rewrite (proj2 (calc_state _ _ _ _ _ _ _ _ _ _ _) C). cbn [bind].
  pose proof (proj2 (strip_quotes' (in_quotes callee) callee) eq_refl) as Q. apply bind_ok in Q as (w & Q1 & Q2). rewrite Q1. cbn [bind]. rewrite Q2. cbn [bind].
  rewrite F. reflexivity.
Qed.
Lemma step_pop name fr code m br lps k : runs name fr code -> lenN code <= k ->
  vm_step (state name fr k m br lps) = Ok (mkVm fr (m_vars m) (Some t) lps (m_pass m) br (m_find m) (m_db m) maps (m_criteria m)).
Proof. intros R Hk. apply nthN_None in Hk. enter R Hk. reflexivity. Qed.

(** ** Runs *)
Inductive goes : vm -> vm -> Prop :=
| GoRefl : forall s, goes s s
| GoStep : forall s s' s'', vm_pass s = true -> vm_ip s <> [] -> vm_step s = Ok s' -> goes s' s'' -> goes s s''.
Lemma goes_trans a b c : goes a b -> goes b c -> goes a c.
Proof. induction 1; auto. intros. econstructor; eauto. Qed.
Lemma goes_one a b : vm_pass a = true -> vm_ip a <> [] -> vm_step a = Ok b -> goes a b.
Proof. intros. econstructor; eauto. constructor. Qed.
Lemma goes_run a b : goes a b -> exists n, forall fuel, run_test E file (n + fuel) a = run_test E file fuel b.
Proof.
  induction 1 as [s|s s' s'' P I H _ (n & IH)]; [now exists 0%nat|]. exists (S n). intros fuel. cbn [plus run_test]. rewrite P.
  destruct (vm_ip s); [now elim I|]. rewrite H. cbn [bind]. apply IH.
Qed.

(** ** Scanning *)
Lemma scan_app p : forall l r i, Forall (fun s => p (opcode s) = false) l -> scan p (l ++ r) i = scan p r (i + lenN l).
Proof.
  induction l as [|s l IH]; intros r i H.
  - cbn. f_equal. unfold lenN. cbn. lia.
  - inversion H; subst. cbn [app scan]. rewrite H2, IH by auto. f_equal. unfold lenN. cbn [length]. lia.
Qed.
Lemma past_app : forall l s r i, Forall (fun s => opcode s <> IEndLoop) l -> opcode s = IEndLoop -> past_end_loop (l ++ s :: r) i = Ok (i + lenN l + 1).
Proof.
  induction l as [|x l IH]; intros s r i H O.
  - cbn [app past_end_loop]. rewrite O. f_equal. unfold lenN. cbn. lia.
  - inversion H; subst. cbn [app past_end_loop]. specialize (IH s r (i + 1) H3 O). 
    destruct (opcode x) eqn:Ox; try (now elim H2); rewrite IH; f_equal; unfold lenN; cbn [length]; lia.
Qed.
Lemma skipn_len {A} (a b : list A) : skipn (N.to_nat (lenN a)) (a ++ b) = b.
Proof. unfold lenN. rewrite Nnat.Nat2N.id, skipn_app, skipn_all, Nat.sub_diag. reflexivity. Qed.
Lemma skipn_len' {A} (a b : list A) k : k = lenN a -> skipn (N.to_nat k) (a ++ b) = b.
Proof. intros ->. apply skipn_len. Qed.

Scheme lays_ind2 := Induction for lays Sort Prop with lays_clauses_ind2 := Induction for lays_clauses Sort Prop.
Combined Scheme lays_mut from lays_ind2, lays_clauses_ind2.

(** A program without loops has no EndLoop, one without ifs no clause marker. *)
Lemma lays_no_loop : (forall p l, lays p l -> forall fi le, tame false fi le p = true -> Forall (fun s => opcode s <> IEndLoop) l) /\
  (forall q l, lays_clauses q l -> tame_clauses false q = true -> Forall (fun s => opcode s <> IEndLoop) l).
Proof.
  apply lays_mut; intros; cbn [tame tame_clauses] in *; repeat match goal with H : _ && _ = true |- _ => apply andb_true_iff in H as [? ?] end; try discriminate;
    repeat (first [apply Forall_app; split | apply Forall_cons]); eauto; try congruence.
  - intros K. unfold simple in *. rewrite K in *. tauto.
  - destruct l0 as [K|[K _]]; congruence.
Qed.
Lemma lays_no_clause : forall p l, lays p l -> forall lo le, tame lo false le p = true -> Forall (fun s => is_clause (opcode s) = false) l.
Proof.
  induction 1; intros lo le T; cbn [tame] in T; repeat match goal with H : _ && _ = true |- _ => apply andb_true_iff in H as [? ?] end; try discriminate;
    repeat (first [apply Forall_app; split | apply Forall_cons]); eauto.
  - unfold simple in H. destruct (opcode s); tauto || reflexivity.
  - destruct H as [H|[H _]]; now rewrite H.
  - now rewrite H.
  - now rewrite H0.
Qed.
Lemma no_clause_end l : Forall (fun s => is_clause (opcode s) = false) l -> Forall (fun s => is_end_if (opcode s) = false) l.
Proof. apply Forall_impl. intros s. destruct (opcode s); cbn; congruence. Qed.

Lemma clauses_start q k : lays_clauses q k -> exists a k', k = a :: k' /\ is_clause (opcode a) = true.
Proof. intros H. inversion H; subst; eexists; eexists; (split; [reflexivity|]); match goal with K : opcode _ = _ |- _ => rewrite K; reflexivity end. Qed.
Lemma clauses_end : (forall p l, lays p l -> True) /\ forall q k, lays_clauses q k -> forall lo, tame_clauses lo q = true ->
  exists k' e, k = k' ++ [e] /\ opcode e = IEndIf /\ Forall (fun s => is_end_if (opcode s) = false) k'.
Proof.
  apply lays_mut; auto.
  - intros e O lo _. exists [], e. auto.
  - intros a p l e O H _ Oe lo T. cbn [tame_clauses] in T. exists (a :: l), e. split; [reflexivity|]. split; auto. constructor; [now rewrite O|].
    apply no_clause_end. eapply lays_no_clause; eauto.
  - intros a c cs p q l k O S H _ Hq IH lo T. cbn [tame_clauses] in T. apply andb_true_iff in T as [T1 T2]. destruct (IH lo T2) as (k' & e & -> & Oe & F).
    exists (a :: l ++ k'), e. split; [cbn; now rewrite app_assoc|]. split; auto. constructor; [now rewrite O|]. apply Forall_app. split; auto.
    apply no_clause_end. eapply lays_no_clause; eauto.
Qed.

Lemma lenN_cons {A} (x : A) l : lenN (x :: l) = lenN l + 1.
Proof. unfold lenN. cbn [length]. lia. Qed.
Lemma lenN_nil {A} : lenN (@nil A) = 0.
Proof. reflexivity. Qed.
Ltac len := repeat rewrite lenN_app; repeat rewrite lenN_cons; repeat rewrite lenN_app; repeat rewrite lenN_cons; repeat rewrite lenN_nil; lia.
Ltac lists := cbn [app]; repeat (rewrite <- app_assoc; cbn [app]); reflexivity.

Lemma nth_at (pre : list step) a post code k : code = pre ++ a :: post -> k = lenN pre -> nthN code k = Some a.
Proof. intros -> ->. apply nthN_app_len. Qed.
Lemma state_ip name fr k m br lps : vm_ip (state name fr k m br lps) <> [].
Proof. discriminate. Qed.
Local Hint Resolve state_ip : core.

(** After a branch was taken, the other clauses are passed over. *)
Lemma pass_over name fr code pre q k post m lps lo : runs name fr code -> code = pre ++ k ++ post -> lays_clauses q k -> tame_clauses lo q = true ->
  m_pass m = true -> goes (state name fr (lenN pre) m true lps) (state name fr (lenN pre + lenN k) m false lps).
Proof.
  intros R Hc Hq T P. destruct (proj2 clauses_end q k Hq lo T) as (k' & e & -> & Oe & F). destruct k' as [|a k'].
  - apply goes_one; auto. rewrite (step_end_if name fr code _ m true lps e R); auto. apply (nth_at pre e post); [exact Hc|reflexivity].
  - assert (Oa : opcode a = IElse \/ opcode a = IElseIf).
    { inversion Hq; subst; auto. exfalso. destruct k'; discriminate. }
    eapply GoStep; auto.
    { apply (step_skip name fr code (lenN pre) m lps a (lenN pre + lenN (a :: k')) R); auto.
      - apply (nth_at pre a (k' ++ e :: post)); [rewrite Hc; lists|reflexivity].
      - rewrite Hc, skipn_len, <- app_assoc, scan_app by exact F. cbn [app scan]. rewrite Oe. reflexivity. }
    apply goes_one; auto. rewrite (step_end_if name fr code _ m false lps e R); auto.
    + f_equal. f_equal. len.
    + apply (nth_at (pre ++ a :: k') e post); [rewrite Hc; lists|len].
Qed.

Context (library : list N -> option prog).
Hypothesis LIB : forall name q, library name = Some q -> respected q /\ exists sc, find_script file name = Some sc /\ lays q (sc_steps sc).

Definition fails (s : vm) (m' : mem) : Prop := m_pass m' = false /\
  exists name fr k br lps, goes s (state name fr k m' br lps).
Lemma fails_after s s' m' : goes s s' -> fails s' m' -> fails s m'.
Proof. intros G (P & name & fr & k & br & lps & H). split; auto. exists name, fr, k, br, lps. eapply goes_trans; eauto. Qed.

Definition exec_sim (n : N) (p : prog) (m : mem) (e : ending) (m' : mem) : Prop :=
  forall name fr code pre l post lo fi le br lps, n = lenN fr + 1 -> runs name fr code -> code = pre ++ l ++ post -> lays p l ->
  tame lo fi le p = true -> (fi = true -> br = false) -> (le = true -> lo = false) -> m_pass m = true ->
  match e with
  | Through => exists lps', goes (state name fr (lenN pre) m br lps) (state name fr (lenN pre + lenN l) m' br lps') /\ (lo = false -> lps' = lps) /\ m_pass m' = true
  | Exits => le = true /\ m_pass m' = true /\ forall x b post', post = x ++ b :: post' -> Forall (fun s => opcode s <> IEndLoop) x -> opcode b = IEndLoop ->
      goes (state name fr (lenN pre) m br lps) (state name fr (lenN pre + lenN l + lenN x + 1) m' br lps)
  | Failed => fails (state name fr (lenN pre) m br lps) m'
  end.
Definition chooses_sim (n : N) (q : clauses) (m : mem) (e : ending) (m' : mem) : Prop :=
  forall name fr code pre k post lo lps, n = lenN fr + 1 -> runs name fr code -> code = pre ++ k ++ post -> lays_clauses q k ->
  tame_clauses lo q = true -> m_pass m = true ->
  match e with
  | Through => exists lps', goes (state name fr (lenN pre) m false lps) (state name fr (lenN pre + lenN k) m' false lps') /\ (lo = false -> lps' = lps) /\ m_pass m' = true
  | Exits => False
  | Failed => fails (state name fr (lenN pre) m false lps) m'
  end.
Definition repeats_sim (n : N) (p : prog) (m : mem) (e : ending) (m' : mem) : Prop :=
  forall name fr code pre l b post fi br lps, n = lenN fr + 1 -> runs name fr code -> code = pre ++ l ++ b :: post -> lays p l ->
  opcode b = IEndLoop -> tame false fi true p = true -> (fi = true -> br = false) -> 1 <= lenN pre -> m_pass m = true ->
  match e with
  | Through => goes (state name fr (lenN pre) m br (lenN pre - 1 :: lps)) (state name fr (lenN pre + lenN l + 1) m' br (lenN pre - 1 :: lps)) /\ m_pass m' = true
  | Exits => True
  | Failed => fails (state name fr (lenN pre) m br (lenN pre - 1 :: lps)) m'
  end.

Lemma leaves_pass n s m m' b : leaves n s m m' b -> m_pass m' = m_pass m.
Proof. destruct 1; reflexivity. Qed.

(** After a prefix [s] of the run, the rest decides. *)
Lemma exec_after n p m e m' name fr code pre (pre0 : list step) l (l0 : list step) post lo fi le br lps lps1 s :
  exec_sim n p m e m' -> n = lenN fr + 1 -> runs name fr code -> code = pre ++ l ++ post -> lays p l -> tame lo fi le p = true ->
  (fi = true -> br = false) -> (le = true -> lo = false) -> m_pass m = true ->
  goes s (state name fr (lenN pre) m br lps1) -> (lo = false -> lps1 = lps) -> lenN pre + lenN l = lenN pre0 + lenN l0 ->
  match e with
  | Through => exists lps', goes s (state name fr (lenN pre0 + lenN l0) m' br lps') /\ (lo = false -> lps' = lps) /\ m_pass m' = true
  | Exits => le = true /\ m_pass m' = true /\ forall x b post', post = x ++ b :: post' -> Forall (fun s => opcode s <> IEndLoop) x -> opcode b = IEndLoop ->
      goes s (state name fr (lenN pre0 + lenN l0 + lenN x + 1) m' br lps)
  | Failed => fails s m'
  end.
Proof.
  intros H Hn R Hc Hl T Hb Hlo P G Hlps HL. specialize (H name fr code pre l post lo fi le br lps1 Hn R Hc Hl T Hb Hlo P). destruct e.
  - destruct H as (lps' & H1 & H2 & H3). exists lps'. rewrite <- HL. split; [eapply goes_trans; eauto|]. split; auto.
    intros K. rewrite H2, Hlps; auto.
  - destruct H as (H1 & H2 & H3). split; auto. split; auto. intros x b post' Hx F Ob. rewrite <- HL. eapply goes_trans; [exact G|].
    rewrite <- (Hlps (Hlo H1)). eapply H3; eauto.
  - eapply fails_after; eauto.
Qed.

Scheme exec_ind2 := Induction for exec Sort Prop with chooses_ind2 := Induction for chooses Sort Prop with repeats_ind2 := Induction for repeats Sort Prop.
Combined Scheme exec_mut from exec_ind2, chooses_ind2, repeats_ind2.

Theorem simulation :
  (forall n p m e m', exec E maps library n p m e m' -> exec_sim n p m e m') /\
  (forall n q m e m', chooses E maps library n q m e m' -> chooses_sim n q m e m') /\
  (forall n p m e m', repeats E maps library n p m e m' -> repeats_sim n p m e m').
Proof.
  apply exec_mut.
  - (* done *) intros n m name fr code pre l post lo fi le br lps Hn R Hc Hl T Hb Hlo P. inversion Hl; subst. exists lps. rewrite lenN_nil, N.add_0_r.
    split; [constructor|auto].
  - (* do *) intros n s p m m' e m'' D Pm X IH name fr code pre l post lo fi le br lps Hn R Hc Hl T Hb Hlo P. inversion Hl; subst. cbn [tame] in T.
    apply (exec_after (lenN fr + 1) p m' e m'' name fr (pre ++ (s :: l0) ++ post) (pre ++ [s]) pre l0 (s :: l0) post lo fi le br lps lps); auto; try lists; try len.
    apply goes_one; auto. eapply (step_simple E file maps t name fr); eauto.
    + apply nthN_app_len.
    + exists m'. split; auto. f_equal. len.
  - (* fail *) intros n s p m m' D Pm name fr code pre l post lo fi le br lps Hn R Hc Hl T Hb Hlo P. inversion Hl; subst. split; auto.
    exists name, fr, (lenN pre + 1), br, lps. apply goes_one; auto. eapply (step_simple E file maps t name fr); eauto. apply nthN_app_len.
  - (* leave *) intros n s p m m' L name fr code pre l post lo fi le br lps Hn R Hc Hl T Hb Hlo P. inversion Hl; subst. cbn [tame] in T.
    apply andb_true_iff in T as [T1 T2]. subst le. split; auto. split; [rewrite (leaves_pass _ _ _ _ _ L); auto|].
    intros x b post' -> F Ob. apply goes_one; auto. rewrite (step_leaving name fr _ (lenN pre) m br lps s m' true R); [|apply nthN_app_len|exact L].
    rewrite skipn_len. rewrite (Hlo eq_refl) in T2.
    replace ((s :: l0) ++ x ++ b :: post') with (((s :: l0) ++ x) ++ b :: post') by lists. rewrite past_app; auto.
    + cbn [bind]. f_equal. f_equal. len.
    + apply Forall_app. split; auto. constructor; [destruct H1 as [K|[K _]]; congruence|]. eapply (proj1 lays_no_loop); eauto.
  - (* stay *) intros n s p m m' e m'' L X IH name fr code pre l post lo fi le br lps Hn R Hc Hl T Hb Hlo P. inversion Hl; subst. cbn [tame] in T.
    apply andb_true_iff in T as [T1 T2].
    apply (exec_after (lenN fr + 1) p m' e m'' name fr (pre ++ (s :: l0) ++ post) (pre ++ [s]) pre l0 (s :: l0) post lo fi le br lps lps); auto; try lists; try len.
    + rewrite (leaves_pass _ _ _ _ _ L); auto.
    + apply goes_one; auto. rewrite (step_leaving name fr _ (lenN pre) m br lps s m' false R); [|apply nthN_app_len|exact L]. f_equal. f_equal. len.
  - (* call *) intros n s c cs callee q p m m' e m'' S C Lq X1 IH1 X2 IH2 name fr code pre l post lo fi le br lps Hn R Hc Hl T Hb Hlo P.
    inversion Hl; subst. cbn [tame] in T. apply andb_true_iff in T as [T T2]. apply andb_true_iff in T as [-> ->]. rewrite (Hb eq_refl) in *.
    destruct (LIB _ _ Lq) as (Tq & sc & Fs & Lay).
    assert (R' : runs callee ((name, lenN pre + 1) :: fr) (sc_steps sc)) by (exists sc; auto).
    destruct (IH1 callee ((name, lenN pre + 1) :: fr) (sc_steps sc) [] (sc_steps sc) [] true true false false lps) as (lps1 & G1 & _ & P1); auto;
      try (rewrite lenN_cons; reflexivity); try (now rewrite app_nil_r); try (intros K; discriminate K).
    apply (exec_after (lenN fr + 1) p m' e m'' name fr (pre ++ (s :: l0) ++ post) (pre ++ [s]) pre l0 (s :: l0) post true true le false lps lps1); auto; try lists; try len.
    eapply GoStep; auto; [eapply (step_call name fr _ (lenN pre) m false lps s c cs callee sc R); eauto; apply nthN_app_len|].
      eapply goes_trans; [exact G1|]. apply goes_one; auto. rewrite (step_pop _ _ _ m' false lps1 _ R') by (rewrite lenN_nil; lia).
      unfold VmSteps.state. f_equal. f_equal. f_equal. f_equal. len.
  - (* failing call *) intros n s c cs callee q p m m' S C Lq X1 IH1 name fr code pre l post lo fi le br lps Hn R Hc Hl T Hb Hlo P.
    inversion Hl; subst. cbn [tame] in T. apply andb_true_iff in T as [T T2]. apply andb_true_iff in T as [-> ->]. rewrite (Hb eq_refl) in *.
    destruct (LIB _ _ Lq) as (Tq & sc & Fs & Lay).
    assert (R' : runs callee ((name, lenN pre + 1) :: fr) (sc_steps sc)) by (exists sc; auto).
    assert (F : fails (state callee ((name, lenN pre + 1) :: fr) 0 (mkMem (m_db m) (m_vars m ++ [[]]) (m_find m) (m_criteria m) (m_pass m)) false lps) m').
    { apply (IH1 callee ((name, lenN pre + 1) :: fr) (sc_steps sc) [] (sc_steps sc) [] true true false false lps); auto.
      - rewrite lenN_cons. reflexivity.
      - now rewrite app_nil_r. }
    eapply fails_after; [|exact F]. apply goes_one; auto. eapply (step_call name fr _ (lenN pre) m false lps s c cs callee sc R); eauto. apply nthN_app_len.
  - (* loop *) intros n p q m m' e m'' X1 IH1 X2 IH2 name fr code pre l post lo fi le br lps Hn R Hc Hl T Hb Hlo P. inversion Hl; subst. cbn [tame] in T.
    apply andb_true_iff in T as [T T2]. apply andb_true_iff in T as [-> T1].
    destruct (IH1 name fr (pre ++ (a :: l0 ++ b :: k) ++ post) (pre ++ [a]) l0 b (k ++ post) fi br lps) as [G1 P1]; auto; try lists; try len.
    apply (exec_after (lenN fr + 1) q m' e m'' name fr (pre ++ (a :: l0 ++ b :: k) ++ post) (pre ++ a :: l0 ++ [b]) pre k (a :: l0 ++ b :: k) post true fi le br lps
             (lenN (pre ++ [a]) - 1 :: lps)); auto; try lists; try len.
    eapply GoStep; auto; [apply (step_loop name fr _ (lenN pre) m br lps a R); auto; apply nthN_app_len|].
      replace (lenN pre + 1) with (lenN (pre ++ [a])) by len. replace (lenN pre) with (lenN (pre ++ [a]) - 1) at 1 by len.
      replace (lenN (pre ++ a :: l0 ++ [b])) with (lenN (pre ++ [a]) + lenN l0 + 1) by len. exact G1.
  - (* failing loop *) intros n p q m m' X1 IH1 name fr code pre l post lo fi le br lps Hn R Hc Hl T Hb Hlo P. inversion Hl; subst. cbn [tame] in T.
    apply andb_true_iff in T as [T T2]. apply andb_true_iff in T as [-> T1].
    assert (F : fails (state name fr (lenN (pre ++ [a])) m br (lenN (pre ++ [a]) - 1 :: lps)) m').
    { apply (IH1 name fr (pre ++ (a :: l0 ++ b :: k) ++ post) (pre ++ [a]) l0 b (k ++ post) fi br lps); auto; try lists; try len. }
    eapply fails_after; [|exact F]. apply goes_one; auto. rewrite (step_loop name fr _ (lenN pre) m br lps a R); auto; [|apply nthN_app_len].
    f_equal. f_equal; [len|]. f_equal. len.
  - (* if *) intros n c p q r m m' e m'' C X1 IH1 X2 IH2 name fr code pre l post lo fi le br lps Hn R Hc Hl T Hb Hlo P. inversion Hl; subst. cbn [tame] in T.
    apply andb_true_iff in T as [T T3]. apply andb_true_iff in T as [T T2]. apply andb_true_iff in T as [-> T1]. rewrite (Hb eq_refl) in *.
    destruct (IH1 name fr (pre ++ (a :: l0 ++ k ++ j) ++ post) (pre ++ [a]) l0 (k ++ j ++ post) lo false false true lps) as (lps1 & G1 & L1 & P1); auto; try lists; try discriminate.
    apply (exec_after (lenN fr + 1) r m' e m'' name fr (pre ++ (a :: l0 ++ k ++ j) ++ post) (pre ++ a :: l0 ++ k) pre j (a :: l0 ++ k ++ j) post lo true le false lps lps1); auto; try lists; try len.
    eapply GoStep; auto.
    { rewrite (step_if name fr _ (lenN pre) m false lps a c cs _ R) by (eauto; apply nthN_app_len). rewrite str_eqb_refl. reflexivity. }
    replace (lenN pre + 1) with (lenN (pre ++ [a])) by len. eapply goes_trans; [exact G1|].
    replace (lenN (pre ++ [a]) + lenN l0) with (lenN (pre ++ a :: l0)) by len.
    replace (lenN (pre ++ a :: l0 ++ k)) with (lenN (pre ++ a :: l0) + lenN k) by len.
    eapply (pass_over name fr _ (pre ++ a :: l0) q k (j ++ post)); eauto. lists.
  - (* if ends *) intros n c p q r m e m' C X1 IH1 Ne name fr code pre l post lo fi le br lps Hn R Hc Hl T Hb Hlo P. inversion Hl; subst. cbn [tame] in T.
    apply andb_true_iff in T as [T T3]. apply andb_true_iff in T as [T T2]. apply andb_true_iff in T as [-> T1]. rewrite (Hb eq_refl) in *.
    assert (G : goes (state name fr (lenN pre) m false lps) (state name fr (lenN (pre ++ [a])) m true lps)).
    { apply goes_one; auto. rewrite (step_if name fr _ (lenN pre) m false lps a c cs _ R) by (eauto; apply nthN_app_len). rewrite str_eqb_refl. f_equal. f_equal. len. }
    specialize (IH1 name fr (pre ++ (a :: l0 ++ k ++ j) ++ post) (pre ++ [a]) l0 (k ++ j ++ post) lo false false true lps).
    destruct e; [now elim Ne| |].
    + destruct IH1 as (K & _); auto; try lists; discriminate.
    + eapply fails_after; [exact G|]. apply IH1; auto; try lists; discriminate.
  - (* else *) intros n c v p q r m m' e m'' C V X1 IH1 X2 IH2 name fr code pre l post lo fi le br lps Hn R Hc Hl T Hb Hlo P. inversion Hl; subst. cbn [tame] in T.
    apply andb_true_iff in T as [T T3]. apply andb_true_iff in T as [T T2]. apply andb_true_iff in T as [-> T1]. rewrite (Hb eq_refl) in *.
    destruct (IH1 name fr (pre ++ (a :: l0 ++ k ++ j) ++ post) (pre ++ a :: l0) k (j ++ post) lo lps) as (lps1 & G1 & L1 & P1); auto; try lists.
    apply (exec_after (lenN fr + 1) r m' e m'' name fr (pre ++ (a :: l0 ++ k ++ j) ++ post) (pre ++ a :: l0 ++ k) pre j (a :: l0 ++ k ++ j) post lo true le false lps lps1); auto; try lists; try len.
    eapply GoStep; auto.
    { rewrite (step_if name fr _ (lenN pre) m false lps a c cs _ R) by (eauto; apply nthN_app_len).
      destruct (str_eqb_spec v (lit "true")); [contradiction|]. rewrite skipn_len. 
      match goal with K : lays_clauses _ ?y |- _ => assert (CS := clauses_start _ _ K) end. destruct CS as (a' & k' & -> & Oa).
      replace ((a :: l0 ++ (a' :: k') ++ j) ++ post) with ((a :: l0) ++ a' :: k' ++ j ++ post) by lists.
      rewrite scan_app by (constructor; [match goal with K : opcode a = _ |- _ => now rewrite K end|eapply lays_no_clause; eauto]). cbn [scan]. rewrite Oa. reflexivity. }
    replace (lenN pre + lenN (a :: l0)) with (lenN (pre ++ a :: l0)) by len.
    replace (lenN (pre ++ a :: l0 ++ k)) with (lenN (pre ++ a :: l0) + lenN k) by len. exact G1.
  - (* else ends *) intros n c v p q r m e m' C V X1 IH1 Ne name fr code pre l post lo fi le br lps Hn R Hc Hl T Hb Hlo P. inversion Hl; subst. cbn [tame] in T.
    apply andb_true_iff in T as [T T3]. apply andb_true_iff in T as [T T2]. apply andb_true_iff in T as [-> T1]. rewrite (Hb eq_refl) in *.
    assert (G : goes (state name fr (lenN pre) m false lps) (state name fr (lenN (pre ++ a :: l0)) m false lps)).
    { apply goes_one; auto. rewrite (step_if name fr _ (lenN pre) m false lps a c cs _ R) by (eauto; apply nthN_app_len).
      destruct (str_eqb_spec v (lit "true")); [contradiction|]. rewrite skipn_len. 
      match goal with K : lays_clauses _ ?y |- _ => assert (CS := clauses_start _ _ K) end. destruct CS as (a' & k' & -> & Oa).
      replace ((a :: l0 ++ (a' :: k') ++ j) ++ post) with ((a :: l0) ++ a' :: k' ++ j ++ post) by lists.
      rewrite scan_app by (constructor; [match goal with K : opcode a = _ |- _ => now rewrite K end|eapply lays_no_clause; eauto]). cbn [scan]. rewrite Oa. f_equal. f_equal. len. }
    specialize (IH1 name fr (pre ++ (a :: l0 ++ k ++ j) ++ post) (pre ++ a :: l0) k (j ++ post) lo lps).
    destruct e; [now elim Ne| |].
    + exfalso. apply IH1; auto; lists.
    + eapply fails_after; [exact G|]. apply IH1; auto; lists.
  - (* no else *) intros n m name fr code pre k post lo lps Hn R Hc Hl T P. inversion Hl; subst. exists lps. split; auto.
    apply goes_one; auto. rewrite (step_end_if name fr _ (lenN pre) m false lps e R); auto. apply nthN_app_len.
  - (* else clause *) intros n p m e m' X IH name fr code pre k post lo lps Hn R Hc Hl T P. inversion Hl; subst. cbn [tame_clauses] in T.
    assert (G : goes (state name fr (lenN pre) m false lps) (state name fr (lenN (pre ++ [a])) m false lps)).
    { apply goes_one; auto. rewrite (step_else name fr _ (lenN pre) m lps a R); auto; [|apply nthN_app_len]. f_equal. f_equal. len. }
    specialize (IH name fr (pre ++ (a :: l ++ [e0]) ++ post) (pre ++ [a]) l (e0 :: post) lo false false false lps).
    destruct e.
    + destruct IH as (lps' & G1 & L1 & P1); auto; try lists; try discriminate. exists lps'. split; auto.
      eapply goes_trans; [exact G|]. eapply goes_trans; [exact G1|]. apply goes_one; auto.
      rewrite (step_end_if name fr _ _ m' false lps' e0 R); auto.
      * f_equal. f_equal. len.
      * apply (nth_at (pre ++ a :: l) e0 post); [lists|len].
    + destruct IH as (K & _); auto; try lists; discriminate.
    + eapply fails_after; [exact G|]. apply IH; auto; try lists; discriminate.
  - (* else-if clause *) intros n c p q m e m' C X IH name fr code pre k post lo lps Hn R Hc Hl T P. inversion Hl; subst. cbn [tame_clauses] in T.
    apply andb_true_iff in T as [T1 T2].
    assert (G : goes (state name fr (lenN pre) m false lps) (state name fr (lenN (pre ++ [a])) m true lps)).
    { apply goes_one; auto. rewrite (step_else_if name fr _ (lenN pre) m lps a c cs _ R) by (eauto; apply nthN_app_len). rewrite str_eqb_refl. f_equal. f_equal. len. }
    specialize (IH name fr (pre ++ (a :: l ++ k0) ++ post) (pre ++ [a]) l (k0 ++ post) lo false false true lps).
    destruct e.
    + destruct IH as (lps' & G1 & L1 & P1); auto; try lists; try discriminate. exists lps'. split; auto.
      eapply goes_trans; [exact G|]. eapply goes_trans; [exact G1|].
      replace (lenN (pre ++ [a]) + lenN l) with (lenN (pre ++ a :: l)) by len.
      replace (lenN pre + lenN (a :: l ++ k0)) with (lenN (pre ++ a :: l) + lenN k0) by len.
      eapply (pass_over name fr _ (pre ++ a :: l) q k0 post); eauto. lists.
    + destruct IH as (K & _); auto; try lists; discriminate.
    + eapply fails_after; [exact G|]. apply IH; auto; try lists; discriminate.
  - (* next clause *) intros n c v p q m e m' C V X IH name fr code pre k post lo lps Hn R Hc Hl T P. inversion Hl; subst. cbn [tame_clauses] in T.
    apply andb_true_iff in T as [T1 T2].
    assert (G : goes (state name fr (lenN pre) m false lps) (state name fr (lenN (pre ++ a :: l)) m false lps)).
    { apply goes_one; auto. rewrite (step_else_if name fr _ (lenN pre) m lps a c cs _ R) by (eauto; apply nthN_app_len).
      destruct (str_eqb_spec v (lit "true")); [contradiction|]. f_equal. f_equal.
      match goal with K : lays_clauses _ ?y |- _ => assert (CS := clauses_start _ _ K) end. destruct CS as (a' & k' & -> & Oa).
      replace (pre ++ (a :: l ++ a' :: k') ++ post) with ((pre ++ [a]) ++ l ++ a' :: k' ++ post) by lists.
      rewrite skipn_len' by len. rewrite scan_app by (eapply lays_no_clause; eauto). cbn [scan]. rewrite Oa. len. }
    specialize (IH name fr (pre ++ (a :: l ++ k0) ++ post) (pre ++ a :: l) k0 post lo lps).
    destruct e.
    + destruct IH as (lps' & G1 & L1 & P1); auto; try lists. exists lps'. split; auto. eapply goes_trans; [exact G|].
      replace (lenN pre + lenN (a :: l ++ k0)) with (lenN (pre ++ a :: l) + lenN k0) by len. exact G1.
    + apply IH; auto; lists.
    + eapply fails_after; [exact G|]. apply IH; auto; lists.
  - (* again *) intros n p m m' e m'' X1 IH1 X2 IH2 name fr code pre l b post fi br lps Hn R Hc Hl Ob T Hb Hp P. subst n.
    destruct (IH1 name fr code pre l (b :: post) false fi true br (lenN pre - 1 :: lps)) as (lps' & G1 & L1 & P1); auto. rewrite L1 in G1 by auto.
    assert (G : goes (state name fr (lenN pre) m br (lenN pre - 1 :: lps)) (state name fr (lenN pre) m' br (lenN pre - 1 :: lps))).
    { eapply goes_trans; [exact G1|]. apply goes_one; auto. rewrite (step_end_loop name fr code _ m' br (lenN pre - 1) lps b R); auto.
      - f_equal. f_equal. lia.
      - apply (nth_at (pre ++ l) b post); [rewrite Hc; lists|len]. }
    specialize (IH2 name fr code pre l b post fi br lps eq_refl R Hc Hl Ob T Hb Hp P1). destruct e; auto.
    + destruct IH2 as [G2 P2]. split; auto. eapply goes_trans; eauto.
    + eapply fails_after; eauto.
  - (* exit *) intros n p m m' X1 IH1 name fr code pre l b post fi br lps Hn R Hc Hl Ob T Hb Hp P. subst n.
    destruct (IH1 name fr code pre l (b :: post) false fi true br (lenN pre - 1 :: lps)) as (_ & P1 & G1); auto. split; auto.
    specialize (G1 [] b post eq_refl (Forall_nil _) Ob). rewrite lenN_nil, N.add_0_r in G1. exact G1.
  - (* fail *) intros n p m m' X1 IH1 name fr code pre l b post fi br lps Hn R Hc Hl Ob T Hb Hp P. subst n.
    apply (IH1 name fr code pre l (b :: post) false fi true br (lenN pre - 1 :: lps)); auto.
Qed.
End R.
