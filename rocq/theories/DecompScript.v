(** Proofs about script segments and steps. *)
From Coq Require Import Ascii String NArith ZArith List Bool Lia Permutation Sorting.Sorted.
From Verif Require Import Prelude PreludeFacts Utf8 EncodingModel EncodingSpec EncodingProofs CharConvModel
  ChunkModel InstrModel ComponentModel AsmFacts AsmProofs DecompModel DecompSpec DecompChain DecompScriptSpec.
Import ListNotations.
Local Open Scope N_scope.

(** * The instruction table *)

Lemma map_to_number b : b < 254 ->
  exists o, nthN INSTRUCTIONMAP b = Some o /\ forall i, o = Some i -> discriminant i = b.
Proof.
  intros H.
  assert (A : all_below 254 (fun b => match nthN INSTRUCTIONMAP b with
                                      | Some (Some i) => discriminant i =? b | Some None => true | None => false end) = true)
    by (vm_compute; reflexivity).
  pose proof (all_below_spec _ _ A b H) as B. cbv beta in B.
  destruct (nthN INSTRUCTIONMAP b) as [[i|]|]; [| |discriminate].
  - exists (Some i). split; auto. intros j [= <-]. lia.
  - exists None. split; auto. intros j [=].
Qed.

Lemma number_to_map i : i <> IAssert -> nthN INSTRUCTIONMAP (discriminant i) = Some (Some i) /\ discriminant i < 254.
Proof. destruct i; intros H; try congruence; (split; [vm_compute; reflexivity|vm_compute; reflexivity]). Qed.

Lemma discriminant_inj i j : discriminant i = discriminant j -> i = j.
Proof.
  intros H. assert (D : i = IAssert \/ i <> IAssert) by (destruct i; auto; right; discriminate).
  assert (D2 : j = IAssert \/ j <> IAssert) by (destruct j; auto; right; discriminate).
  destruct D as [->|D], D2 as [->|D2]; auto.
  - apply number_to_map in D2 as [_ D2]. change (discriminant IAssert) with 255 in H. lia.
  - apply number_to_map in D as [_ D]. change (discriminant IAssert) with 255 in H. lia.
  - apply number_to_map in D as [D _]. apply number_to_map in D2 as [D2 _]. congruence.
Qed.

Lemma map_exact b o : nthN INSTRUCTIONMAP b = Some o ->
  match o with Some i => step_number b i | None => b < 254 /\ forall i, ~ step_number b i end.
Proof.
  intros H. assert (L : b < 255) by (apply nthN_lt in H; exact H).
  destruct (N.eqb_spec b 254) as [->|Hb].
  - vm_compute in H. injection H as <-. right. split; reflexivity.
  - destruct (map_to_number b ltac:(lia)) as (o' & E & D). rewrite H in E. injection E as <-.
    destruct o as [i|].
    + left. split; [lia|auto].
    + split; [lia|]. intros i [[_ E]|[? _]]; [|lia]. subst b.
      assert (A : i <> IAssert) by (intros ->; change (discriminant IAssert) with 255 in L; lia).
      apply number_to_map in A as [A _]. congruence.
Qed.

Lemma step_number_det b i j : step_number b i -> step_number b j -> i = j.
Proof. intros [[? H]|[? H]] [[? H2]|[? H2]]; apply discriminant_inj; lia. Qed.

Lemma map_total b : b < 255 -> exists o, nthN INSTRUCTIONMAP b = Some o.
Proof. intros H. apply nthN_ex. exact H. Qed.

Lemma map_255 b : 255 <= b -> nthN INSTRUCTIONMAP b = None.
Proof. intros H. apply nthN_None. exact H. Qed.

(** * Decoding one step *)

Lemma decode_block scripts block o :
  block_step (fun k => option_map sc_name (nget scripts k)) block o -> decode_step scripts block = Ok o.
Proof.
  intros (n0 & x & ib & rest & op & E & L & -> & Hop & Ho). unfold decode_step, at_. rewrite Hop. cbn [unwrap bind].
  destruct o as [st|].
  - destruct Ho as (Hn & Hi & Hs).
    assert (M : nthN INSTRUCTIONMAP op = Some (Some (opcode st))).
    { destruct (map_total op) as (o & Ho); [destruct Hn; lia|]. rewrite Ho. f_equal. apply map_exact in Ho.
      destruct o as [i|]; [f_equal; eapply step_number_det; eauto|]. destruct Ho as [_ Ho]. now apply Ho in Hn. }
    rewrite M. cbn [unwrap bind].
    assert (SW : (if instr_eqb (opcode st) IPerformScript
                  then k <- unwrap (nthN block 8) ;; sc <- unwrap (nget scripts k) ;; Ok [sc_name sc] else Ok []) = Ok (switches st)).
    { destruct (instr_eqb _ _).
      - destruct Hs as (k & n & Hk & Hnm & ->). rewrite Hk. cbn [unwrap bind].
        destruct (nget scripts k); [|discriminate]. cbn in Hnm. injection Hnm as <-. reflexivity.
      - now rewrite Hs. }
    unfold at_. rewrite SW. cbn [bind]. rewrite E at 1. change (nthN ([lenN ib + 1; x] ++ ib ++ rest) 0) with (Some (lenN ib + 1)).
    cbn [unwrap bind]. rewrite E.
    replace (slice ([lenN ib + 1; x] ++ ib ++ rest) 2 (lenN ib + 1 + 1)) with (Ok ib)
      by (symmetry; apply slice_mid; [reflexivity|change (lenN [lenN ib + 1; x]) with 2; lia]).
    cbn [bind]. rewrite <- Hi. destruct st; reflexivity.
  - destruct Ho as [Hl Ho]. destruct (map_total op) as (o & E2); [lia|]. rewrite E2. cbn [unwrap bind].
    apply map_exact in E2. destruct o; auto. now apply Ho in E2.
Qed.

Lemma decode_inv scripts block o : decode_step scripts block = Ok o ->
  exists op, nthN block 21 = Some op /\
    match o with Some st => step_number op (opcode st) | None => op < 254 /\ forall i, ~ step_number op i end.
Proof.
  unfold decode_step, at_. destruct (nthN block 21) as [op|]; [|discriminate]. cbn [unwrap bind]. intros H. exists op. split; auto.
  destruct (nthN INSTRUCTIONMAP op) as [o'|] eqn:M; [|discriminate]. cbn [unwrap bind] in H. apply map_exact in M.
  destruct o' as [i|].
  - destruct (if instr_eqb i IPerformScript then _ else _); try discriminate. cbn [bind] in H.
    destruct (nthN block 0); try discriminate. cbn [unwrap bind] in H.
    destruct (slice block 2 (n + 1)); try discriminate. cbn [bind] in H. injection H as <-. exact M.
  - injection H as <-. exact M.
Qed.

(** * Building scripts *)

Fixpoint decode_list (scripts : list (N * script)) (m : N) (l : list (list N)) : outcome (list step) :=
  match l with
  | [] => Ok []
  | b :: l' =>
    if m <=? lenN b then
      o <- decode_step scripts b ;;
      r <- decode_list scripts m l' ;;
      Ok (match o with Some st => st :: r | None => r end)
    else decode_list scripts m l'
  end.

Definition append_steps (s : dstate) (sid : N) (steps : list step) : outcome dstate :=
  match steps with [] => Ok s | _ => mod_steps s sid (fun l => Ok (l ++ steps)) end.

Definition names_of (scripts : list (N * script)) (k : N) : option (list N) := option_map sc_name (nget scripts k).

Lemma decode_step_names sc1 sc2 b : (forall k, names_of sc1 k = names_of sc2 k) -> decode_step sc1 b = decode_step sc2 b.
Proof.
  intros H. unfold decode_step. apply bind_ext. intros op. apply bind_ext. intros [i|]; auto.
  assert (E : forall k, (sc <- unwrap (nget sc1 k) ;; Ok [sc_name sc]) = (sc <- unwrap (nget sc2 k) ;; Ok [sc_name sc])).
  { intros k. specialize (H k). unfold names_of in H. destruct (nget sc1 k), (nget sc2 k); cbn in *; congruence. }
  destruct (instr_eqb i IPerformScript); auto.
  destruct (at_ b 8); cbn [bind]; auto. now rewrite E.
Qed.

Lemma decode_list_names sc1 sc2 m l : (forall k, names_of sc1 k = names_of sc2 k) -> decode_list sc1 m l = decode_list sc2 m l.
Proof.
  intros H. induction l as [|b l IH]; cbn [decode_list]; auto. now rewrite IH, (decode_step_names _ _ b H).
Qed.

Lemma nf_decode_list sc m l : decode_list sc m l <> NoFuel.
Proof.
  induction l as [|b l IH]; cbn [decode_list]; [discriminate|]. destruct (_ <=? _); auto.
  apply nf_bind; [apply nf_decode_step|]. intros. apply nf_bind; auto. intros; apply nf_ok.
Qed.

Lemma nset_nset {V} (m : list (N * V)) k v w : nset (nset m k v) k w = nset m k w.
Proof.
  unfold nset. induction m as [|[k0 v0] m IH]; cbn [mset].
  - now rewrite N.eqb_refl.
  - destruct (k0 =? k) eqn:E; cbn [mset]; rewrite E; auto. now rewrite IH.
Qed.

Lemma nset_swap {V} (m : list (N * V)) a b v w : a <> b -> nhas m a = true -> nhas m b = true ->
  nset (nset m a v) b w = nset (nset m b w) a v.
Proof.
  unfold nset, nhas, mhas. intros Hab. induction m as [|[k0 v0] m IH]; cbn [mset mget]; [discriminate|].
  destruct (N.eqb_spec k0 a) as [Ea|Ha]; [subst k0|]; [|destruct (N.eqb_spec k0 b) as [Eb|Hb]; [subst k0|]].
  - rewrite (proj2 (N.eqb_neq a b)) by auto. cbn [mset]. now rewrite N.eqb_refl, (proj2 (N.eqb_neq a b)) by auto.
  - cbn [mset]. now rewrite N.eqb_refl, (proj2 (N.eqb_neq b a)) by auto.
  - cbn [mset]. rewrite (proj2 (N.eqb_neq k0 a)), (proj2 (N.eqb_neq k0 b)) by auto. intros H1 H2. now rewrite IH.
Qed.

Definition script_with (sc : script) (steps : list step) : script :=
  mkScript (sc_name sc) (sc_account sc) (sc_user sc) (sc_args sc) steps.

Lemma mod_steps_ok s sid g : mod_steps s sid g =
  match nget (f_scripts (d_file s)) sid with
  | None => Panic
  | Some sc => steps <- g (sc_steps sc) ;;
               Ok (with_file s (set_scripts (d_file s) (nset (f_scripts (d_file s)) sid (script_with sc steps))))
  end.
Proof. unfold mod_steps. destruct (nget _ sid); reflexivity. Qed.

Lemma append_names s sid steps s' : append_steps s sid steps = Ok s' ->
  forall k, names_of (f_scripts (d_file s')) k = names_of (f_scripts (d_file s)) k.
Proof.
  intros H k. unfold append_steps in H. destruct steps as [|st steps]; [injection H as <-; reflexivity|].
  rewrite mod_steps_ok in H. destruct (nget (f_scripts (d_file s)) sid) as [sc|] eqn:E; [|discriminate]. cbn [bind] in H.
  injection H as <-. unfold names_of. cbn. rewrite nget_nset. destruct (N.eqb_spec sid k) as [->|]; auto. rewrite E. reflexivity.
Qed.

Lemma append_append s sid a b : (s' <- append_steps s sid a ;; append_steps s' sid b) = append_steps s sid (a ++ b).
Proof.
  unfold append_steps. destruct a as [|x a]; [reflexivity|]. cbn [app].
  rewrite !mod_steps_ok. destruct (nget (f_scripts (d_file s)) sid) as [sc|] eqn:E; [|reflexivity]. cbn [bind].
  destruct b as [|y b]; [now rewrite app_nil_r|].
  rewrite mod_steps_ok. cbn [d_file with_file f_scripts set_scripts]. rewrite nget_nset, N.eqb_refl. cbn [bind].
  unfold with_file, set_scripts. cbn. rewrite nset_nset. unfold script_with. cbn. now rewrite <- app_assoc.
Qed.

Lemma steps_loop_append l : forall m sid s,
  steps_loop l m sid (fun steps st => Ok (steps ++ [st])) s =
  (steps <- decode_list (f_scripts (d_file s)) m l ;; append_steps s sid steps).
Proof.
  induction l as [|b l IH]; intros m sid s; [reflexivity|]. cbn [steps_loop decode_list].
  destruct (m <=? lenN b); [|apply IH].
  destruct (decode_step (f_scripts (d_file s)) b) as [[st|]| |]; cbn [bind]; auto.
  - assert (E : mod_steps s sid (fun steps => Ok (steps ++ [st])) = append_steps s sid [st]) by reflexivity.
    rewrite E. destruct (append_steps s sid [st]) as [s'| |] eqn:A.
    + cbn [bind]. rewrite IH, (decode_list_names _ (f_scripts (d_file s))) by (eapply append_names; eauto).
      destruct (decode_list _ m l) as [steps| |]; cbn [bind]; auto.
      change (st :: steps) with ([st] ++ steps). rewrite <- (append_append s sid [st] steps), A. reflexivity.
    + cbn [bind]. pose proof (nf_decode_list (f_scripts (d_file s)) m l).
      destruct (decode_list _ m l) as [steps| |]; cbn [bind]; auto; [|congruence].
      change (st :: steps) with ([st] ++ steps). rewrite <- (append_append s sid [st] steps), A. reflexivity.
    + unfold append_steps in A. rewrite mod_steps_ok in A. destruct (nget _ sid); discriminate.
  - rewrite IH. destruct (decode_list _ m l); reflexivity.
Qed.

Lemma build_script_eq sid segs s : build_script sid segs s =
  (steps <- decode_list (f_scripts (d_file s)) 28 (chunks 28 (concat (map snd segs))) ;; append_steps s sid steps).
Proof. apply steps_loop_append. Qed.

Lemma append_swap s a b x y : a <> b ->
  (s' <- append_steps s a x ;; append_steps s' b y) = (s' <- append_steps s b y ;; append_steps s' a x).
Proof.
  intros Hab. unfold append_steps. destruct x as [|x1 x], y as [|y1 y]; cbn [bind]; auto.
  - now rewrite bind_ret.
  - now rewrite bind_ret.
  - rewrite !mod_steps_ok.
    destruct (nget (f_scripts (d_file s)) a) as [sa|] eqn:Ea, (nget (f_scripts (d_file s)) b) as [sb|] eqn:Eb; cbn [bind];
      rewrite ?mod_steps_ok; cbn [d_file with_file f_scripts set_scripts];
      rewrite ?nget_nset, ?(proj2 (N.eqb_neq a b)), ?(proj2 (N.eqb_neq b a)), ?Ea, ?Eb by auto; auto.
    cbn [bind]. unfold with_file, set_scripts. cbn. do 2 f_equal. f_equal.
    apply nset_swap; auto; unfold nhas, mhas; change (mget N.eqb) with (@nget script); now rewrite ?Ea, ?Eb.
Qed.

Lemma build_swap s a b sa sb : a <> b ->
  (s' <- build_script a sa s ;; build_script b sb s') = (s' <- build_script b sb s ;; build_script a sa s').
Proof.
  intros Hab. rewrite !build_script_eq.
  set (da := decode_list (f_scripts (d_file s)) 28 (chunks 28 (concat (map snd sa)))).
  set (db := decode_list (f_scripts (d_file s)) 28 (chunks 28 (concat (map snd sb)))).
  assert (A : forall xa, (s' <- append_steps s a xa ;; build_script b sb s') =
                         (s' <- append_steps s a xa ;; steps <- db ;; append_steps s' b steps)).
  { intros xa. destruct (append_steps s a xa) eqn:E; cbn [bind]; auto. rewrite build_script_eq.
    subst db. now rewrite (decode_list_names _ (f_scripts (d_file s))) by (eapply append_names; eauto). }
  assert (B : forall xb, (s' <- append_steps s b xb ;; build_script a sa s') =
                         (s' <- append_steps s b xb ;; steps <- da ;; append_steps s' a steps)).
  { intros xb. destruct (append_steps s b xb) eqn:E; cbn [bind]; auto. rewrite build_script_eq.
    subst da. now rewrite (decode_list_names _ (f_scripts (d_file s))) by (eapply append_names; eauto). }
  assert (NA : da <> NoFuel) by apply nf_decode_list. assert (NB : db <> NoFuel) by apply nf_decode_list.
  assert (NF : forall k x, append_steps s k x <> NoFuel).
  { intros k [|x1 x]; cbn [append_steps]; [discriminate|]. apply nf_mod_steps. intros; apply nf_ok. }
  destruct da as [xa| |], db as [xb| |]; cbn [bind]; try congruence; rewrite ?A, ?B; cbn [bind].
  - now apply append_swap.
  - pose proof (NF a xa). destruct (append_steps s a xa); cbn [bind]; congruence.
  - pose proof (NF b xb). destruct (append_steps s b xb); cbn [bind]; congruence.
Qed.

Lemma build_scripts_perm l1 l2 : Permutation l1 l2 -> NoDup (keys l1) -> forall s, build_scripts l1 s = build_scripts l2 s.
Proof.
  induction 1 as [|[k v] l1 l2 P IH|[k v] [k2 v2] l|l1 l2 l3 P1 IH1 P2 IH2]; intros ND s; auto.
  - inversion ND; subst. cbn [build_scripts]. apply bind_ext. intros s'. now apply IH.
  - inversion ND as [|? ? N1 N2]; subst. cbn [build_scripts keys map fst] in *.
    assert (Hk : k2 <> k) by (intros ->; apply N1; now left).
    pose proof (build_swap s k k2 v v2 ltac:(congruence)) as W.
    assert (AS : forall (x : outcome dstate) (f g : dstate -> outcome dstate), (s1 <- x ;; s2 <- f s1 ;; g s2) = (s2 <- (s1 <- x ;; f s1) ;; g s2) :> outcome dstate)
      by (intros [?| |]; reflexivity).
    now rewrite !AS, W.
  - rewrite IH1 by auto. apply IH2. eapply Permutation_NoDup; [|exact ND]. now apply Permutation_map.
Qed.

(** * Invariants of the segment table *)

Definition good_segs (m : list (N * list (N * list N))) : Prop :=
  NoDup (keys m) /\ Forall (fun e => increasing (keys (snd e))) m.

Definition keeps (s : dstate) (x : outcome dstate) : Prop := forall s', x = Ok s' -> d_segments s' = d_segments s.

Lemma keep_bind {A} s (x : outcome A) k : (forall a, keeps s (k a)) -> keeps s (bind x k).
Proof. intros H s' E. destruct x; cbn [bind] in E; try discriminate. now apply (H a). Qed.
Lemma keep_ok s : keeps s (Ok s).
Proof. intros s' [= <-]. reflexivity. Qed.
Lemma keep_file s f : keeps s (Ok (with_file s f)).
Proof. intros s' [= <-]. reflexivity. Qed.
Lemma keep_names s f n : keeps s (Ok (mkD f (d_segments s) n)).
Proof. intros s' [= <-]. reflexivity. Qed.
Lemma keep_panic s : keeps s Panic.
Proof. intros s' [=]. Qed.
Lemma keep_mod s sid g : keeps s (mod_steps s sid g).
Proof. unfold mod_steps. apply keep_bind; intros. apply keep_bind; intros. apply keep_file. Qed.

Ltac keep := repeat first
  [ apply keep_ok | apply keep_file | apply keep_names | apply keep_panic | apply keep_mod
  | apply keep_bind; intros ?
  | match goal with |- keeps _ (match ?x with _ => _ end) => destruct x end ].

Lemma keep_steps l : forall m sid ins s0 s, d_segments s = d_segments s0 -> keeps s0 (steps_loop l m sid ins s).
Proof.
  induction l as [|b l IH]; intros m sid ins s0 s E; cbn [steps_loop].
  - intros s' [= <-]. auto.
  - destruct (_ <=? _); auto. apply keep_bind. intros [st|]; auto.
    intros s' H. destruct (mod_steps s sid _) as [s1| |] eqn:M; try discriminate. cbn [bind] in H.
    eapply (IH m sid ins s0 s1); eauto. apply keep_mod in M. congruence.
Qed.

Lemma dispatch_keeps path ch s s' : dispatch path ch s = Ok s' ->
  d_segments s' = d_segments s \/ exists x, arm_segment x ch s = Ok s'.
Proof.
  assert (A1 : keeps s (arm_relation ch s)) by (unfold arm_relation; cbv zeta; keep).
  assert (A2 : keeps s (arm_occurrence ch s)) by (unfold arm_occurrence; cbv zeta; keep).
  assert (A3 : forall x, keeps s (arm_relation_fields x ch s)) by (intros; unfold arm_relation_fields; cbv zeta; keep).
  assert (A4 : forall x, keeps s (arm_layout x ch s)) by (intros; unfold arm_layout; cbv zeta; keep).
  assert (A5 : forall x y, keeps s (arm_field x y ch s)) by (intros; unfold arm_field; cbv zeta; keep).
  assert (A6 : forall x, keeps s (arm_table x ch s)) by (intros; unfold arm_table; cbv zeta; keep).
  assert (A8 : forall x y, keeps s (arm_step_value x y ch s)) by (intros; unfold arm_step_value; cbv zeta; keep).
  assert (A9 : forall x y, keeps s (arm_step_name x y ch s)) by (intros; unfold arm_step_name; cbv zeta; keep).
  assert (A10 : forall x y, keeps s (arm_step_calc x y ch s)).
  { intros. unfold arm_step_calc. intros s1 H.
    match type of H with bind ?X _ = _ => assert (K : keeps s X) by keep; destruct X as [s2| |]; try discriminate end.
    cbn [bind] in H. destruct (nget _ x); try discriminate. injection H as <-. now apply K. }
  assert (A11 : forall x, keeps s (arm_script x ch s)).
  { intros. unfold arm_script. destruct (ctype ch); try apply keep_ok.
    all: match goal with |- keeps _ (if ?c then _ else _) => destruct c end; [apply keep_bind; intros; now apply keep_steps|].
    all: repeat (match goal with |- keeps _ (match ?x with _ => _ end) => destruct x end; try apply keep_ok).
    all: apply keep_bind; intros; now apply keep_steps. }
  assert (A12 : forall y, keeps s (arm_script_name y ch s)) by (intros; unfold arm_script_name; cbv zeta; keep).
  assert (A13 : keeps s (arm_source_name ch s)) by (unfold arm_source_name; keep).
  assert (A14 : forall x, keeps s (arm_source x ch s)) by (intros; unfold arm_source; cbv zeta; keep).
  intros D. unfold dispatch in D.
  repeat match type of D with
         | arm_relation _ _ = _ => left; now apply A1 in D
         | arm_occurrence _ _ = _ => left; now apply A2 in D
         | arm_relation_fields _ _ _ = _ => left; now apply A3 in D
         | arm_layout _ _ _ = _ => left; now apply A4 in D
         | arm_field _ _ _ _ = _ => left; now apply A5 in D
         | arm_table _ _ _ = _ => left; now apply A6 in D
         | arm_segment _ _ _ = _ => right; eexists; exact D
         | arm_step_value _ _ _ _ = _ => left; now apply A8 in D
         | arm_step_name _ _ _ _ = _ => left; now apply A9 in D
         | arm_step_calc _ _ _ _ = _ => left; now apply A10 in D
         | arm_script _ _ _ = _ => left; now apply A11 in D
         | arm_script_name _ _ _ = _ => left; now apply A12 in D
         | arm_source_name _ _ = _ => left; now apply A13 in D
         | arm_source _ _ _ = _ => left; now apply A14 in D
         | Ok _ = _ => left; injection D as <-; reflexivity
         | match ?x with _ => _ end = _ => destruct x
         end.
Qed.

Lemma bset_keys {V} (m : list (N * V)) k v x : In x (keys (bset m k v)) <-> x = k \/ In x (keys m).
Proof.
  induction m as [|[k0 v0] m IH]; cbn [bset keys map fst In].
  - intuition.
  - destruct (N.eqb_spec k k0) as [->|]; cbn [keys map fst In]; [intuition|].
    destruct (k <? k0); cbn [keys map fst In]; [intuition|]. unfold keys in IH. rewrite IH. intuition.
Qed.

Lemma bset_increasing {V} (m : list (N * V)) k v : increasing (keys m) -> increasing (keys (bset m k v)).
Proof.
  unfold increasing. induction m as [|[k0 v0] m IH]; cbn [bset keys map fst]; intros H.
  - repeat constructor.
  - inversion H as [|? ? H1 H2]; subst.
    destruct (N.eqb_spec k k0) as [->|Hn]; [exact H|].
    destruct (N.ltb_spec k k0) as [Hl|Hl].
    + constructor; [exact H|]. constructor; [auto|]. eapply Forall_impl; [|exact H2]. cbn. intros; lia.
    + cbn [keys map fst]. constructor; [now apply IH|]. apply Forall_forall. intros x Hx.
      change (map fst (bset m k v)) with (keys (bset m k v)) in Hx. apply bset_keys in Hx as [->|Hx]; [lia|].
      rewrite Forall_forall in H2. now apply H2.
Qed.

Lemma nset_forall {V} (P : N * V -> Prop) m k v : Forall P m -> (forall k', P (k', v)) -> Forall P (nset m k v).
Proof.
  intros H1 H2. unfold nset. induction H1 as [|[k0 v0] m H0 H1 IH]; cbn [mset]; [repeat constructor; auto|].
  destruct (k0 =? k); constructor; auto.
Qed.

Lemma arm_segment_good x ch s s' : arm_segment x ch s = Ok s' -> good_segs (d_segments s) -> good_segs (d_segments s').
Proof.
  intros H [G1 G2]. unfold arm_segment in H. destruct (ctype ch); try (injection H as <-; split; auto).
  - destruct (csegment ch) as [n|]; [|discriminate]. cbn [unwrap bind] in H.
    destruct (nget (d_segments s) x) as [segs|] eqn:E; [|discriminate]. cbn [unwrap bind] in H.
    destruct (cdata ch) as [d|]; [|discriminate]. cbn [unwrap bind] in H. injection H as <-. split; cbn [d_segments].
    + apply mset_NoDup; auto. apply N.eqb_spec.
    + apply nset_forall; auto. intros k'. cbn [snd]. apply bset_increasing.
      apply (mget_In N.eqb N.eqb_spec) in E. rewrite Forall_forall in G2. apply (G2 _ E).
  - destruct (nhas (d_segments s) x); injection H as <-; split; auto; cbn [d_segments].
    + apply mset_NoDup; auto. apply N.eqb_spec.
    + apply nset_forall; auto. intros k'. constructor.
Qed.

Lemma chunk_loop_good fuel : forall buf off bound st path s s', chunk_loop fuel buf off bound st path s = Ok s' ->
  good_segs (d_segments s) -> good_segs (d_segments s').
Proof.
  induction fuel as [|fuel IH]; intros buf off bound st path s s' H G; [discriminate|]. cbn [chunk_loop] in H.
  destruct (off <? bound); [|injection H as <-; auto].
  destruct (get_chunk buf off path st) as [r| |]; try discriminate. cbn [bind] in H.
  destruct r as [[[ch off'] path']|]; [|discriminate].
  destruct (dispatch path' ch s) as [s1| |] eqn:D; try discriminate. cbn [bind] in H.
  apply IH in H; auto. apply dispatch_keeps in D as [->|(x & D)]; auto. eapply arm_segment_good; eauto.
Qed.

Lemma sector_loop_good fuel : forall buf n i s s', sector_loop fuel buf n i s = Ok s' ->
  good_segs (d_segments s) -> good_segs (d_segments s').
Proof.
  induction fuel as [|fuel IH]; intros buf n i s s' H G; [discriminate|]. cbn [sector_loop] in H. fold chunk_loop in H.
  destruct (i =? 0); [injection H as <-; auto|].
  destruct (slice buf (i * 4096) (lenN buf)) as [rest| |]; try discriminate. cbn [bind] in H.
  destruct (get_sector rest) as [sec| |]; try discriminate. cbn [bind] in H. destruct (i <? n); try discriminate.
  match type of H with bind ?x _ = _ => destruct x as [s1| |] eqn:C; try discriminate end. cbn [bind] in H.
  apply IH in H; auto.
  change (chunk_loop (S fuel) buf (i * 4096 + 20) (i * 4096 + 4096) (i * 4096) [] s = Ok s1) in C.
  eapply chunk_loop_good; eauto.
Qed.

Lemma order_irrelevant o1 o2 fuel buf : (forall l, Permutation (o1 l) l) -> (forall l, Permutation (o2 l) l) ->
  decompile o1 fuel buf = decompile o2 fuel buf.
Proof.
  intros H1 H2. unfold decompile. apply bind_ext. intros rest. apply bind_ext. intros first.
  destruct (sector_loop fuel buf (s_next first + 1) 2 (mkD fmpfile_new [] [])) as [s| |] eqn:E; cbn [bind]; auto.
  apply sector_loop_good in E as [G _]; [|split; constructor].
  rewrite (build_scripts_perm (o1 (d_segments s)) (o2 (d_segments s))); auto.
  - rewrite H1, H2. reflexivity.
  - eapply Permutation_NoDup; [|exact G]. apply Permutation_map, Permutation_sym, H1.
Qed.

(** * Arrival of segments *)

(** A segment chunk as delivered by the reader. *)
Definition is_segment (ch : chunk) (n : N) (d : list N) : Prop :=
  ctype ch = DataSegment /\ csegment ch = Some n /\ cdata ch = Some d.

Fixpoint arrive (x : N) (l : list chunk) (s : dstate) : outcome dstate :=
  match l with [] => Ok s | ch :: l' => s <- dispatch [17; 5; x; 4] ch s ;; arrive x l' s end.

Lemma bget_bset {V} (m : list (N * V)) k v i : increasing (keys m) ->
  nget (bset m k v) i = if k =? i then Some v else nget m i.
Proof.
  unfold nget. induction m as [|[k0 v0] m IH]; intros H.
  - cbn. destruct (k =? i); reflexivity.
  - inversion H as [|? ? H1 H2]; subst. cbn [bset].
    destruct (N.eqb_spec k k0) as [->|Hn].
    + cbn [mget]. destruct (k0 =? i); reflexivity.
    + destruct (N.ltb_spec k k0); cbn [mget].
      * destruct (k =? i); reflexivity.
      * rewrite IH by exact H1. destruct (N.eqb_spec k0 i), (N.eqb_spec k i); subst; auto; congruence.
Qed.

Lemma arrivals x l arr : forall s segs, Forall2 (fun ch e => is_segment ch (fst e) (snd e)) l arr ->
  nget (d_segments s) x = Some segs -> increasing (keys segs) ->
  exists s' segs', arrive x l s = Ok s' /\ nget (d_segments s') x = Some segs' /\ d_file s' = d_file s /\
    (forall y, y <> x -> nget (d_segments s') y = nget (d_segments s) y) /\
    increasing (keys segs') /\
    (forall i, nget segs' i = match last_arrival arr i with Some d => Some d | None => nget segs i end).
Proof.
  intros s segs H. revert s segs. induction H as [|ch [n d] l arr (C1 & C2 & C3) _ IH]; intros s segs E I.
  - exists s, segs. repeat split; auto.
  - cbn [fst snd] in *. cbn [arrive dispatch]. 
    change (dispatch [17; 5; x; 4] ch s) with (arm_segment x ch s). unfold arm_segment. rewrite C1, C2, C3, E. cbn [unwrap bind].
    destruct (IH (mkD (d_file s) (nset (d_segments s) x (bset segs n d)) (d_names s)) (bset segs n d))
      as (s' & segs' & A & B & C & D & F & G).
    + cbn [d_segments]. now rewrite nget_nset, N.eqb_refl.
    + now apply bset_increasing.
    + exists s', segs'. repeat split; auto.
      * intros y Hy. rewrite D by auto. cbn [d_segments]. rewrite nget_nset. now replace (x =? y) with false by lia.
      * intros i. rewrite G, bget_bset by auto. unfold last_arrival. cbn [filter fst].
        destruct (n =? i) eqn:Ei; auto. cbn [rev]. destruct (rev (filter (fun e => fst e =? i) arr)); reflexivity.
Qed.

(** * Steps of a script *)

Lemma chunks_block b : forall fuel l, length b = 28%nat -> chunks_loop (S fuel) 28 (b ++ l) = b :: chunks_loop fuel 28 l.
Proof.
  intros fuel l L. destruct b as [|x b]; [discriminate|]. cbn [chunks_loop app].
  change (x :: b ++ l) with ((x :: b) ++ l). f_equal.
  - rewrite <- L, firstn_app, Nat.sub_diag, firstn_all. cbn [firstn]. apply app_nil_r.
  - rewrite <- L, skipn_app, Nat.sub_diag, skipn_all. reflexivity.
Qed.

Lemma chunks_blocks bs : forall fuel tail, Forall (fun b => length b = 28%nat) bs -> 
  chunks_loop (length bs + fuel) 28 (concat bs ++ tail) = bs ++ chunks_loop fuel 28 tail.
Proof.
  induction bs as [|b bs IH]; intros fuel tail H; [reflexivity|]. inversion H; subst. cbn [length plus concat app].
  rewrite <- app_assoc, chunks_block by auto. now rewrite IH.
Qed.

Lemma concat_len28 bs : Forall (fun b : list N => length b = 28%nat) bs -> (length bs <= length (concat bs))%nat.
Proof. induction 1; cbn [concat length]; [lia|]. rewrite app_length. lia. Qed.

Lemma decode_tail sc fuel tail : (length tail < 28)%nat -> decode_list sc 28 (chunks_loop fuel 28 tail) = Ok [].
Proof.
  intros H. destruct fuel as [|fuel]; [reflexivity|]. cbn [chunks_loop]. destruct tail as [|x tail]; [reflexivity|].
  cbn [decode_list]. rewrite firstn_all2 by lia. replace (28 <=? lenN (x :: tail)) with false by (unfold lenN; lia).
  rewrite skipn_all2 by lia. destruct fuel; reflexivity.
Qed.

Lemma decode_blocks sc bs os : Forall2 (block_step (names_of sc)) bs os -> forall l, decode_list sc 28 l = Ok [] ->
  decode_list sc 28 (bs ++ l) = Ok (present os).
Proof.
  induction 1 as [|b o bs os Hb _ IH]; intros l Hl; [exact Hl|]. cbn [app decode_list].
  assert (L : lenN b = 28) by (destruct Hb as (n0 & x & ib & rest & op & _ & L & _); exact L).
  rewrite L. change (28 <=? 28) with true. cbn iota.
  rewrite (decode_block sc b o Hb). cbn [bind]. rewrite (IH l Hl). cbn [bind]. destruct o; reflexivity.
Qed.

Lemma steps_recovered sid segs s sc bs os tail :
  nget (f_scripts (d_file s)) sid = Some sc ->
  concat (map snd segs) = concat bs ++ tail -> lenN tail < 28 ->
  Forall2 (block_step (names_of (f_scripts (d_file s)))) bs os ->
  exists s', build_script sid segs s = Ok s' /\
    nget (f_scripts (d_file s')) sid = Some (script_with sc (sc_steps sc ++ present os)) /\
    forall k, k <> sid -> nget (f_scripts (d_file s')) k = nget (f_scripts (d_file s)) k.
Proof.
  intros E C T F. rewrite build_script_eq, C.
  assert (L28 : Forall (fun b => length b = 28%nat) bs).
  { clear C. induction F as [|b o bs os Hb _ IH]; constructor; auto.
    destruct Hb as (n0 & x & ib & rest & op & _ & L & _). unfold lenN in L. lia. }
  pose proof (concat_len28 _ L28) as CL. unfold chunks.
  remember (length (concat bs ++ tail) - length bs)%nat as k.
  replace (length (concat bs ++ tail)) with (length bs + k)%nat by (rewrite app_length in *; lia).
  rewrite chunks_blocks by auto.
  rewrite (decode_blocks _ bs os F) by (apply decode_tail; unfold lenN in T; lia). cbn [bind].
  unfold append_steps. destruct (present os) as [|p ps].
  - exists s. repeat split; auto. rewrite app_nil_r. rewrite E. destruct sc; reflexivity.
  - rewrite mod_steps_ok, E. cbn [bind]. eexists. split; [reflexivity|]. cbn. split.
    + now rewrite nget_nset, N.eqb_refl.
    + intros j Hj. rewrite nget_nset. now replace (sid =? j) with false by lia.
Qed.

(** * The result of arrivals is determined by what arrived last *)

Lemma nget_cons {V} (k : N) (v : V) m i : nget ((k, v) :: m) i = if k =? i then Some v else nget m i.
Proof. reflexivity. Qed.

Lemma nget_below {V} (m : list (N * V)) i : Forall (fun k => i < k) (keys m) -> nget m i = None.
Proof.
  induction m as [|[k v] m IH]; intros H; [reflexivity|]. rewrite nget_cons. inversion H; subst.
  replace (k =? i) with false by lia. auto.
Qed.

Lemma sorted_ext {V} (m1 : list (N * V)) : forall m2, increasing (keys m1) -> increasing (keys m2) ->
  (forall i, nget m1 i = nget m2 i) -> m1 = m2.
Proof.
  induction m1 as [|[k v] m1 IH]; intros [|[k' v'] m2] H1 H2 E; auto.
  - specialize (E k'). rewrite nget_cons, N.eqb_refl in E. discriminate.
  - specialize (E k). rewrite nget_cons, N.eqb_refl in E. discriminate.
  - inversion H1 as [|? ? S1 F1]; inversion H2 as [|? ? S2 F2]; subst.
    assert (K : k = k').
    { destruct (N.lt_trichotomy k k') as [L|[L|L]]; auto.
      - pose proof (E k) as Ek. rewrite !nget_cons, N.eqb_refl in Ek. replace (k' =? k) with false in Ek by lia.
        rewrite nget_below in Ek; [discriminate|]. eapply Forall_impl; [|exact F2]. cbn. lia.
      - pose proof (E k') as Ek. rewrite !nget_cons, N.eqb_refl in Ek. replace (k =? k') with false in Ek by lia.
        rewrite nget_below in Ek; [discriminate|]. eapply Forall_impl; [|exact F1]. cbn. lia. }
    subst k'. pose proof (E k) as Ek. rewrite !nget_cons, N.eqb_refl in Ek. injection Ek as <-. f_equal.
    apply IH; auto. intros i. specialize (E i). rewrite !nget_cons in E. destruct (N.eqb_spec k i) as [Ei|]; auto.
    subst i. rewrite !nget_below; auto.
Qed.

Lemma arrivals_determined x l arr l' arr' s :
  Forall2 (fun ch e => is_segment ch (fst e) (snd e)) l arr -> Forall2 (fun ch e => is_segment ch (fst e) (snd e)) l' arr' ->
  nget (d_segments s) x = Some [] -> (forall i, last_arrival arr i = last_arrival arr' i) ->
  exists s1 s2 segs, arrive x l s = Ok s1 /\ arrive x l' s = Ok s2 /\
    nget (d_segments s1) x = Some segs /\ nget (d_segments s2) x = Some segs /\
    d_file s1 = d_file s /\ d_file s2 = d_file s /\
    increasing (keys segs) /\ forall i, nget segs i = last_arrival arr i.
Proof.
  intros A B E HL.
  destruct (arrivals x l arr s [] A E) as (s1 & g1 & P1 & P2 & P3 & _ & P5 & P6); [constructor|].
  destruct (arrivals x l' arr' s [] B E) as (s2 & g2 & Q1 & Q2 & Q3 & _ & Q5 & Q6); [constructor|].
  assert (g1 = g2).
  { apply sorted_ext; auto. intros i. rewrite P6, Q6, HL. reflexivity. }
  subst g2. exists s1, s2, g1. repeat split; auto. intros i. rewrite P6. destruct (last_arrival arr i); reflexivity.
Qed.
