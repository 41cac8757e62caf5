(** C106: the test database holds what was last written to it. *)
From Coq Require Import Ascii String NArith List Bool Lia.
From Verif Require Import Prelude PreludeFacts ComponentModel RelModel DbModel DbFacts DbGenSpec DbGen DbSpec DbProofs DbInv DbProps PastSpec Past.
Import ListNotations.
Local Open Scope N_scope.

(** Two customers, of which the second gets a name; then a move, a layout and a third one. *)
Definition demo_steps : list op := [OCreate; OLayout 4; OFirst; OWriteHere (lit "name") (lit "Al"); OCreate; OCreate].
Definition demo_past : list effect := [Born 1; Untouched; Untouched; Written 1 2 1 (lit "Al"); Born 1; Born 1].

(** C106: every value stored after any operations is the one last written there, or empty; and there are as many records as were created since
    the last clean-up. *)
Theorem C106_contents : forall f d0 os es d, maps_ok f -> generate_from_fmp12 db_new f = Ok d0 -> past d0 os es d ->
  forall t j r, cell d (t, j, r) = if (j <? width f t) && (r <? births t es) then Some (latest t j r es) else None.
Proof. intros f d0 os es d M G P. destruct (gen_sound f d0 M G) as [S _]. apply (past_tells (width f) d0 os es d S (gen_wide f d0 M G) P). Qed.
Print Assumptions C106_contents.
Lemma name_third a b c : df_name a <> lit "name" -> df_name b <> lit "name" -> df_name c = lit "name" -> forall n, field_at (mkDTable n [a; b; c]) (lit "name") 2.
Proof.
  intros A B C n. split; [exists c; now split|]. intros j fd Hj H. destruct (N.eq_dec j 0) as [->|]; [inversion H; congruence|]. destruct (N.eq_dec j 1) as [->|]; [inversion H; congruence|]. lia.
Qed.
Lemma born d o t : nthN (d_occs d) (d_handle d) = Some o -> to_table o = t -> leaves d OCreate (Born t).
Proof. intros H <-. now constructor. Qed.
Lemma written d occ field v i o t r tb k : sget (d_index d) occ = Some i -> nthN (d_occs d) i = Some o -> to_table o = t -> nthN (to_found o) (to_ptr o) = Some r ->
  nthN (d_tables d) t = Some tb -> field_at tb field k -> leaves d (OWrite occ field v) (Written t k r v).
Proof. intros A B <- C D F. eapply LvWrite; eauto. Qed.
Lemma written_here d field v o t r tb k : nthN (d_occs d) (d_handle d) = Some o -> to_table o = t -> nthN (to_found o) (to_ptr o) = Some r ->
  nthN (d_tables d) t = Some tb -> field_at tb field k -> leaves d (OWriteHere field v) (Written t k r v).
Proof. intros B <- C D F. eapply LvWriteHere; eauto. Qed.
Ltac leaves_tac := first [eapply born; vm_compute; reflexivity | (eapply written_here || eapply written); [vm_compute; reflexivity..|apply name_third; try reflexivity; vm_compute; discriminate]].
Ltac past_tac := lazymatch goal with |- past _ [] _ _ => apply PastNone | _ => eapply PastStep; [past_tac|first [constructor; fail | leaves_tac]|vm_compute; reflexivity] end.
Example C106_contents_ex : exists d0 d, maps_ok (shop CEqual) /\ generate_from_fmp12 db_new (shop CEqual) = Ok d0 /\ past d0 demo_steps demo_past d /\
  width (shop CEqual) 1 = 3 /\ births 1 demo_past = 3 /\ latest 1 2 1 demo_past = lit "Al" /\ latest 1 2 0 demo_past = [] /\ cell d (1, 2, 1) = Some (lit "Al").
Proof. do 2 eexists. split; [apply shop_maps|]. split; [vm_compute; reflexivity|]. split; [unfold demo_steps, demo_past; past_tac|]. repeat split. Qed.

(** C106: every run of operations that goes well is such a past, and has one list of effects. *)
Theorem C106_every : forall f d0 ops d, maps_ok f -> generate_from_fmp12 db_new f = Ok d0 -> run_ops d0 ops = Ok d -> exists es, past d0 (rev ops) es d.
Proof.
  intros f d0 ops d M G R. destruct (gen_sound f d0 M G) as [S _]. pose proof (gen_wide f d0 M G) as T.
  assert (H : forall ops ps es e d, past d0 ps es e -> run_ops e ops = Ok d -> exists es', past d0 (rev ops ++ ps) es' d).
  { clear ops d R. induction ops as [|o ops IH]; intros ps es e d P R; cbn [run_ops rev app] in *.
    - inversion R. subst. now exists es.
    - apply bind_ok in R as (e1 & R1 & R2). destruct (tells_step (width f) es e o e1 (past_sound _ _ _ _ S P) (past_tells _ _ _ _ _ S T P) R1) as (x & L & _).
      rewrite <- app_assoc. apply (IH (o :: ps) (x :: es) e1 d); [|exact R2]. eapply PastStep; eauto. }
  destruct (H ops [] [] d0 d (PastNone d0) R) as (es & P). rewrite app_nil_r in P. now exists es.
Qed.
Print Assumptions C106_every.
Example C106_every_ex : exists d0, maps_ok (shop CEqual) /\ generate_from_fmp12 db_new (shop CEqual) = Ok d0 /\ run_ops d0 demo_ops = Ok (demo_db CEqual).
Proof. eexists. split; [apply shop_maps|]. split; vm_compute; reflexivity. Qed.
Theorem C106_one : forall d0 os es es' d d', past d0 os es d -> past d0 os es' d' -> es = es' /\ d = d'.
Proof.
  intros d0 os es es' d d' P. revert es' d'. induction P as [|os es d o e d1 P IH L H]; intros es' d' Q; inversion Q as [|? ? d2 ? ? ? Q1 L' H']; subst; [auto|].
  destruct (IH _ _ Q1) as [-> <-]. rewrite (leaves_fun _ _ _ _ L L'). split; [reflexivity|congruence].
Qed.
Print Assumptions C106_one.
Example C106_one_ex : exists d0 d, generate_from_fmp12 db_new (shop CEqual) = Ok d0 /\ past d0 [OGoto 5; OCreate] [Untouched; Born 1] d.
Proof. do 2 eexists. split; [vm_compute; reflexivity|]. past_tac. Qed.

(** C106: every database that is reached has a past, so this holds while tests run (C67). *)
Theorem C106_reached : forall cl d, reached cl d -> exists f d0 os es, maps_ok f /\ generate_from_fmp12 db_new f = Ok d0 /\ past d0 os es d /\ (cl = false -> ~ In Wiped es).
Proof.
  intros cl d R. induction R as [f d M G|d o d' R (f & d0 & os & es & M & G & P & C) Q K H].
  - exists f, d, [], []. split; [exact M|]. split; [exact G|]. split; [constructor|intros _ []].
  - destruct (gen_sound f d0 M G) as [S _]. pose proof (gen_wide f d0 M G) as T.
    destruct (tells_step (width f) es d o d' (past_sound _ _ _ _ S P) (past_tells _ _ _ _ _ S T P) H) as (e & L & _).
    exists f, d0, (o :: os), (e :: es). split; [exact M|]. split; [exact G|]. split; [econstructor; eauto|]. intros Z [->|I]; [|now apply C]. inversion L; subst. specialize (K eq_refl). congruence.
Qed.
Print Assumptions C106_reached.
Example C106_reached_ex : reached false (demo_db CEqual).
Proof. apply demo_reached. Qed.

(** C106: nothing but births, writes and clean-ups counts: finding, moving between records and changing layouts leave all values alone. *)
Definition counts (e : effect) : bool := match e with Untouched => false | _ => true end.
Lemma births_counts t es : births t (filter counts es) = births t es.
Proof. induction es as [|[] es IH]; cbn [filter counts births]; auto. now rewrite IH. Qed.
Lemma latest_counts t j r es : latest t j r (filter counts es) = latest t j r es.
Proof. induction es as [|[] es IH]; cbn [filter counts latest]; auto. now rewrite IH. Qed.
Theorem C106_same : forall f d0 os ps es es' d d', maps_ok f -> generate_from_fmp12 db_new f = Ok d0 -> past d0 os es d -> past d0 ps es' d' ->
  filter counts es = filter counts es' -> forall p, cell d p = cell d' p.
Proof.
  intros f d0 os ps es es' d d' M G P Q E [[t j] r]. rewrite (C106_contents f d0 os es d M G P), (C106_contents f d0 ps es' d' M G Q).
  now rewrite <- (births_counts t es), <- (births_counts t es'), <- (latest_counts t j r es), <- (latest_counts t j r es'), E.
Qed.
Print Assumptions C106_same.
Example C106_same_ex : exists d0 d d', generate_from_fmp12 db_new (shop CEqual) = Ok d0 /\
  past d0 [OWriteHere (lit "name") (lit "Al"); OCreate] [Written 1 2 0 (lit "Al"); Born 1] d /\
  past d0 [OLayout 2; OWrite (lit "customer 2") (lit "name") (lit "Al"); OFirst; OCreate; OShowAll] [Untouched; Written 1 2 0 (lit "Al"); Untouched; Born 1; Untouched] d' /\ d <> d'.
Proof.
  do 3 eexists. split; [vm_compute; reflexivity|]. split; [past_tac|]. split; [past_tac|]. vm_compute. discriminate.
Qed.

(** C106: a value stays until its place is written again or the records are cleared. *)
Theorem C106_kept : forall f d0 os later t j r v es d, maps_ok f -> generate_from_fmp12 db_new f = Ok d0 -> past d0 os (later ++ Written t j r v :: es) d ->
  ~ In Wiped later -> (forall w, ~ In (Written t j r w) later) -> cell d (t, j, r) = Some v.
Proof.
  intros f d0 os later t j r v es d M G P H W. revert os d P. induction later as [|e later IH]; intros os d P; cbn [app] in P.
  - inversion P as [|? ? d1 ? ? ? P1 L A]; subst. destruct (gen_sound f d0 M G) as [S _]. pose proof (past_tells _ _ _ _ _ S (gen_wide f d0 M G) P1) as T.
    destruct (tells_step _ _ _ _ _ (past_sound _ _ _ _ S P1) T A) as (e & L' & (_ & _ & C)). rewrite <- (leaves_fun _ _ _ _ L L') in C. rewrite C. cbn [latest births]. rewrite !N.eqb_refl. cbn [andb].
    assert (X : cell d1 (t, j, r) <> None).
    { inversion L; subst; cbn [apply_op] in A; apply bind_ok in A as (q & A1 & A2); destruct q as [p|]; try discriminate; cbn [write_at] in A2.
      - unfold get_current_record_by_table_field_mut, get_occurrence_by_name, occurrence_index in A1. apply bind_ok in A1 as (oc & P' & Q). apply bind_ok in P' as (i' & P1'%unwrap_ok & P2%at_ok).
        apply current_place_ok in Q as (r' & tb' & k & v' & Q1 & Q2 & Q3 & -> & Q4). replace i' with i in * by congruence. replace oc with o0 in * by congruence. replace r' with r in * by congruence. replace tb' with tb in * by congruence.
        rewrite (named_first_fun tb field j k) by auto. congruence.
      - unfold get_current_record_by_field_mut, get_current_occurrence in A1. apply bind_ok in A1 as (oc & P2%at_ok & Q).
        apply current_place_ok in Q as (r' & tb' & k & v' & Q1 & Q2 & Q3 & -> & Q4). replace oc with o0 in * by congruence. replace r' with r in * by congruence. replace tb' with tb in * by congruence.
        rewrite (named_first_fun tb field j k) by auto. congruence. }
    destruct T as (_ & _ & C1). rewrite C1 in X. destruct ((j <? width f t) && (r <? births t es)); congruence.
  - inversion P as [|? ? d1 o1 ? ? P1 L A]; subst. assert (I : cell d1 (t, j, r) = Some v). { eapply IH; eauto; [intros I; apply H; now right|intros w I; apply (W w); now right]. }
    rewrite (C106_contents f d0 _ _ d1 M G P1) in I. rewrite (C106_contents f d0 _ _ d M G P). destruct ((j <? width f t) && _) eqn:B in I; [|discriminate]. injection I as I.
    destruct e as [u|u g s x| |]; cbn [births latest].
    + destruct (u =? t); replace (_ && _) with true by lia; now rewrite I.
    + rewrite B. destruct ((u =? t) && (g =? j) && (s =? r)) eqn:K; [|now rewrite I]. exfalso. apply (W x). left. f_equal; lia.
    + exfalso. apply H. now left.
    + rewrite B. now rewrite I.
Qed.
Print Assumptions C106_kept.
Example C106_kept_ex : exists d0 d later es, generate_from_fmp12 db_new (shop CEqual) = Ok d0 /\ past d0 demo_steps (later ++ Written 1 2 1 (lit "Al") :: es) d /\
  ~ In Wiped later /\ (forall w, ~ In (Written 1 2 1 w) later) /\ length later = 3%nat.
Proof.
  do 2 eexists. exists [Born 1; Untouched; Untouched], [Born 1; Born 1]. split; [vm_compute; reflexivity|]. split; [unfold demo_steps; cbn [app]; past_tac|].
  split; [cbn; intuition discriminate|]. split; [intros w; cbn; intuition discriminate|reflexivity].
Qed.

(** C106: after a clean-up records have their numbers again, but found sets keep the old ones: one record is found twice. *)
Theorem C106_twice_refuted : exists d0 d o, generate_from_fmp12 db_new (shop CEqual) = Ok d0 /\ past d0 [OCreate; OClear; OCreate] [Born 1; Wiped; Born 1] d /\
  nthN (d_occs d) 1 = Some o /\ to_found o = [0; 0] /\ births 1 [Born 1; Wiped; Born 1] = 1.
Proof. do 3 eexists. split; [vm_compute; reflexivity|]. split; [past_tac|]. repeat split. Qed.
Print Assumptions C106_twice_refuted.
