(** Looking up fields through relations. *)
From Coq Require Import NArith List Bool Lia Sorted.
From Verif Require Import Prelude PreludeFacts StrOrder StrOrderFacts ComponentModel RelModel RelSpec RelProofs RelSearch
  DbModel DbSpec DbFacts DbGenSpec DbGen DbProofs DbInv.
Import ListNotations.
Local Open Scope N_scope.

Lemma joins_relates c v w : joins c v w = true <-> relates c v w.
Proof.
  destruct c; cbn; try tauto.
  - apply str_eqb_eq.
  - rewrite negb_true_iff. apply str_eqb_neq.
Qed.

Lemma joins_not c v w : joins c v w = false <-> ~ relates c v w.
Proof. rewrite <- joins_relates. destruct (joins c v w); split; congruence. Qed.

Lemma related_is_edge d h o t rel rest : sound d -> nthN (d_occs d) h = Some o ->
  filter (fun x => rs_occ x =? t) (to_related o) = rel :: rest -> edge (d_graph d) h t /\ rs_occ rel = t.
Proof.
  intros S H1 H2. assert (H : In rel (filter (fun x => rs_occ x =? t) (to_related o))) by (rewrite H2; now left).
  apply filter_In in H as (H3 & H4%N.eqb_eq). split; auto. apply (s_edges _ S). exists o. split; auto.
  rewrite <- H4. now apply in_map.
Qed.

Lemma column_cell d t tb f fd k : nthN (d_tables d) t = Some tb -> nthN (dt_fields tb) f = Some fd ->
  cell d (t, f, k) = nthN (df_records fd) k.
Proof. intros H1 H2. unfold cell. now rewrite H1, H2. Qed.

Lemma first_named_at tb field i fd : field_at tb field i -> nthN (dt_fields tb) i = Some fd ->
  first_named (dt_fields tb) field = Ok fd.
Proof. intros H1 H2. apply first_named_ok. exists i. split; auto. Qed.

Theorem lookup_direct d occ field t o r rel rest v o' tb' fd' i :
  sound d -> sget (d_index d) occ = Some t -> nthN (d_occs d) (d_handle d) = Some o -> get_current_record o = Some r ->
  filter (fun x => rs_occ x =? t) (to_related o) = rel :: rest ->
  cell d (to_table o, rs_field1 rel, r) = Some v ->
  nthN (d_occs d) t = Some o' -> nthN (d_tables d) (to_table o') = Some tb' ->
  nthN (dt_fields tb') (rs_field2 rel) = Some fd' -> field_at tb' field i ->
  (forall k, first_match d (to_table o') (rs_field2 rel) (rs_cmp rel) v k ->
     exists w, cell d (to_table o', i, k) = Some w /\ get_related_record_field d occ field = Ok (ROk w)) /\
  ((forall k w, cell d (to_table o', rs_field2 rel, k) = Some w -> ~ relates (rs_cmp rel) v w) ->
     get_related_record_field d occ field = Ok (RErr tt)).
Proof.
  intros S Hi Ho Hr Hf Hv Ho' Ht' Hfd Hat.
  destruct (related_is_edge _ _ _ _ _ _ S Ho Hf) as [Ed Eo].
  destruct (s_graph _ S) as (es & R). destruct (related_built _ _ R) as (es' & B).
  unfold get_related_record_field, occurrence_index. rewrite Hi. cbn [unwrap bind].
  rewrite (direct_path _ _ _ _ B Ed). cbn [bind].
  rewrite (one_hop d (d_handle d) t o r rel rest v o' tb' fd') by auto.
  pose proof (enumerate_filter_first (joins (rs_cmp rel) v) (df_records fd') 0) as E. unfold enumerate.
  change (fun e : N * list N => joins (rs_cmp rel) v (snd e)) with (fun e : N * list N => (joins (rs_cmp rel) v) (snd e)) in *.
  destruct (filter _ (enumerate_from 0 (df_records fd'))) as [|[j x] l'].
  - cbn [bind]. split; auto. intros k ((w & Hw & Rw) & _). exfalso. rewrite (column_cell _ _ _ _ _ _ Ht' Hfd) in Hw.
    apply E in Hw. apply joins_not in Hw. auto.
  - destruct E as (k & -> & Hk & Jk & Fk). replace (0 + k) with k in * by lia. cbn [bind].
    change (nthN [d_handle d; t] (lenN [d_handle d; t] - 1)) with (Some t). cbn [unwrap bind].
    unfold get_occurrence. rewrite (proj2 (at_ok _ _ _) Ho'). cbn [bind]. rewrite (proj2 (at_ok _ _ _) Ht'). cbn [bind].
    pose proof Hat as ((fdi & Hfi & _) & _). rewrite (first_named_at _ _ _ _ Hat Hfi). cbn [bind].
    unfold at_ at 1. rewrite nthN_0. cbn [unwrap bind fst].
    assert (Hw : exists w, nthN (df_records fdi) k = Some w).
    { apply nthN_ex. destruct (s_rect _ S _ _ Ht') as (n & Hn). unfold holds in Hn. rewrite Forall_forall in Hn.
      rewrite (Hn fdi) by (eapply nthN_In; eauto). rewrite <- (Hn fd') by (eapply nthN_In; eauto). eapply nthN_lt; eauto. }
    destruct Hw as (w & Hw). rewrite (proj2 (at_ok _ _ _) Hw). cbn [bind]. split.
    + intros k0 ((w0 & Hw0 & Rw0) & F0). exists w. split; auto. rewrite (column_cell _ _ _ _ _ _ Ht' Hfi).
      rewrite (column_cell _ _ _ _ _ _ Ht' Hfd) in Hw0. destruct (N.lt_trichotomy k k0) as [Hl|[Hl|Hl]]; [|now subst|].
      * exfalso. apply (F0 k x); auto; [now rewrite (column_cell _ _ _ _ _ _ Ht' Hfd)|now apply joins_relates].
      * exfalso. apply Fk in Hw0; auto. apply joins_not in Hw0. auto.
    + intros N0. exfalso. apply (N0 k x); [now rewrite (column_cell _ _ _ _ _ _ Ht' Hfd)|now apply joins_relates].
Qed.

(** No path, or no current record: an error. *)
Theorem lookup_unrelated d occ field t : sound d -> sget (d_index d) occ = Some t ->
  (forall p, walk (d_graph d) (d_handle d) p t -> p = [d_handle d]) ->
  get_related_record_field d occ field = Ok (RErr tt).
Proof.
  intros S Hi W. destruct (s_graph _ S) as (es & R). destruct (related_built _ _ R) as (es' & B).
  unfold get_related_record_field, occurrence_index. rewrite Hi. cbn [unwrap bind].
  rewrite (proj2 (get_path_none _ _ _ _ B) W). reflexivity.
Qed.

(** The places behind relations are never available: they need a list of related records nobody fills. *)
Theorem related_mut_panics d occ field n : sound d ->
  get_related_record_field_mut d occ field = Panic /\ get_nth_related_record_field d occ field n = Panic.
Proof.
  intros S. assert (P : forall t, related_record_idx d t = Panic).
  { intros t. unfold related_record_idx, get_current_occurrence. destruct (nthN (d_occs d) (d_handle d)) as [o|] eqn:E.
    - rewrite (proj2 (at_ok _ _ _) E). cbn [bind]. destruct (filter _ (to_related o)) as [|r l] eqn:F; [reflexivity|].
      unfold at_ at 1. rewrite nthN_0. cbn [unwrap bind]. assert (In r (to_related o)).
      { assert (Hi : In r (filter (fun x => rs_occ x =? t) (to_related o))) by (rewrite F; now left). apply filter_In in Hi. tauto. }
      pose proof (s_empty _ S _ _ E) as H0. rewrite Forall_forall in H0. rewrite (H0 _ H). reflexivity.
    - unfold at_. rewrite E. reflexivity. }
  unfold get_related_record_field_mut, get_nth_related_record_field, occurrence_index. split.
  - destruct (sget (d_index d) occ) as [t|]; cbn [unwrap bind]; auto. unfold at_ at 1. destruct (nthN (d_occs d) t); cbn [unwrap bind]; auto.
    now rewrite P.
  - destruct (sget (d_index d) occ) as [t|]; cbn [unwrap bind]; auto. unfold at_ at 1. destruct (nthN (d_occs d) t); cbn [unwrap bind]; auto.
    now rewrite P.
Qed.
