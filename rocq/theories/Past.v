From Coq Require Import NArith List Bool Lia.
From Verif Require Import Prelude PreludeFacts ComponentModel RelModel DbModel DbFacts DbGenSpec DbGen DbSpec DbProofs DbInv PastSpec.
Import ListNotations.
Local Open Scope N_scope.

Definition wide (d : db) (t : N) : N := match nthN (d_tables d) t with Some tb => lenN (dt_fields tb) | None => 0 end.
(** Contents after a past. *)
Definition tells (w : N -> N) (es : list effect) (d : db) : Prop :=
  (forall t, wide d t = w t) /\ (forall t j r, births t es <= r -> latest t j r es = []) /\ forall t j r, cell d (t, j, r) = if (j <? w t) && (r <? births t es) then Some (latest t j r es) else None.

Lemma gen_wide f d : maps_ok f -> generate_from_fmp12 db_new f = Ok d -> tells (width f) [] d.
Proof.
  intros M G. destruct (gen_sound f d M G) as [S _]. destruct (generate_ok f M) as [G1 G2].
  assert (Fit : relations_fit f).
  { unfold relations_fit. destruct (Forall_dec (fun rl => rl_table1 rl <= max_key (keys (f_occurrences f)) /\
      rl_table2 rl <= max_key (keys (f_occurrences f)))) with (l := vals (f_relationships f)) as [H|H]; auto.
    - intros rl. set (m := max_key (keys (f_occurrences f))).
      destruct ((rl_table1 rl <=? m) && (rl_table2 rl <=? m)) eqn:E; [left; lia|right; lia].
    - rewrite G2 in G by auto. discriminate. }
  destruct (G1 Fit) as (d0 & E & _ & _ & Ht & _). rewrite E in G. inversion G; subst d0. clear G G1 G2 E.
  assert (T : forall t tt, nget (f_tables f) t = Some tt -> exists fs, columns tt = fs /\ lenN fs = max_key (keys (tb_fields tt)) + 1 /\ forall j, nthN fs j = column tt j).
  { intros t tt Et. assert (Nd : NoDup (keys (tb_fields tt))).
    { destruct M as (_ & _ & _ & M). eapply M. eapply (mget_In _ N.eqb_spec); eauto. }
    destruct (gen_fields_ok tt Nd) as (fs & Ef & L & Hf). exists fs. unfold columns. rewrite Ef. auto. }
  split.
  - intros t. unfold wide, width. rewrite Ht. destruct (nget (f_tables f) t) as [tt|] eqn:Et.
    + destruct (T _ _ Et) as (fs & Ef & L & _). unfold empty_table. cbn [dt_fields]. now rewrite Ef.
    + destruct (t <=? _); reflexivity.
  - split; [reflexivity|]. intros t j r. cbn [births]. replace (r <? 0) with false by lia. rewrite andb_false_r. unfold cell. rewrite Ht. destruct (nget (f_tables f) t) as [tt|] eqn:Et.
    + destruct (T _ _ Et) as (fs & Ef & L & Hf). unfold empty_table. cbn [dt_fields]. rewrite Ef, Hf. unfold column. destruct (nget (tb_fields tt) j); [apply nthN_None; cbn; lia|].
      destruct (j <=? _); [apply nthN_None; cbn; lia|reflexivity].
    + destruct (t <=? _); [|reflexivity]. cbn [dt_fields]. now rewrite (proj2 (nthN_None (@nil dfield) j)) by (cbn; lia).
Qed.

Lemma holds_births w es d t tb n : tells w es d -> nthN (d_tables d) t = Some tb -> dt_fields tb <> [] -> holds tb n -> n = births t es.
Proof.
  intros (W & _ & T) H1 H2 H3. destruct (dt_fields tb) as [|f0 fs] eqn:Ef; [congruence|].
  assert (Q : forall r, cell d (t, 0, r) = nthN (df_records f0) r). { intros r. unfold cell. rewrite H1, Ef. now rewrite nthN_0. }
  assert (L : lenN (df_records f0) = n). { unfold holds in H3. rewrite Ef in H3. now inversion H3. }
  assert (P : 0 <? w t = true). { rewrite <- W. unfold wide. rewrite H1, Ef, lenN_cons. lia. }
  assert (A : forall r, (r <? n) = (r <? births t es)).
  { intros r. specialize (T t 0 r). rewrite Q, P in T. cbn [andb] in T. destruct (r <? births t es) eqn:B.
    - apply nthN_lt in T. lia.
    - apply nthN_None in T. lia. }
  pose proof (A n). pose proof (A (births t es)). lia.
Qed.

Lemma wide_shape d d' : map shape (d_tables d') = map shape (d_tables d) -> forall t, wide d' t = wide d t.
Proof.
  intros E t. assert (E' : option_map shape (nthN (d_tables d') t) = option_map shape (nthN (d_tables d) t)) by (now rewrite <- !nthN_map, E).
  unfold wide. destruct (nthN (d_tables d') t) as [a|], (nthN (d_tables d) t) as [b|]; try discriminate; [|reflexivity].
  cbn [option_map] in E'. assert (Q : snd (shape a) = snd (shape b)) by congruence. apply (f_equal (@length _)) in Q. unfold shape in Q. cbn [snd] in Q. rewrite !map_length in Q. unfold lenN. now rewrite Q.
Qed.

Lemma write_tells w es d t j r v d' : tells w es d -> write_place d (t, j, r) v = Ok d' -> cell d (t, j, r) <> None -> tells w (Written t j r v :: es) d'.
Proof.
  intros (W & O & T) H C. destruct (cell d (t, j, r)) as [old|] eqn:Q; [|congruence]. destruct (write_place_ok d (t, j, r) v old Q) as (d1 & E1 & _ & _ & _ & _ & S & X).
  rewrite E1 in H. inversion H; subst d1. rewrite T in Q. destruct ((j <? w t) && (r <? births t es)) eqn:I; [|discriminate].
  split; [intros u; rewrite (wide_shape _ _ S); apply W|]. split.
  { intros u g s B. cbn [births latest] in *. destruct ((t =? u) && (j =? g) && (r =? s)) eqn:K; [|auto]. assert (t = u) by lia. subst u. lia. }
  intros u g s. rewrite X. cbn [births latest]. destruct (place_eq_dec (t, j, r) (u, g, s)) as [E|E].
  - inversion E; subst. rewrite I. now rewrite !N.eqb_refl.
  - rewrite T. destruct ((t =? u) && (j =? g) && (r =? s)) eqn:K; [|reflexivity]. exfalso. apply E. f_equal; [f_equal|]; lia.
Qed.
Lemma idle_tells w es d d' : tells w es d -> d_tables d' = d_tables d -> tells w (Untouched :: es) d'.
Proof. intros (W & O & T) E. split; [intros t; unfold wide; rewrite E; apply W|]. split; [exact O|]. intros t j r. unfold cell. rewrite E. apply T. Qed.
Lemma update_found_tables d rs d' : update_found_set d rs = Ok d' -> d_tables d' = d_tables d.
Proof.
  intros H. destruct rs as [|r rs].
  - apply reset_found_set_ok in H as (o & tb & f0 & fs & H1 & H2 & H3 & ->). reflexivity.
  - apply update_found_set_ok in H as (o & tb & H1 & H2 & H3 & ->); [|discriminate]. reflexivity.
Qed.

Lemma tells_step w es d o d' : sound d -> tells w es d -> apply_op d o = Ok d' -> exists e, leaves d o e /\ tells w (e :: es) d'.
Proof.
  intros S T H. destruct (is_nav o) eqn:En.
  { destruct (nav_moved _ _ _ En H) as (oc & oc' & H1 & H2 & ->). exists Untouched. split; [destruct o; try discriminate; constructor|]. now apply (idle_tells w es d). }
  destruct o; try discriminate; cbn [apply_op] in H.
  - apply create_record_ok in H as (o & tb & f0 & fs & H1 & H2 & H3 & ->). exists (Born (to_table o)). split; [now constructor|].
    destruct (s_rect _ S _ _ H2) as (n & Hn). assert (L : lenN (df_records f0) = n) by (unfold holds in Hn; rewrite H3 in Hn; now inversion Hn). rewrite L. clear L.
    assert (B : n = births (to_table o) es) by (eapply holds_births; eauto; congruence). pose proof T as (W & O & C). split; [|split].
    + intros t. rewrite <- W. unfold wide, created. cbn [d_tables]. rewrite updateN_nth. destruct (N.eqb_spec (to_table o) t) as [<-|]; [|reflexivity]. rewrite H2.
      cbn [option_map]. unfold add_blank_record. cbn [dt_fields]. apply lenN_map.
    + intros t j r K. cbn [births latest] in *. apply O. lia.
    + intros t j r. rewrite (created_cell d (to_table o) tb n H2 Hn). cbn [fst snd births latest]. rewrite C. subst n.
      assert (WT : w (to_table o) = lenN (dt_fields tb)) by (rewrite <- W; unfold wide; now rewrite H2). rewrite <- WT.
      specialize (O t j r). destruct (N.eqb_spec t (to_table o)) as [->|Nt].
      * rewrite N.eqb_refl. cbn [andb]. destruct (N.eqb_spec r (births (to_table o) es)) as [->|Nr]; cbn [andb].
        -- replace (births (to_table o) es <? 1 + births (to_table o) es) with true by lia. rewrite andb_true_r. rewrite N.ltb_irrefl, andb_false_r. rewrite O by lia. reflexivity.
        -- replace (r <? 1 + births (to_table o) es) with (r <? births (to_table o) es) by lia. reflexivity.
      * replace (to_table o =? t) with false by lia. cbn [andb]. reflexivity.
  - apply bind_ok in H as (q & P & H). destruct q as [p|]; [|discriminate]. cbn [write_at] in H. unfold get_current_record_by_table_field_mut, get_occurrence_by_name, occurrence_index in P.
    apply bind_ok in P as (oc & P & Q). apply bind_ok in P as (i & P1%unwrap_ok & P2%at_ok). apply current_place_ok in Q as (r & tb & k & v & Q1 & Q2 & Q3 & -> & Q4).
    eexists. split; [eapply LvWrite; eauto|]. eapply write_tells; eauto. congruence.
  - apply bind_ok in H as (q & P & H). destruct q as [p|]; [|discriminate]. cbn [write_at] in H. unfold get_current_record_by_field_mut, get_current_occurrence in P.
    apply bind_ok in P as (oc & P2%at_ok & Q). apply current_place_ok in Q as (r & tb & k & v & Q1 & Q2 & Q3 & -> & Q4).
    eexists. split; [eapply LvWriteHere; eauto|]. eapply write_tells; eauto. congruence.
  - exists Untouched. split; [constructor|]. apply (idle_tells w es d); [exact T|]. now apply (update_found_tables d records).
  - exists Untouched. split; [constructor|]. apply (idle_tells w es d); [exact T|]. now apply (update_found_tables d []).
  - exists Untouched. split; [constructor|]. inversion H. now apply (idle_tells w es d).
  - exists Wiped. split; [constructor|]. inversion H. destruct T as (W & O & C). split; [|split].
    + intros t. rewrite <- W. unfold wide, clear_records, with_tables. cbn [d_tables]. rewrite nthN_map. destruct (nthN (d_tables d) t) as [tb|]; [|reflexivity]. cbn [option_map dt_fields]. apply lenN_map.
    + reflexivity.
    + intros t j r. cbn [births]. replace (r <? 0) with false by lia. rewrite andb_false_r. unfold cell, clear_records, with_tables. cbn [d_tables]. rewrite nthN_map.
      destruct (nthN (d_tables d) t) as [tb|]; [|reflexivity]. cbn [option_map dt_fields]. rewrite nthN_map. destruct (nthN (dt_fields tb) j); [|reflexivity]. cbn [option_map df_records]. apply nthN_None. cbn. lia.
Qed.

Lemma leaves_fun d o e e' : leaves d o e -> leaves d o e' -> e = e'.
Proof.
  intros H K. destruct H; inversion K; subst; try congruence.
  - assert (i0 = i) by congruence. subst. assert (o0 = o) by congruence. subst. assert (r0 = r) by congruence. subst. assert (tb0 = tb) by congruence. subst. now rewrite (named_first_fun tb field k0 k).
  - assert (o0 = o) by congruence. subst. assert (r0 = r) by congruence. subst. assert (tb0 = tb) by congruence. subst. now rewrite (named_first_fun tb field k0 k).
Qed.

Lemma past_sound d0 os es d : sound d0 -> past d0 os es d -> sound d.
Proof. intros S P. induction P as [|os es d o e d' P IH L H]; [exact S|]. eapply sound_step; eauto. Qed.
Lemma past_tells w d0 os es d : sound d0 -> tells w [] d0 -> past d0 os es d -> tells w es d.
Proof.
  intros S T P. induction P as [|os es d o e d' P IH L H]; [exact T|]. destruct (tells_step w es d o d' (past_sound _ _ _ _ S P) IH H) as (e' & L' & T').
  now rewrite (leaves_fun d o e e' L L').
Qed.
