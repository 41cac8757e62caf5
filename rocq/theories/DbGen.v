(** Generating the database. *)
From Coq Require Import NArith List Bool Lia.
From Verif Require Import Prelude PreludeFacts ComponentModel RelModel RelSpec DbModel DbSpec DbFacts DbGenSpec.
Import ListNotations.
Local Open Scope N_scope.

Lemma nget_keys {V} (m : list (N * V)) k : nget m k = None <-> ~ In k (keys m).
Proof. apply (mget_None _ N.eqb_spec). Qed.

(** Filling slots one by one. *)
Lemma fold_put {A V} (g : V -> A) : forall (m : list (N * V)) l,
  NoDup (keys m) -> (forall k, In k (keys m) -> k < lenN l) ->
  exists l', fold_left (fun acc e => l <- acc ;; put l (fst e) (g (snd e))) m (Ok l) = Ok l' /\ lenN l' = lenN l /\
    forall i, nthN l' i = match nget m i with Some v => Some (g v) | None => nthN l i end.
Proof.
  induction m as [|[k v] m IH]; intros l Nd Hk; cbn [fold_left fst snd].
  - exists l. auto.
  - inversion Nd as [|? ? Hn Nd']; subst. cbn [bind].
    assert (Hl : k < lenN l) by (apply Hk; now left).
    assert (E : put l k (g v) = Ok (updateN l k (fun _ => g v))) by (apply put_ok; auto).
    rewrite E. destruct (IH (updateN l k (fun _ => g v)) Nd') as (l' & H1 & H2 & H3).
    + intros j Hj. rewrite updateN_len. apply Hk. now right.
    + exists l'. rewrite updateN_len in H2. split; auto. split; auto.
      intros i. rewrite H3. cbn [nget mget]. unfold nget at 2. cbn [mget].
      destruct (N.eqb_spec k i) as [Ei|Ei].
      * subst k. apply nget_keys in Hn. rewrite Hn. rewrite (put_nth _ _ _ _ i E), N.eqb_refl. reflexivity.
      * fold (@nget V). destruct (nget m i); auto. rewrite (put_nth _ _ _ _ i E).
        destruct (N.eqb_spec k i); congruence.
Qed.

Lemma gen_fields_ok t : NoDup (keys (tb_fields t)) ->
  exists fs, gen_fields t = Ok fs /\ lenN fs = max_key (keys (tb_fields t)) + 1 /\ forall j, nthN fs j = column t j.
Proof.
  intros Nd. unfold gen_fields.
  destruct (fold_put (fun fl => mkDField (fl_name fl) []) (tb_fields t)
    (resize [] (max_key (keys (tb_fields t)) + 1) dfield_new) Nd) as (fs & H1 & H2 & H3).
  - intros k Hk. rewrite resize_len. apply max_key_ge in Hk. lia.
  - exists fs. rewrite resize_len in H2. split; auto. split; auto. intros j. rewrite H3, resize_nth. unfold column.
    destruct (nget (tb_fields t) j); auto.
    replace (j <? max_key (keys (tb_fields t)) + 1) with (j <=? max_key (keys (tb_fields t))) by lia.
    change (lenN (@nil dfield)) with 0. replace (j <? 0) with false by lia. reflexivity.
Qed.

(** The columns as a list. *)
Definition columns (t : table) : list dfield :=
  match gen_fields t with Ok fs => fs | _ => [] end.
Definition empty_table (t : table) : dtable := mkDTable (tb_name t) (columns t).

Lemma gen_table_ok ts i t : NoDup (keys (tb_fields t)) -> i < lenN ts -> gen_table ts i t = put ts i (empty_table t).
Proof.
  intros Nd Hi. unfold gen_table, empty_table, columns.
  destruct (gen_fields_ok t Nd) as (fs & -> & _ & _). cbn [bind].
  assert (E : put ts i (mkDTable (tb_name t) []) = Ok (updateN ts i (fun _ => mkDTable (tb_name t) []))) by (apply put_ok; auto).
  rewrite E. cbn [bind].
  assert (E2 : put (updateN ts i (fun _ => mkDTable (tb_name t) [])) i (mkDTable (tb_name t) fs) =
    Ok (updateN (updateN ts i (fun _ => mkDTable (tb_name t) [])) i (fun _ => mkDTable (tb_name t) fs))).
  { apply put_ok. rewrite updateN_len. auto. }
  assert (E3 : put ts i (mkDTable (tb_name t) fs) = Ok (updateN ts i (fun _ => mkDTable (tb_name t) fs))) by (apply put_ok; auto).
  rewrite E2, E3. f_equal. apply nth_ext. intros j.
  rewrite (put_nth _ _ _ _ j E2), (put_nth _ _ _ _ j E3), (put_nth _ _ _ _ j E). destruct (i =? j); auto.
Qed.

Lemma gen_tables_ok m : NoDup (keys m) -> (forall i t, In (i, t) m -> NoDup (keys (tb_fields t))) ->
  exists ts, gen_tables [] m = Ok ts /\ lenN ts = max_key (keys m) + 1 /\
    forall i, nthN ts i = match nget m i with
                          | Some t => Some (empty_table t)
                          | None => if i <=? max_key (keys m) then Some (mkDTable [] []) else None
                          end.
Proof.
  intros Nd Hf. unfold gen_tables. set (l0 := resize [] (max_key (keys m) + 1) (dtable_new [])).
  destruct (fold_put empty_table m l0 Nd) as (ts & H1 & H2 & H3).
  - intros k Hk. unfold l0. rewrite resize_len. apply max_key_ge in Hk. lia.
  - exists ts. unfold l0 in H2. rewrite resize_len in H2. split; [|split; auto].
    + rewrite <- H1. assert (Hl : forall e, In e m -> fst e < lenN l0 /\ NoDup (keys (tb_fields (snd e)))).
      { intros [i t] He. split; [|eapply Hf; eauto]. unfold l0. rewrite resize_len.
        assert (In i (keys m)) by (apply in_map_iff; exists (i, t); auto). apply max_key_ge in H. cbn. lia. }
      clear - Hl. revert Hl. generalize l0. induction m as [|[i t] m IH]; intros l Hl; auto. cbn [fold_left fst snd bind].
      destruct (Hl (i, t)) as [Hi Ht]; [now left|]. cbn [fst snd] in Hi, Ht. rewrite gen_table_ok by auto.
      assert (E : put l i (empty_table t) = Ok (updateN l i (fun _ => empty_table t))) by (apply put_ok; auto).
      rewrite E. apply IH. intros e He. rewrite updateN_len. apply Hl. now right.
    + intros i. rewrite H3. unfold l0. rewrite resize_nth. destruct (nget m i); auto.
      replace (i <? max_key (keys m) + 1) with (i <=? max_key (keys m)) by lia.
      change (lenN (@nil dtable)) with 0. replace (i <? 0) with false by lia. reflexivity.
Qed.

Lemma gen_occs_ok m : NoDup (keys m) ->
  exists os ix, gen_occs [] [] m = Ok (os, ix) /\ lenN os = max_key (keys m) + 1 /\
    (forall i, nthN os i = match nget m i with
                           | Some o => Some (mkTocc [] (oc_table o) 0 [])
                           | None => if i <=? max_key (keys m) then Some tocc_new else None
                           end) /\
    ix = fold_left (fun ix e => sset ix (oc_name (snd e)) (as_u16 (fst e))) m [].
Proof.
  intros Nd. unfold gen_occs. set (l0 := resize [] (max_key (keys m) + 1) tocc_new).
  destruct (fold_put (fun o => mkTocc [] (oc_table o) 0 []) m l0 Nd) as (os & H1 & H2 & H3).
  - intros k Hk. unfold l0. rewrite resize_len. apply max_key_ge in Hk. lia.
  - exists os, (fold_left (fun ix e => sset ix (oc_name (snd e)) (as_u16 (fst e))) m []).
    unfold l0 in H2. rewrite resize_len in H2. split; [|split; [auto|split; auto]].
    + clear H2 H3. revert H1. generalize l0 (@nil (list N * N)). induction m as [|[i o] m IH]; intros l ix H1; cbn [fold_left fst snd bind] in *.
      * congruence.
      * inversion Nd; subst. unfold gen_occ at 2. destruct (put l i (mkTocc [] (oc_table o) 0 [])) as [l1| |] eqn:E; cbn [bind] in *.
        -- apply IH; auto.
        -- exfalso. clear - H1. induction m; cbn in H1; auto; discriminate.
        -- exfalso. clear - H1. induction m; cbn in H1; auto; discriminate.
    + intros i. rewrite H3. unfold l0. rewrite resize_nth. destruct (nget m i); auto.
      replace (i <? max_key (keys m) + 1) with (i <=? max_key (keys m)) by lia.
      change (lenN (@nil tocc)) with 0. replace (i <? 0) with false by lia. reflexivity.
Qed.

Definition add_related (o : tocc) (rs : list rset) : tocc := mkTocc (to_found o) (to_table o) (to_ptr o) (to_related o ++ rs).

Lemma add_related_nil o : add_related o [] = o.
Proof. unfold add_related. rewrite app_nil_r. now destruct o. Qed.
Lemma add_related_app o a b : add_related (add_related o a) b = add_related o (a ++ b).
Proof. unfold add_related. cbn. now rewrite app_assoc. Qed.

Lemma push_related_nth os i r os' : push_related os i r = Ok os' ->
  lenN os' = lenN os /\ forall j, nthN os' j = option_map (fun o => add_related o (if i =? j then [r] else [])) (nthN os j).
Proof.
  unfold push_related. intros (o & H1%at_ok & H2)%bind_ok. split; [now apply put_len in H2|].
  intros j. rewrite (put_nth _ _ _ _ j H2). destruct (N.eqb_spec i j).
  - subst. rewrite H1. reflexivity.
  - destruct (nthN os j); cbn; auto. now rewrite add_related_nil.
Qed.

Lemma push_related_ok os i r : (exists os', push_related os i r = Ok os') <-> i < lenN os.
Proof.
  unfold push_related. split.
  - intros (os' & H). apply bind_ok in H as (o & H1%at_ok & _). eapply nthN_lt; eauto.
  - intros H. destruct (nthN_ex os i H) as (o & E). eexists. apply bind_ok. exists o. rewrite at_ok. split; auto.
    eapply put_some; eauto.
Qed.

Lemma push_related_panic os i r : lenN os <= i -> push_related os i r = Panic.
Proof. intros H. unfold push_related, at_. apply nthN_None in H. now rewrite H. Qed.

Lemma gen_rel_ok os g rl : rl_table1 rl < lenN os -> rl_table2 rl < lenN os ->
  exists os', gen_rel (os, g) rl = Ok (os', add_relation g (rl_table1 rl) (rl_table2 rl)) /\ lenN os' = lenN os /\
    forall i, nthN os' i = option_map (fun o => add_related o (seen_from i rl)) (nthN os i).
Proof.
  intros H1 H2. unfold gen_rel.
  set (r1 := mkRset _ _ _ (rl_table2 rl) []). set (r2 := mkRset _ _ _ (rl_table1 rl) []).
  destruct (proj2 (push_related_ok os (rl_table1 rl) r1) H1) as (os1 & E1).
  destruct (push_related_nth _ _ _ _ E1) as (L1 & N1).
  destruct (proj2 (push_related_ok os1 (rl_table2 rl) r2)) as (os2 & E2); [lia|].
  destruct (push_related_nth _ _ _ _ E2) as (L2 & N2).
  exists os2. rewrite E1. cbn [bind]. rewrite E2. split; [reflexivity|]. split; [lia|].
  intros i. rewrite N2, N1. destruct (nthN os i); cbn; auto. rewrite add_related_app. reflexivity.
Qed.

Lemma gen_rel_panic os g rl : ~ (rl_table1 rl < lenN os /\ rl_table2 rl < lenN os) -> gen_rel (os, g) rl = Panic.
Proof.
  intros H. unfold gen_rel.
  destruct (N.lt_ge_cases (rl_table1 rl) (lenN os)) as [H1|H1].
  - destruct (proj2 (push_related_ok os (rl_table1 rl) (mkRset (rl_cmp rl) (rl_field1 rl) (rl_field2 rl) (rl_table2 rl) [])) H1) as (os1 & E1).
    destruct (push_related_nth _ _ _ _ E1) as (L1 & _). rewrite E1. cbn [bind].
    rewrite push_related_panic; [reflexivity|]. lia.
  - rewrite push_related_panic by auto. reflexivity.
Qed.

Definition rel_graph (g : graph) (rs : list relationship) : graph :=
  fold_left (fun g rl => add_relation g (rl_table1 rl) (rl_table2 rl)) rs g.

Lemma gen_rels_panic m : fold_left (fun acc (e : N * relationship) => a <- acc ;; gen_rel a (snd e)) m Panic = Panic.
Proof. induction m; auto. Qed.

Lemma gen_rels_spec : forall m os g,
  (Forall (fun rl => rl_table1 rl < lenN os /\ rl_table2 rl < lenN os) (vals m) ->
   exists os', gen_rels os g m = Ok (os', rel_graph g (vals m)) /\ lenN os' = lenN os /\
     forall i, nthN os' i = option_map (fun o => add_related o (flat_map (seen_from i) (vals m))) (nthN os i)) /\
  (~ Forall (fun rl => rl_table1 rl < lenN os /\ rl_table2 rl < lenN os) (vals m) -> gen_rels os g m = Panic).
Proof.
  unfold gen_rels. induction m as [|[k rl] m IH]; intros os g; cbn [vals map snd fold_left flat_map bind].
  - split.
    + intros _. exists os. split; auto. split; auto. intros i. destruct (nthN os i); cbn; auto. now rewrite add_related_nil.
    + intros H. exfalso. apply H. constructor.
  - split.
    + intros H. inversion H as [|? ? [H1 H2] H3]; subst. destruct (gen_rel_ok os g rl H1 H2) as (os1 & E & L & Nn).
      rewrite E. destruct (IH os1 (add_relation g (rl_table1 rl) (rl_table2 rl))) as [IHa _].
      rewrite L in IHa. destruct (IHa H3) as (os2 & E2 & L2 & N2). exists os2. split; auto. split; auto.
      intros i. rewrite N2, Nn. destruct (nthN os i); cbn; auto. now rewrite add_related_app.
    + intros H. destruct (N.lt_ge_cases (rl_table1 rl) (lenN os)) as [H1|H1];
        [|rewrite gen_rel_panic by lia; apply gen_rels_panic].
      destruct (N.lt_ge_cases (rl_table2 rl) (lenN os)) as [H2|H2];
        [|rewrite gen_rel_panic by lia; apply gen_rels_panic].
      destruct (gen_rel_ok os g rl H1 H2) as (os1 & E & L & Nn). rewrite E.
      destruct (IH os1 (add_relation g (rl_table1 rl) (rl_table2 rl))) as [_ IHb]. rewrite L in IHb.
      apply IHb. intros F. apply H. constructor; auto.
Qed.

Lemma rel_graph_related : forall rs es g, related es g ->
  related (es ++ map (fun rl => (rl_table1 rl, rl_table2 rl)) rs) (rel_graph g rs).
Proof.
  induction rs as [|rl rs IH]; intros es g R; cbn.
  - now rewrite app_nil_r.
  - replace (es ++ (rl_table1 rl, rl_table2 rl) :: map (fun rl => (rl_table1 rl, rl_table2 rl)) rs)
      with ((es ++ [(rl_table1 rl, rl_table2 rl)]) ++ map (fun rl => (rl_table1 rl, rl_table2 rl)) rs)
      by (now rewrite <- app_assoc).
    apply IH. now constructor.
Qed.

(** The generated database, completely. *)
Theorem generate_ok f : maps_ok f ->
  (relations_fit f -> exists d, generate_from_fmp12 db_new f = Ok d /\
     lenN (d_tables d) = max_key (keys (f_tables f)) + 1 /\
     lenN (d_occs d) = max_key (keys (f_occurrences f)) + 1 /\
     (forall i, nthN (d_tables d) i = match nget (f_tables f) i with
                | Some t => Some (empty_table t)
                | None => if i <=? max_key (keys (f_tables f)) then Some (mkDTable [] []) else None
                end) /\
     (forall i, nthN (d_occs d) i = occurrence_at f i) /\
     related (relation_pairs f) (d_graph d) /\
     d_handle d = as_u16 (min_key (keys (f_occurrences f))) /\
     d_index d = fold_left (fun ix e => sset ix (oc_name (snd e)) (as_u16 (fst e))) (f_occurrences f) []) /\
  (~ relations_fit f -> generate_from_fmp12 db_new f = Panic).
Proof.
  intros (Nt & No & Nr & Nf). unfold generate_from_fmp12. change (d_tables db_new) with (@nil dtable).
  change (d_occs db_new) with (@nil tocc). change (d_index db_new) with (@nil (list N * N)). change (d_graph db_new) with graph_new.
  destruct (gen_tables_ok (f_tables f) Nt Nf) as (ts & -> & Lt & Ht). cbn [bind].
  destruct (gen_occs_ok (f_occurrences f) No) as (os & ix & -> & Lo & Ho & Hx). cbn [bind].
  destruct (gen_rels_spec (f_relationships f) os graph_new) as [G1 G2].
  assert (Fit : relations_fit f <-> Forall (fun rl => rl_table1 rl < lenN os /\ rl_table2 rl < lenN os) (vals (f_relationships f))).
  { unfold relations_fit. rewrite Lo. split; intros H; eapply Forall_impl; try exact H; cbn; intros; lia. }
  split.
  - intros H. apply Fit in H. destruct (G1 H) as (os' & -> & Ls & Hs). cbn [bind].
    eexists. split; [reflexivity|]. cbn. split; auto. split; [lia|]. split; auto. split; [|split; [|split; auto]].
    + intros i. rewrite Hs, Ho. unfold occurrence_at. destruct (nget (f_occurrences f) i); auto.
      destruct (i <=? max_key (keys (f_occurrences f))); auto.
    + apply (rel_graph_related (vals (f_relationships f)) [] graph_new). constructor.
  - intros H. rewrite G2; [reflexivity|]. now rewrite <- Fit.
Qed.
