(** C28-C33: the database of the test runner; C59 and C60 are below as well. *)
From Coq Require Import Ascii String NArith List Bool Lia Sorted.
From Verif Require Import Prelude PreludeFacts StrOrder StrOrderFacts Utf8 ComponentModel RelModel RelSpec RelProofs RelSearch
  DbModel DbGenSpec DbSpec DbFacts DbGen DbProofs DbInv DbLookup.
Import ListNotations.
Local Open Scope N_scope.

(** ** A small database to illustrate *)
Definition tab (name : string) (fs : list (N * string)) : table :=
  mkTable (lit name) [] [] (map (fun e => (fst e, mkField [] [] (lit (snd e)) [] [] [])) fs) true.
Definition occ (name : string) (t : N) : occurrence := mkOcc (lit name) t [] [] [].
Definition rel (a fa b fb : N) (c : comparison_kind) : relationship := mkRel a [] fa b [] fb c.
Definition shop (c : comparison_kind) : fmpfile :=
  mkFile (lit "shop")
    [(1, tab "customer" [(1, "id"); (2, "name")]%string); (2, tab "order" [(1, "id"); (2, "customer")]%string);
     (3, tab "line" [(1, "order"); (2, "text")]%string)]
    [(1, rel 1 1 2 2 c); (2, rel 2 1 3 1 CEqual)] [] [] []
    [(1, occ "customer" 1); (2, occ "order" 2); (3, occ "line" 3); (4, occ "customer 2" 1)] [] [].

Ltac nodup := repeat (constructor; [cbn; intuition discriminate|]); constructor.
Lemma shop_maps c : maps_ok (shop c).
Proof.
  unfold maps_ok, shop. cbn. split; [nodup|]. split; [nodup|]. split; [nodup|].
  intros i t [H|[H|[H|[]]]]; inversion H; cbn; nodup.
Qed.

Fixpoint run_ops (d : db) (os : list op) : outcome db :=
  match os with [] => Ok d | o :: os' => bind (apply_op d o) (fun d' => run_ops d' os') end.
Definition is_find (o : op) : bool := match o with OFind _ => true | _ => false end.
Lemma reached_ops c : forall os d d', reached c d -> forallb (fun o => negb (is_find o)) os = true ->
  (In OClear os -> c = true) -> run_ops d os = Ok d' -> reached c d'.
Proof.
  induction os as [|o os IH]; intros d d' R F C E; cbn in *.
  - inversion E. now subst.
  - apply andb_true_iff in F as [F1 F2]. apply bind_ok in E as (d1 & E1 & E2).
    apply (IH d1); auto. apply (ReachStep _ d o); auto. destruct o; cbn; auto. discriminate.
Qed.

(** One customer, one order of theirs, one line of the order; the customer layout is shown last. *)
Definition demo_ops : list op :=
  [OCreate; OWrite (lit "customer") (lit "id") (lit "7"); OWrite (lit "customer") (lit "name") (lit "Ann");
   OCreate; OWrite (lit "customer") (lit "id") (lit "8"); OWrite (lit "customer 2") (lit "name") (lit "Bo");
   OLayout 2; OCreate; OWrite (lit "order") (lit "id") (lit "31"); OWriteHere (lit "customer") (lit "8");
   OLayout 3; OCreate; OWrite (lit "line") (lit "order") (lit "31"); OWrite (lit "line") (lit "text") (lit "tea");
   OLayout 1].
Definition shop_db (c : comparison_kind) (os : list op) : outcome db :=
  bind (generate_from_fmp12 db_new (shop c)) (fun d => run_ops d os).
Definition the {A} (d : A) (o : outcome A) : A := match o with Ok a => a | _ => d end.
Definition demo_db (c : comparison_kind) : db := Eval vm_compute in the db_new (shop_db c demo_ops).
Definition cleared_db : db := Eval vm_compute in the db_new (shop_db CEqual (demo_ops ++ [OClear])).

Lemma shop_reached c cl os d : forallb (fun o => negb (is_find o)) os = true -> (In OClear os -> cl = true) ->
  shop_db c os = Ok d -> reached cl d.
Proof.
  intros F C H. unfold shop_db in H. apply bind_ok in H as (d0 & H1 & H2). eapply reached_ops; eauto.
  eapply ReachGenerated; eauto. apply shop_maps.
Qed.
Lemma demo_reached c : reached false (demo_db c).
Proof.
  apply (shop_reached c false demo_ops); [reflexivity| |vm_compute; reflexivity].
  cbn. intuition discriminate.
Qed.

(** C28: all columns of a table are equally long, and that is the number of records reported. *)
Theorem tables_stay_rectangular : forall cl d t tb, reached cl d -> nthN (d_tables d) t = Some tb ->
  exists n, holds tb n /\ (dt_fields tb <> [] -> get_records_n tb = Ok n).
Proof.
  intros cl d t tb R H. apply reached_sound in R. destruct (s_rect _ R _ _ H) as (n & Hn). exists n. split; auto.
  intros Hf. unfold get_records_n. destruct (dt_fields tb) as [|f fs] eqn:E; [congruence|].
  unfold at_. rewrite nthN_0. cbn [unwrap bind]. unfold holds in Hn. rewrite E in Hn. inversion Hn. congruence.
Qed.
Print Assumptions tables_stay_rectangular.
Example tables_stay_rectangular_ex : reached false (demo_db CEqual) /\
  exists tb, nthN (d_tables (demo_db CEqual)) 1 = Some tb /\ lenN (dt_fields tb) = 3 /\ holds tb 2.
Proof. split; [apply demo_reached|]. eexists. split; [reflexivity|]. split; [reflexivity|]. repeat constructor. Qed.

(** C29: every found set lists existing records of its table, ascending. *)
Theorem found_sets_name_records : forall d i o, reached false d -> nthN (d_occs d) i = Some o ->
  StronglySorted N.lt (to_found o) /\ Forall (record_of d (to_table o)) (to_found o).
Proof. intros d i o R H. destruct (reached_found d R i o H) as (H1 & H2 & _). auto. Qed.
Print Assumptions found_sets_name_records.
Example found_sets_name_records_ex : reached false (demo_db CEqual) /\
  exists o, nthN (d_occs (demo_db CEqual)) 4 = Some o /\ to_found o = [0; 1].
Proof. split; [apply demo_reached|]. eexists. split; reflexivity. Qed.

(** C29: clearing the records leaves found sets that name nothing. *)
Theorem cleared_found_sets_refuted : exists d i o, reached true d /\ nthN (d_occs d) i = Some o /\
  ~ Forall (record_of d (to_table o)) (to_found o).
Proof.
  exists cleared_db, 1. eexists. split; [|split; [reflexivity|]].
  - apply (shop_reached CEqual true (demo_ops ++ [OClear])); [reflexivity|auto|vm_compute; reflexivity].
  - cbn. intros H. inversion H as [|? ? (tb & n & H1 & H2 & H3 & H4) _]; subst. cbn in H1. inversion H1; subst tb.
    apply Forall_inv in H3. cbn in H3. lia.
Qed.
Print Assumptions cleared_found_sets_refuted.

(** C30: creating a record. *)
Theorem create_record_exact : forall d o tb n,
  nthN (d_occs d) (d_handle d) = Some o -> nthN (d_tables d) (to_table o) = Some tb -> dt_fields tb <> [] -> holds tb n ->
  exists d', create_record d = Ok d' /\ d_handle d' = d_handle d /\ d_index d' = d_index d /\ d_graph d' = d_graph d /\
    (forall t f r, cell d' (t, f, r) =
       if (t =? to_table o) && (r =? n) && (f <? lenN (dt_fields tb)) then Some [] else cell d (t, f, r)) /\
    (forall t, option_map dt_name (nthN (d_tables d') t) = option_map dt_name (nthN (d_tables d) t) /\
               option_map field_names (nthN (d_tables d') t) = option_map field_names (nthN (d_tables d) t)) /\
    (forall i oc, nthN (d_occs d) i = Some oc -> to_table oc <> to_table o -> nthN (d_occs d') i = Some oc) /\
    (forall i oc, nthN (d_occs d) i = Some oc -> to_table oc = to_table o -> exists oc', nthN (d_occs d') i = Some oc' /\
       to_found oc' = to_found oc ++ [n] /\ get_current_record oc' = Some n /\ to_table oc' = to_table oc /\ to_related oc' = to_related oc).
Proof.
  intros d o tb n H1 H2 H3 H4. destruct (dt_fields tb) as [|f0 fs] eqn:E; [congruence|].
  assert (En : lenN (df_records f0) = n) by (unfold holds in H4; rewrite E in H4; inversion H4; auto).
  exists (created d (to_table o) tb n). rewrite (create_record_eq _ _ _ _ _ H1 H2 E), En.
  split; [reflexivity|]. split; [reflexivity|]. split; [reflexivity|]. split; [reflexivity|]. split; [|split; [|split]].
  - intros t f r. rewrite (created_cell d (to_table o) tb n H2 H4 (t, f, r)). cbn [fst snd]. now rewrite E.
  - intros t. cbn [created d_tables]. rewrite updateN_nth. destruct (N.eqb_spec (to_table o) t) as [Et|Et]; auto.
    subst t. rewrite H2. cbn. unfold field_names, add_blank_record. cbn. rewrite map_map. auto.
  - intros i oc Hi Ht. cbn [created d_occs]. rewrite nthN_map, Hi. cbn. unfold shows.
    destruct (N.eqb_spec (to_table oc) (to_table o)); congruence.
  - intros i oc Hi Ht. cbn [created d_occs]. rewrite nthN_map, Hi. cbn [option_map]. eexists. split; [reflexivity|].
    unfold shows. rewrite Ht, N.eqb_refl. cbn. split; auto. split; auto. unfold get_current_record. cbn. apply nthN_app_len.
Qed.
Print Assumptions create_record_exact.
Example create_record_exact_ex : exists o tb, nthN (d_occs (demo_db CEqual)) (d_handle (demo_db CEqual)) = Some o /\
  nthN (d_tables (demo_db CEqual)) (to_table o) = Some tb /\ dt_fields tb <> [] /\ holds tb 2.
Proof. eexists. eexists. split; [reflexivity|]. split; [reflexivity|]. split; [discriminate|repeat constructor]. Qed.

(** C30: and when it is impossible. *)
Theorem create_record_aborts : forall d,
  nthN (d_occs d) (d_handle d) = None \/
  (exists o, nthN (d_occs d) (d_handle d) = Some o /\ nthN (d_tables d) (to_table o) = None) \/
  (exists o tb, nthN (d_occs d) (d_handle d) = Some o /\ nthN (d_tables d) (to_table o) = Some tb /\ dt_fields tb = []) ->
  create_record d = Panic.
Proof. exact create_record_panics. Qed.
Print Assumptions create_record_aborts.
Example create_record_aborts_ex : nthN (d_occs db_new) (d_handle db_new) = None.
Proof. reflexivity. Qed.

(** C31: the place named by an occurrence and a field, and what writing there does. *)
Theorem write_changes_one_cell : forall d oname field v o r tb i,
  get_occurrence_by_name d oname = Ok o -> get_current_record o = Some r -> nthN (d_tables d) (to_table o) = Some tb ->
  field_at tb field i -> cell d (to_table o, i, r) <> None ->
  get_current_record_by_table_field_mut d oname field = Ok (ROk (to_table o, i, r)) /\
  exists d', apply_op d (OWrite oname field v) = Ok d' /\
    cell d' (to_table o, i, r) = Some v /\
    (forall q, q <> (to_table o, i, r) -> cell d' q = cell d q) /\
    d_occs d' = d_occs d /\ d_index d' = d_index d /\ d_handle d' = d_handle d /\ d_graph d' = d_graph d /\
    (forall t, option_map field_names (nthN (d_tables d') t) = option_map field_names (nthN (d_tables d) t)) /\
    get_current_record_by_table_field d' oname field = Ok (ROk v).
Proof.
  intros d oname field v o r tb i H1 H2 H3 H4 H5. destruct (cell d (to_table o, i, r)) as [old|] eqn:Ec; [|congruence].
  assert (P : current_place d o field = Ok (ROk (to_table o, i, r))).
  { apply current_place_ok. exists r, tb, i, old. auto. }
  split; [unfold get_current_record_by_table_field_mut; rewrite H1; exact P|].
  destruct (write_place_ok d (to_table o, i, r) v old Ec) as (d' & W1 & W2 & W3 & W4 & W5 & W6 & W7).
  exists d'. split.
  { cbn [apply_op]. unfold get_current_record_by_table_field_mut. rewrite H1. cbn [bind]. rewrite P. exact W1. }
  split; [rewrite W7; destruct (place_eq_dec (to_table o, i, r) (to_table o, i, r)); congruence|].
  split; [intros q Hq; rewrite W7; destruct (place_eq_dec (to_table o, i, r) q); congruence|].
  do 4 (split; auto). split.
  { intros t. assert (E : option_map shape (nthN (d_tables d') t) = option_map shape (nthN (d_tables d) t)) by (now rewrite <- !nthN_map, W6).
    destruct (nthN (d_tables d') t) as [a|], (nthN (d_tables d) t) as [b|]; cbn in *; try discriminate; auto.
    f_equal. unfold shape in E. unfold field_names.
    assert (E2 : map (fun f => (df_name f, lenN (df_records f))) (dt_fields a) = map (fun f => (df_name f, lenN (df_records f))) (dt_fields b)) by congruence.
    apply (f_equal (map fst)) in E2. now rewrite !map_map in E2. }
  unfold get_current_record_by_table_field. assert (H1' : get_occurrence_by_name d' oname = Ok o).
  { unfold get_occurrence_by_name, occurrence_index in *. now rewrite W2, W3. }
  rewrite H1'. cbn [bind].
  assert (E : option_map shape (nthN (d_tables d') (to_table o)) = option_map shape (nthN (d_tables d) (to_table o))) by (now rewrite <- !nthN_map, W6).
  rewrite H3 in E. destruct (nthN (d_tables d') (to_table o)) as [tb'|] eqn:Et; [|discriminate]. cbn in E.
  assert (E2 : map (fun f => (df_name f, lenN (df_records f))) (dt_fields tb') = map (fun f => (df_name f, lenN (df_records f))) (dt_fields tb)) by (unfold shape in E; congruence).
  assert (Names : forall j, option_map df_name (nthN (dt_fields tb') j) = option_map df_name (nthN (dt_fields tb) j)).
  { intros j. apply (f_equal (map fst)) in E2. rewrite !map_map in E2. cbn in E2. rewrite <- !nthN_map. f_equal. exact E2. }
  assert (P' : current_place d' o field = Ok (ROk (to_table o, i, r))).
  { apply current_place_ok. exists r, tb', i, v. split; auto. split; auto. split; [|split; auto].
    - destruct H4 as ((fd & F1 & F2) & F3). split.
      + specialize (Names i). rewrite F1 in Names. destruct (nthN (dt_fields tb') i) as [fd'|]; [|discriminate].
        exists fd'. split; auto. cbn in Names. congruence.
      + intros j fd' Hj Hd. specialize (Names j). rewrite Hd in Names. destruct (nthN (dt_fields tb) j) as [fdj|] eqn:Ej; [|discriminate].
        cbn in Names. specialize (F3 _ _ Hj Ej). congruence.
    - rewrite W7. destruct (place_eq_dec (to_table o, i, r) (to_table o, i, r)); congruence. }
  rewrite P'. cbn [bind]. rewrite read_place_cell, W7.
  destruct (place_eq_dec (to_table o, i, r) (to_table o, i, r)); [reflexivity|congruence].
Qed.
Print Assumptions write_changes_one_cell.
Example write_changes_one_cell_ex : exists o tb, get_occurrence_by_name (demo_db CEqual) (lit "customer") = Ok o /\
  get_current_record o = Some 1 /\ nthN (d_tables (demo_db CEqual)) (to_table o) = Some tb /\
  field_at tb (lit "name") 2 /\ cell (demo_db CEqual) (to_table o, 2, 1) = Some (lit "Bo").
Proof.
  eexists. eexists. split; [reflexivity|]. split; [reflexivity|]. split; [reflexivity|]. split; [|reflexivity].
  split; [eexists; split; reflexivity|]. intros j fd Hj H.
  destruct (N.eq_dec j 0) as [->|]; [inversion H; discriminate|]. destruct (N.eq_dec j 1) as [->|]; [inversion H; discriminate|]. lia.
Qed.

(** C31: without a current record nothing is written. *)
Theorem write_without_record_fails : forall d oname field v o,
  get_occurrence_by_name d oname = Ok o -> get_current_record o = None ->
  get_current_record_by_table_field_mut d oname field = Ok (RErr tt) /\ apply_op d (OWrite oname field v) = Panic.
Proof.
  intros d oname field v o H1 H2. cbn [apply_op]. unfold get_current_record_by_table_field_mut. rewrite H1. cbn [bind].
  unfold current_place. rewrite H2. auto.
Qed.
Print Assumptions write_without_record_fails.
Example write_without_record_fails_ex : exists d o, generate_from_fmp12 db_new (shop CEqual) = Ok d /\
  get_occurrence_by_name d (lit "order") = Ok o /\ get_current_record o = None.
Proof. eexists. eexists. split; [reflexivity|]. split; reflexivity. Qed.

(** C31: a read through the found set goes to the current occurrence, not to the one written to. *)
Theorem read_after_write_refuted : exists d d' oname field v,
  reached false d /\ apply_op d (OWrite oname field v) = Ok d' /\ get_found_set_record_field d' field <> Ok v.
Proof.
  exists (demo_db CEqual). eexists. exists (lit "order"), (lit "id"), (lit "99").
  split; [apply demo_reached|]. split; [reflexivity|]. vm_compute. discriminate.
Qed.
Print Assumptions read_after_write_refuted.

(** C32: where navigation leads, and when it aborts. *)
Theorem navigation_exact : forall d oc, nthN (d_occs d) (d_handle d) = Some oc ->
  let n := lenN (to_found oc) in
  let at_ptr p := with_occs d (updateN (d_occs d) (d_handle d) (fun _ => mkTocc (to_found oc) (to_table oc) p (to_related oc))) in
  goto_first_record d = Ok (at_ptr 0) /\
  goto_previous_record d = Ok (at_ptr (to_ptr oc - 1)) /\
  goto_last_record d = (if n =? 0 then Panic else Ok (at_ptr (n - 1))) /\
  goto_next_record d = (if n =? 0 then Panic else Ok (at_ptr (if to_ptr oc <? n - 1 then to_ptr oc + 1 else to_ptr oc))) /\
  (forall k, goto_record d k = if n =? 0 then Panic else Ok (at_ptr (N.min k (n - 1)))).
Proof.
  intros d oc H. cbn zeta.
  pose proof (fun o Ho => nav_exact d o oc Ho H) as X. unfold nav, with_ptr in X.
  split; [apply (X OFirst eq_refl)|]. split; [apply (X OPrevious eq_refl)|].
  split; [rewrite (X OLast eq_refl : goto_last_record d = _); now destruct (lenN (to_found oc) =? 0)|].
  split; [rewrite (X ONext eq_refl : goto_next_record d = _); now destruct (lenN (to_found oc) =? 0)|].
  intros k. rewrite (X (OGoto k) eq_refl : goto_record d k = _). destruct (N.eqb_spec (lenN (to_found oc)) 0); auto.
  destruct (N.leb_spec (lenN (to_found oc)) k).
  - replace (N.min k (lenN (to_found oc) - 1)) with (lenN (to_found oc) - 1) by lia. reflexivity.
  - replace (N.min k (lenN (to_found oc) - 1)) with k by lia. reflexivity.
Qed.
Print Assumptions navigation_exact.
Example navigation_exact_ex : exists oc, nthN (d_occs (demo_db CEqual)) (d_handle (demo_db CEqual)) = Some oc /\
  lenN (to_found oc) = 2 /\ to_ptr oc = 1.
Proof. eexists. split; [reflexivity|]. split; reflexivity. Qed.

(** C32: as long as records are not cleared, a non-empty found set always has a current record. *)
Theorem current_record_exists : forall d i o, reached false d -> nthN (d_occs d) i = Some o ->
  (to_found o = [] -> to_ptr o = 0) /\
  (to_found o <> [] -> to_ptr o < lenN (to_found o) /\
     exists r, get_current_record o = Some r /\ record_of d (to_table o) r).
Proof.
  intros d i o R H. destruct (reached_found d R i o H) as (H1 & H2 & H3). unfold pointer_ok in H3. split.
  - intros E. now rewrite E in H3.
  - intros E. destruct (to_found o) as [|x l] eqn:Ef; [congruence|]. split; auto.
    destruct (nthN_ex _ _ H3) as (r & Er). exists r. unfold get_current_record. rewrite Ef. split; auto.
    rewrite Forall_forall in H2. apply H2. eapply nthN_In; eauto.
Qed.
Print Assumptions current_record_exists.
Example current_record_exists_ex : reached false (demo_db CEqual) /\
  exists o, nthN (d_occs (demo_db CEqual)) 1 = Some o /\ to_found o <> [].
Proof. split; [apply demo_reached|]. eexists. split; [reflexivity|discriminate]. Qed.

(** C33: over a direct relation the first related record counts. *)
Theorem related_lookup : forall cl d oname field t o r rel rest v o' tb' fd' i,
  reached cl d -> sget (d_index d) oname = Some t -> nthN (d_occs d) (d_handle d) = Some o -> get_current_record o = Some r ->
  filter (fun x => rs_occ x =? t) (to_related o) = rel :: rest ->
  cell d (to_table o, rs_field1 rel, r) = Some v ->
  nthN (d_occs d) t = Some o' -> nthN (d_tables d) (to_table o') = Some tb' ->
  nthN (dt_fields tb') (rs_field2 rel) = Some fd' -> field_at tb' field i ->
  (forall k, first_match d (to_table o') (rs_field2 rel) (rs_cmp rel) v k ->
     exists w, cell d (to_table o', i, k) = Some w /\ get_related_record_field d oname field = Ok (ROk w)) /\
  ((forall k w, cell d (to_table o', rs_field2 rel, k) = Some w -> ~ relates (rs_cmp rel) v w) ->
     get_related_record_field d oname field = Ok (RErr tt)).
Proof. intros cl d oname field t o r rel rest v o' tb' fd' i R. apply reached_sound in R. now apply lookup_direct. Qed.
Print Assumptions related_lookup.
Example related_lookup_ex : reached false (demo_db CEqual) /\ sget (d_index (demo_db CEqual)) (lit "order") = Some 2 /\
  exists o rel rest, nthN (d_occs (demo_db CEqual)) (d_handle (demo_db CEqual)) = Some o /\ get_current_record o = Some 1 /\
    filter (fun x => rs_occ x =? 2) (to_related o) = rel :: rest /\
    cell (demo_db CEqual) (to_table o, rs_field1 rel, 1) = Some (lit "8") /\
    first_match (demo_db CEqual) 2 (rs_field2 rel) (rs_cmp rel) (lit "8") 0 /\
    get_related_record_field (demo_db CEqual) (lit "order") (lit "id") = Ok (ROk (lit "31")).
Proof.
  split; [apply demo_reached|]. split; [reflexivity|]. eexists. eexists. eexists. split; [reflexivity|]. split; [reflexivity|].
  split; [reflexivity|]. split; [reflexivity|]. split; [|reflexivity].
  split; [eexists; split; reflexivity|]. intros; lia.
Qed.

(** C33: without a path there is an error. *)
Theorem unrelated_lookup_fails : forall cl d oname field t, reached cl d -> sget (d_index d) oname = Some t ->
  (forall p, walk (d_graph d) (d_handle d) p t -> p = [d_handle d]) ->
  get_related_record_field d oname field = Ok (RErr tt).
Proof. intros cl d oname field t R. apply reached_sound in R. now apply lookup_unrelated. Qed.
Print Assumptions unrelated_lookup_fails.
Example unrelated_lookup_fails_ex : reached false (demo_db CEqual) /\ sget (d_index (demo_db CEqual)) (lit "customer 2") = Some 4 /\
  (forall p, walk (d_graph (demo_db CEqual)) (d_handle (demo_db CEqual)) p 4 -> p = [d_handle (demo_db CEqual)]).
Proof.
  split; [apply demo_reached|]. split; [reflexivity|]. change (d_handle (demo_db CEqual)) with 1.
  assert (G : forall x p z, walk (d_graph (demo_db CEqual)) x p z -> x <> 4 -> z <> 4).
  { intros x p z W. induction W as [x|x y p z E W IH]; auto. intros Hx. apply IH. intros ->. unfold edge, neighbours in E.
    change (d_graph (demo_db CEqual)) with [(1, [2]); (2, [1; 3]); (3, [2])] in E. unfold nget in E. cbn [mget] in E.
    destruct (1 =? x); [destruct E as [E|[]]; discriminate|].
    destruct (2 =? x); [destruct E as [E|[E|[]]]; discriminate|].
    destruct (3 =? x); [destruct E as [E|[]]; discriminate|destruct E]. }
  intros p W. exfalso. apply (G _ _ _ W); [discriminate|reflexivity].
Qed.

(** C33: a Less relation also relates equal values. *)
Theorem less_is_strict_refuted : exists d oname field w, reached false d /\
  get_related_record_field d oname field = Ok (ROk w) /\
  exists o o' rel, nthN (d_occs d) (d_handle d) = Some o /\ get_current_record o = Some 1 /\ to_related o = [rel] /\ rs_cmp rel = CLess /\
    nthN (d_occs d) (rs_occ rel) = Some o' /\
    cell d (to_table o, rs_field1 rel, 1) = cell d (to_table o', rs_field2 rel, 0) /\ to_found o' = [0].
Proof.
  exists (demo_db CLess), (lit "order"), (lit "id"), (lit "31"). split; [apply demo_reached|]. split; [reflexivity|].
  eexists. eexists. eexists. split; [reflexivity|]. split; [reflexivity|]. split; [reflexivity|]. split; [reflexivity|].
  split; [reflexivity|]. split; reflexivity.
Qed.
Print Assumptions less_is_strict_refuted.

(** C33: a relation need not hold in both directions: the comparison is not turned round. *)
Definition less_db : db := Eval vm_compute in the db_new (shop_db CLess
  [OCreate; OWrite (lit "customer") (lit "id") (lit "1"); OLayout 2; OCreate; OWrite (lit "order") (lit "customer") (lit "2")]).
Theorem mirrored_relation_refuted : exists d, reached false d /\
  (exists w, get_related_record_field (set_current_occurrence d 1) (lit "order") (lit "customer") = Ok (ROk w)) /\
  get_related_record_field (set_current_occurrence d 2) (lit "customer") (lit "id") = Ok (RErr tt).
Proof.
  exists less_db. split; [|split; [eexists; reflexivity|reflexivity]].
  apply (shop_reached CLess false [OCreate; OWrite (lit "customer") (lit "id") (lit "1"); OLayout 2; OCreate;
    OWrite (lit "order") (lit "customer") (lit "2")]); [reflexivity| |vm_compute; reflexivity]. cbn. intuition discriminate.
Qed.
Print Assumptions mirrored_relation_refuted.

(** C33: over two relations the value compared is the one the first relation matched, not the second's own field. *)
Theorem two_relations_refuted : exists d, reached false d /\
  get_related_record_field d (lit "order") (lit "id") = Ok (ROk (lit "31")) /\
  get_related_record_field (set_current_occurrence d 2) (lit "line") (lit "text") = Ok (ROk (lit "tea")) /\
  get_related_record_field d (lit "line") (lit "text") = Ok (RErr tt).
Proof.
  exists (demo_db CEqual). split; [apply demo_reached|]. split; [reflexivity|]. split; reflexivity.
Qed.
Print Assumptions two_relations_refuted.

(** C59: the generated database, from any file whose relationships name occurrences that exist. *)
Theorem generated_database : forall f, maps_ok f -> relations_fit f ->
  exists d, generate_from_fmp12 db_new f = Ok d /\
  (forall i t, nget (f_tables f) i = Some t -> exists tb, nthN (d_tables d) i = Some tb /\ dt_name tb = tb_name t /\
     forall j, nthN (dt_fields tb) j = column t j) /\
  (forall i, nthN (d_occs d) i = occurrence_at f i) /\
  (forall x y, edge (d_graph d) x y <-> In (x, y) (relation_pairs f) \/ In (y, x) (relation_pairs f)) /\
  (forall i o, nget (f_occurrences f) i = Some o ->
     (forall j o', nget (f_occurrences f) j = Some o' -> oc_name o' = oc_name o -> j = i) ->
     sget (d_index d) (oc_name o) = Some (i mod 65536)) /\
  (forall i o, nget (f_occurrences f) i = Some o -> (forall j o', nget (f_occurrences f) j = Some o' -> i <= j) ->
     d_handle d = i mod 65536).
Proof.
  intros f M Fit. destruct (generate_ok f M) as [G _]. destruct (G Fit) as (d & E & Lt & Lo & Ht & Ho & R & Hh & Hx).
  destruct M as (M1 & M2 & M3 & M4). exists d. split; auto. split; [|split; [auto|split; [now apply related_edge|split]]].
  - intros i t Hi. exists (empty_table t). rewrite Ht, Hi. split; auto. split; auto. intros j.
    assert (Nd : NoDup (keys (tb_fields t))) by (eapply M4; eapply (mget_In _ N.eqb_spec); eauto).
    destruct (gen_fields_ok t Nd) as (fs & Ef & _ & Hf). unfold empty_table, columns. cbn. rewrite Ef. apply Hf.
  - intros i o Hi U. rewrite Hx. clear - Hi U M2.
    assert (K : forall m ix, NoDup (keys m) -> (forall j o', nget m j = Some o' -> oc_name o' = oc_name o -> j = i) ->
      (nget m i = Some o \/ nget m i = None /\ sget ix (oc_name o) = Some (as_u16 i)) ->
      sget (fold_left (fun ix e => sset ix (oc_name (snd e)) (as_u16 (fst e))) m ix) (oc_name o) = Some (as_u16 i)).
    { induction m as [|[k x] m IH]; intros ix Nd Um [H|[H1 H2]]; cbn [fold_left fst snd].
      - discriminate.
      - auto.
      - inversion Nd as [|? ? Hn Nd']; subst. cbn in H. unfold nget in H. cbn [mget] in H. apply IH; auto.
        + intros j o' Hj. apply Um. unfold nget. cbn [mget]. destruct (N.eqb_spec k j); auto. subst k.
          exfalso. apply nget_keys in Hn. congruence.
        + destruct (N.eqb_spec k i) as [Ek|Ek].
          * subst k. right. split; [now apply nget_keys|]. inversion H; subst x. rewrite sget_sset, str_eqb_refl. reflexivity.
          * left. exact H.
      - inversion Nd as [|? ? Hn Nd']; subst. unfold nget in H1. cbn [mget] in H1. destruct (N.eqb_spec k i); [discriminate|].
        apply IH; auto.
        + intros j o' Hj. apply Um. unfold nget. cbn [mget]. destruct (N.eqb_spec k j); auto. subst k.
          exfalso. apply nget_keys in Hn. congruence.
        + right. split; auto. rewrite sget_sset. destruct (str_eqb_spec (oc_name x) (oc_name o)) as [En|En]; auto.
          exfalso. apply n. apply (Um k x); auto. unfold nget. cbn [mget]. now rewrite N.eqb_refl. }
    apply K; auto.
  - intros i o Hi Hm. rewrite Hh. unfold as_u16. f_equal. clear - Hi Hm M2.
    assert (In i (keys (f_occurrences f))) as Hin.
    { apply (mget_keys _ N.eqb_spec) in Hi. auto. }
    assert (Hle : forall j, In j (keys (f_occurrences f)) -> i <= j).
    { intros j Hj. destruct (nget (f_occurrences f) j) as [o'|] eqn:Ej; [eauto|]. apply nget_keys in Ej. tauto. }
    revert Hin Hle. generalize (keys (f_occurrences f)). clear. intros l Hin Hle.
    assert (P : forall l, l <> [] -> In (min_key l) l /\ forall j, In j l -> min_key l <= j).
    { clear. induction l as [|a l IH]; [congruence|]. intros _. destruct l as [|b l].
      - cbn. split; auto. intros j [->|[]]. lia.
      - destruct IH as [I1 I2]; [discriminate|]. cbn [min_key] in *. split.
        + destruct (N.min_spec a (min_key (b :: l))) as [[_ E]|[_ E]]; cbn [min_key] in E; rewrite E; [now left|right; exact I1].
        + intros j [->|Hj]; [lia|]. specialize (I2 _ Hj). cbn [min_key] in I2. lia. }
    destruct (P l) as [P1 P2]; [destruct l; [destruct Hin|discriminate]|]. specialize (P2 _ Hin). specialize (Hle _ P1). lia.
Qed.
Print Assumptions generated_database.
Example generated_database_ex : maps_ok (shop CEqual) /\ relations_fit (shop CEqual).
Proof. split; [apply shop_maps|]. unfold relations_fit. cbn. repeat (constructor; [cbn; lia|]). constructor. Qed.

(** C59: a relationship that names a larger occurrence number aborts the generation. *)
Theorem generation_aborts : forall f, maps_ok f -> ~ relations_fit f -> generate_from_fmp12 db_new f = Panic.
Proof. intros f M. apply generate_ok. exact M. Qed.
Print Assumptions generation_aborts.
Example generation_aborts_ex : exists f, maps_ok f /\ ~ relations_fit f /\ f_occurrences f <> [].
Proof.
  exists (mkFile [] [] [(1, rel 1 1 9 1 CEqual)] [] [] [] [(1, occ "a" 1)] [] []). split; [|split; [|discriminate]].
  - unfold maps_ok. cbn. split; [nodup|]. split; [nodup|]. split; [nodup|]. intros i t [].
  - unfold relations_fit. cbn. intros H. inversion H as [|? ? [_ H2] _]; subst. cbn in H2. lia.
Qed.

(** C60: asking for a related field to write to, or for the n-th related value, always aborts. *)
Theorem related_places_unavailable : forall cl d oname field n, reached cl d ->
  get_related_record_field_mut d oname field = Panic /\ get_nth_related_record_field d oname field n = Panic.
Proof. intros cl d oname field n R. apply reached_sound in R. now apply related_mut_panics. Qed.
Print Assumptions related_places_unavailable.
Example related_places_unavailable_ex : reached false (demo_db CEqual) /\
  get_related_record_field (demo_db CEqual) (lit "order") (lit "id") = Ok (ROk (lit "31")).
Proof. split; [apply demo_reached|reflexivity]. Qed.
