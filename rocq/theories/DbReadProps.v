(** C74-C76: reading from the database of the test runner, and deleting. *)
From Coq Require Import Ascii String NArith List Bool Lia Sorted.
From Verif Require Import Prelude PreludeFacts StrOrder StrOrderFacts Utf8 ComponentModel RelModel RelSpec RelProofs RelSearch
  DbModel DbGenSpec DbSpec DbFacts DbGen DbProofs DbInv DbLookup DbProps DbReadSpec DbRead.
Import ListNotations.
Local Open Scope N_scope.

(** C74: what reading a field of the shown table gives: the whole column, the value of the current record, that of a record by number. *)
Theorem C74_read : forall d o tb field i, shown d o tb -> field_at tb field i ->
  (exists column, get_field_vals_for_current_table d field = Ok column /\ forall k, nthN column k = cell d (to_table o, i, k)) /\
  get_current_record_field d field =
    match get_current_record o with
    | None => Ok []
    | Some r => match cell d (to_table o, i, r) with Some v => Ok v | None => Panic end
    end /\
  get_found_set_record_field d field =
    match get_current_record o with
    | None => Panic
    | Some r => match cell d (to_table o, i, r) with Some v => Ok v | None => Panic end
    end /\
  forall k, get_record_by_field d field k =
    match get_current_record o with
    | None => Ok (RErr tt)
    | Some _ => match cell d (to_table o, i, k) with Some v => Ok (ROk v) | None => Panic end
    end.
Proof.
  intros d o tb field i [Ho Ht] Hat. pose proof Hat as ((fd & Hfd & Hn) & Hm).
  assert (Cell : forall k, cell d (to_table o, i, k) = nthN (df_records fd) k) by (intros k; apply (column_cell _ _ _ _ _ _ Ht Hfd)).
  assert (At : forall k, at_ (df_records fd) k = match nthN (df_records fd) k with Some v => Ok v | None => Panic end).
  { intros k. unfold at_. destruct (nthN (df_records fd) k); reflexivity. }
  pose proof (first_named_at _ _ _ _ Hat Hfd) as Fn.
  split; [|split; [|split]].
  - exists (df_records fd). split; [|intros k; now rewrite Cell]. unfold get_field_vals_for_current_table, get_current_table, get_current_occurrence.
    rewrite (proj2 (at_ok _ _ _) Ho). cbn [bind]. rewrite (proj2 (at_ok _ _ _) Ht). cbn [bind]. rewrite Fn. reflexivity.
  - unfold get_current_record_field, get_current_occurrence. rewrite (proj2 (at_ok _ _ _) Ho). cbn [bind].
    destruct (get_current_record o) as [r|]; auto. rewrite (proj2 (at_ok _ _ _) Ht). cbn [bind]. rewrite Fn. cbn [bind].
    now rewrite Cell, At.
  - unfold get_found_set_record_field, get_current_table, get_current_occurrence. rewrite (proj2 (at_ok _ _ _) Ho). cbn [bind].
    rewrite (proj2 (at_ok _ _ _) Ht). cbn [bind]. unfold at_ at 1. fold (get_current_record o).
    destruct (get_current_record o) as [r|]; auto. cbn [unwrap bind]. rewrite find_filter.
    unfold first_named, at_ in Fn. destruct (filter (fun f => str_eqb (df_name f) field) (dt_fields tb)) as [|f l]; [discriminate|].
    rewrite nthN_0 in Fn. cbn in Fn. cbn [hd_error]. inversion Fn; subst f. now rewrite Cell, At.
  - intros k. unfold get_record_by_field, get_current_occurrence. rewrite (proj2 (at_ok _ _ _) Ho). cbn [bind].
    destruct (get_current_record o) as [r|]; auto. rewrite (proj2 (at_ok _ _ _) Ht). cbn [bind]. rewrite Fn. cbn [bind].
    rewrite Cell, At. destruct (nthN (df_records fd) k); reflexivity.
Qed.
Print Assumptions C74_read.
Example C74_read_ex : exists o tb, shown (demo_db CEqual) o tb /\ field_at tb (lit "name") 2 /\ get_current_record o = Some 1 /\
  get_current_record_field (demo_db CEqual) (lit "name") = Ok (lit "Bo") /\
  get_record_by_field (demo_db CEqual) (lit "name") 0 = Ok (ROk (lit "Ann")) /\
  get_field_vals_for_current_table (demo_db CEqual) (lit "name") = Ok [lit "Ann"; lit "Bo"].
Proof.
  eexists. eexists. split; [split; reflexivity|]. split; [|split; [reflexivity|split; [reflexivity|split; reflexivity]]].
  split; [eexists; split; reflexivity|]. intros j fd Hj H.
  destruct (N.eq_dec j 0) as [->|]; [inversion H; discriminate|]. destruct (N.eq_dec j 1) as [->|]; [inversion H; discriminate|]. lia.
Qed.

(** C74: a name that no field of the table has: only the read through the found set forgives it. *)
Theorem C74_no_field : forall d o tb field, shown d o tb -> no_field tb field ->
  get_field_vals_for_current_table d field = Panic /\
  get_current_record_field d field = match get_current_record o with None => Ok [] | Some _ => Panic end /\
  get_found_set_record_field d field = match get_current_record o with None => Panic | Some _ => Ok [] end /\
  forall k, get_record_by_field d field k = match get_current_record o with None => Ok (RErr tt) | Some _ => Panic end.
Proof.
  intros d o tb field [Ho Ht] Hn. pose proof (no_field_named _ _ Hn) as Fn. split; [|split; [|split]].
  - unfold get_field_vals_for_current_table, get_current_table, get_current_occurrence.
    rewrite (proj2 (at_ok _ _ _) Ho). cbn [bind]. rewrite (proj2 (at_ok _ _ _) Ht). cbn [bind]. now rewrite Fn.
  - unfold get_current_record_field, get_current_occurrence. rewrite (proj2 (at_ok _ _ _) Ho). cbn [bind].
    destruct (get_current_record o) as [r|]; auto. rewrite (proj2 (at_ok _ _ _) Ht). cbn [bind]. now rewrite Fn.
  - unfold get_found_set_record_field, get_current_table, get_current_occurrence. rewrite (proj2 (at_ok _ _ _) Ho). cbn [bind].
    rewrite (proj2 (at_ok _ _ _) Ht). cbn [bind]. unfold at_ at 1. fold (get_current_record o).
    destruct (get_current_record o) as [r|]; auto. cbn [unwrap bind]. rewrite find_filter, no_field_filter by auto. reflexivity.
  - intros k. unfold get_record_by_field, get_current_occurrence. rewrite (proj2 (at_ok _ _ _) Ho). cbn [bind].
    destruct (get_current_record o) as [r|]; auto. rewrite (proj2 (at_ok _ _ _) Ht). cbn [bind]. now rewrite Fn.
Qed.
Print Assumptions C74_no_field.
Example C74_no_field_ex : exists o tb, shown (demo_db CEqual) o tb /\ no_field tb (lit "colour") /\ get_current_record o = Some 1.
Proof.
  eexists. eexists. split; [split; reflexivity|]. split; [|reflexivity]. unfold no_field. cbn. intros [H|[H|[H|[]]]]; discriminate.
Qed.

(** C74: the current record of a database that was never cleared has every field of its table. *)
Theorem C74_current_value : forall d o tb field i, reached false d -> shown d o tb -> field_at tb field i ->
  to_found o <> [] -> exists v, get_current_record_field d field = Ok v /\ get_found_set_record_field d field = Ok v.
Proof.
  intros d o tb field i R Hs Hat Hf. pose proof Hs as [Ho Ht].
  destruct (current_record_exists d _ o R Ho) as [_ H]. destruct (H Hf) as (_ & r & Er & tb' & n & H1 & H2 & H3 & H4).
  destruct (C74_read d o tb field i Hs Hat) as (_ & E1 & E2 & _). rewrite E1, E2, Er.
  assert (tb' = tb) by congruence. subst tb'. pose proof Hat as ((fd & Hfd & _) & _).
  rewrite (column_cell _ _ _ _ _ _ Ht Hfd). unfold holds in H3. rewrite Forall_forall in H3.
  destruct (nthN_ex (df_records fd) r) as (v & Hv); [rewrite (H3 fd) by (eapply nthN_In; eauto); exact H4|].
  exists v. rewrite Hv. auto.
Qed.
Print Assumptions C74_current_value.
Example C74_current_value_ex : reached false (demo_db CEqual) /\ exists o tb, shown (demo_db CEqual) o tb /\ field_at tb (lit "") 0 /\ to_found o = [0; 1].
Proof.
  split; [apply demo_reached|]. eexists. eexists. split; [split; reflexivity|]. split; [|reflexivity].
  split; [eexists; split; reflexivity|]. intros. lia.
Qed.

(** C74: tables by name: the first of that name. *)
Theorem C74_table_by_name : forall d name,
  (forall tb, get_table d name = Some tb <-> exists t, nthN (d_tables d) t = Some tb /\ dt_name tb = name /\
     forall t' tb', t' < t -> nthN (d_tables d) t' = Some tb' -> dt_name tb' <> name) /\
  (get_table d name = None <-> ~ In name (map dt_name (d_tables d))).
Proof.
  intros d name. unfold get_table.
  assert (X : forall l, match find (fun t => str_eqb (dt_name t) name) l with
    | Some tb => exists t, nthN l t = Some tb /\ dt_name tb = name /\ forall t' tb', t' < t -> nthN l t' = Some tb' -> dt_name tb' <> name
    | None => ~ In name (map dt_name l)
    end).
  { induction l as [|x l IH]; cbn [find map In]; [tauto|]. destruct (str_eqb_spec (dt_name x) name) as [E|E].
    - exists 0. rewrite nthN_0. split; auto. split; auto. intros; lia.
    - destruct (find (fun t => str_eqb (dt_name t) name) l) as [tb|].
      + destruct IH as (t & H1 & H2 & H3). exists (1 + t). rewrite nthN_succ. split; auto. split; auto.
        intros t' tb' Ht H. destruct (N.eq_dec t' 0) as [->|Hz]; [rewrite nthN_0 in H; congruence|].
        replace t' with (1 + (t' - 1)) in H by lia. rewrite nthN_succ in H. apply (H3 (t' - 1)); auto. lia.
      + tauto. }
  specialize (X (d_tables d)). destruct (find (fun t => str_eqb (dt_name t) name) (d_tables d)) as [tb|].
  - split.
    + intros tb'. split; [intros H; inversion H; subst; exact X|]. intros (t' & H1 & H2 & H3). destruct X as (t & X1 & X2 & X3).
      destruct (N.lt_trichotomy t t') as [L|[L|L]].
      * exfalso. eapply H3; eauto.
      * subst. congruence.
      * exfalso. eapply X3; eauto.
    + split; [discriminate|]. intros H. exfalso. apply H. destruct X as (t & X1 & X2 & _). rewrite <- X2. apply in_map. eapply nthN_In; eauto.
  - split; [|split; auto]. intros tb. split; [discriminate|]. intros (t & H1 & H2 & _). exfalso. apply X. rewrite <- H2. apply in_map.
    eapply nthN_In; eauto.
Qed.
Print Assumptions C74_table_by_name.
Example C74_table_by_name_ex : option_map dt_name (get_table (demo_db CEqual) (lit "order")) = Some (lit "order") /\
  get_table (demo_db CEqual) (lit "colour") = None.
Proof. split; reflexivity. Qed.

Lemma nth_firstn {A} (l : list A) : forall n j, (j < n)%nat -> nth_error (firstn n l) j = nth_error l j.
Proof.
  induction l as [|x l IH]; intros [|n] [|j] H; cbn; auto; try lia. apply IH. lia.
Qed.
Lemma nth_skipn {A} (l : list A) : forall n j, nth_error (skipn n l) j = nth_error l (n + j).
Proof. induction l as [|x l IH]; intros [|n] j; cbn; auto. now destruct j. Qed.

(** C75: deleting record number [k] of a table removes its field number [k]; the values of the other fields stay. *)
Theorem C75_removes_field : forall tb k,
  (k < lenN (dt_fields tb) -> exists tb', delete_record tb k = Ok tb' /\ dt_name tb' = dt_name tb /\
     forall j, nthN (dt_fields tb') j = nthN (dt_fields tb) (if j <? k then j else j + 1)) /\
  (lenN (dt_fields tb) <= k -> delete_record tb k = Panic).
Proof.
  intros tb k. unfold delete_record. split.
  - intros H. destruct (nthN_ex _ _ H) as (x & Hx). rewrite (proj2 (at_ok _ _ _) Hx). cbn [bind]. eexists. split; [reflexivity|].
    split; [reflexivity|]. cbn [dt_fields]. intros j. rewrite !nthN_nth_error. unfold lenN in H.
    assert (Hl : length (firstn (N.to_nat k) (dt_fields tb)) = N.to_nat k) by (rewrite firstn_length; lia).
    destruct (N.ltb_spec j k).
    + rewrite nth_error_app1 by lia. rewrite nth_firstn by lia. reflexivity.
    + rewrite nth_error_app2 by lia. rewrite Hl. rewrite nth_skipn. f_equal. lia.
  - intros H. unfold at_. rewrite (proj2 (nthN_None _ _) H). reflexivity.
Qed.
Print Assumptions C75_removes_field.
Example C75_removes_field_ex : exists tb tb', nthN (d_tables (demo_db CEqual)) 1 = Some tb /\ field_names tb = [[]; lit "id"; lit "name"] /\
  delete_record tb 1 = Ok tb' /\ field_names tb' = [[]; lit "name"] /\ delete_record tb 3 = Panic.
Proof. do 2 eexists. repeat split. Qed.

(** C75: so it does not delete the record. *)
Theorem C75_deletes_refuted : exists d t tb tb' k n, reached false d /\ nthN (d_tables d) t = Some tb /\ holds tb n /\ k < n /\
  delete_record tb k = Ok tb' /\ holds tb' n /\ lenN (dt_fields tb') <> lenN (dt_fields tb).
Proof.
  exists (demo_db CEqual), 1. eexists. eexists. exists 1, 2. split; [apply demo_reached|]. split; [reflexivity|].
  split; [repeat constructor|]. split; [lia|]. split; [reflexivity|]. split; [repeat constructor|vm_compute; discriminate].
Qed.
Print Assumptions C75_deletes_refuted.

(** C75: and a record may be there that it cannot delete. *)
Theorem C75_possible_refuted : exists d t tb k n, reached false d /\ nthN (d_tables d) t = Some tb /\ holds tb n /\ k < n /\
  delete_record tb k = Panic.
Proof.
  exists (the db_new (shop_db CEqual [OCreate; OCreate; OCreate; OCreate])), 1. eexists. exists 3, 4. split.
  - apply (shop_reached CEqual false [OCreate; OCreate; OCreate; OCreate]); [reflexivity| |vm_compute; reflexivity].
    cbn. intuition discriminate.
  - split; [reflexivity|]. split; [repeat constructor|]. split; [lia|reflexivity].
Qed.
Print Assumptions C75_possible_refuted.

(** C76: a field of an occurrence that is several relations away. *)
Theorem C76_lookup : forall cl d oname field t p b o r rel v ot tb i,
  reached cl d -> sget (d_index d) oname = Some t ->
  (exists ks, leads (d_graph d) (d_handle d) ks t (d_handle d :: b :: p) /\
     forall js q, leads (d_graph d) (d_handle d) js t q -> js = ks \/ earlier ks js) ->
  comparable d (d_handle d :: b :: p) ->
  nthN (d_occs d) (d_handle d) = Some o -> get_current_record o = Some r -> link d (d_handle d) b rel ->
  cell d (to_table o, rs_field1 rel, r) = Some v ->
  nthN (d_occs d) t = Some ot -> nthN (d_tables d) (to_table ot) = Some tb -> field_at tb field i ->
  (forall ks, positioned d (d_handle d :: b :: p) -> first_trail d (d_handle d :: b :: p) v ks ->
     exists w, cell d (to_table ot, i, last ks 0) = Some w /\ get_related_record_field d oname field = Ok (ROk w)) /\
  (~ positioned d (d_handle d :: b :: p) \/ (forall ks, ~ trail d (d_handle d :: b :: p) v ks) ->
     get_related_record_field d oname field = Ok (RErr tt)).
Proof.
  intros cl d oname field t p b o r rel v ot tb i R Hi Hp. apply reached_sound in R.
  assert (Hp' : get_path (d_graph d) (d_handle d) t = Ok (Some (d_handle d :: b :: p))).
  { destruct (s_graph _ R) as (es & Rg). destruct (related_built _ _ Rg) as (es' & B). now apply (get_path_first _ _ _ _ _ B). }
  now apply lookup_path.
Qed.
Print Assumptions C76_lookup.

(** Two relations that compare the same values: customer 8 has order 8, and that has a line 8. *)
Definition chain_ops : list op :=
  [OCreate; OWrite (lit "customer") (lit "id") (lit "8");
   OLayout 2; OCreate; OWrite (lit "order") (lit "customer") (lit "7"); OCreate; OWrite (lit "order") (lit "customer") (lit "8");
   OLayout 3; OCreate; OWrite (lit "line") (lit "order") (lit "8"); OWrite (lit "line") (lit "text") (lit "tea");
   OLayout 1].
Definition chain_db : db := Eval vm_compute in the db_new (shop_db CEqual chain_ops).
Example C76_lookup_ex : reached false chain_db /\ sget (d_index chain_db) (lit "line") = Some 3 /\
  get_path (d_graph chain_db) (d_handle chain_db) 3 = Ok (Some [1; 2; 3]) /\ comparable chain_db [1; 2; 3] /\ positioned chain_db [1; 2; 3] /\
  first_trail chain_db [1; 2; 3] (lit "8") [1; 0] /\ get_related_record_field chain_db (lit "line") (lit "text") = Ok (ROk (lit "tea")).
Proof.
  split; [apply (shop_reached CEqual false chain_ops); [reflexivity|cbn; intuition discriminate|vm_compute; reflexivity]|].
  split; [reflexivity|]. split; [reflexivity|]. split; [|split; [|split; [|reflexivity]]].
  - cbn [comparable]. split; [|split; [|exact I]]; intros rel L; pose proof L as (o & _ & _ & Ho & _); apply (filter_link _ _ _ _ Ho) in L;
      vm_compute in Ho; inversion Ho; subst o; vm_compute in L; inversion L; subst rel; eexists; eexists; eexists;
      (split; [reflexivity|]); (split; reflexivity).
  - intros a o [<-|[<-|[]]] H; vm_compute in H; inversion H; subst o; discriminate.
  - assert (L12 : link chain_db 1 2 (mkRset CEqual 1 2 2 [])) by (eapply (filter_link chain_db 1 2); reflexivity).
    assert (L23 : link chain_db 2 3 (mkRset CEqual 1 1 3 [])) by (eapply (filter_link chain_db 2 3); reflexivity).
    split.
    + eapply TrailHop; [exact L12|reflexivity|reflexivity|reflexivity|]. eapply TrailHop; [exact L23|reflexivity|reflexivity|reflexivity|]. constructor.
    + intros ks' T. inversion T as [|a b path v rel o k w ks X1 X2 X3 X4 X5]; subst. pose proof (link_fun _ _ _ _ _ X1 L12). subst rel.
      inversion X2; subst o. cbn [to_table rs_field2] in X3.
      destruct (N.eq_dec k 0) as [->|N0]; [vm_compute in X3; inversion X3; subst w; vm_compute in X4; discriminate|].
      destruct (N.eq_dec k 1) as [->|N1]; [|exfalso; erewrite column_cell in X3 by reflexivity; cbn [df_records] in X3;
        replace k with (1 + (1 + (k - 2))) in X3 by lia; rewrite !nthN_succ in X3; rewrite nthN_nth_error in X3;
        destruct (N.to_nat (k - 2)); discriminate].
      vm_compute in X3. inversion X3; subst w.
      inversion X5 as [|a b path v rel o k w ks1 Y1 Y2 Y3 Y4 Y5]; subst. pose proof (link_fun _ _ _ _ _ Y1 L23). subst rel.
      inversion Y2; subst o. inversion Y5; subst.
      destruct (N.eq_dec k 0) as [->|M0]; [now left|]. right. apply BeforeNext. apply BeforeHere. lia.
Qed.

(** C76: that is not what the relations say: the second comparison should use the field of the record it starts from. *)
Definition joined_ops : list op :=
  [OCreate; OWrite (lit "customer") (lit "id") (lit "8");
   OLayout 2; OCreate; OWrite (lit "order") (lit "id") (lit "30"); OWrite (lit "order") (lit "customer") (lit "8");
   OLayout 3; OCreate; OWrite (lit "line") (lit "order") (lit "30"); OWrite (lit "line") (lit "text") (lit "tea");
   OLayout 1].
Definition joined_db : db := Eval vm_compute in the db_new (shop_db CEqual joined_ops).
Theorem C76_join_refuted : exists d oname field t path o r ks ot tb i w,
  reached false d /\ sget (d_index d) oname = Some t /\ get_path (d_graph d) (d_handle d) t = Ok (Some path) /\ positioned d path /\
  nthN (d_occs d) (d_handle d) = Some o /\ get_current_record o = Some r /\ joined d path r ks /\
  nthN (d_occs d) t = Some ot /\ nthN (d_tables d) (to_table ot) = Some tb /\ field_at tb field i /\
  cell d (to_table ot, i, last ks 0) = Some w /\ get_related_record_field d oname field = Ok (RErr tt).
Proof.
  exists joined_db, (lit "line"), (lit "text"), 3, [1; 2; 3]. eexists. exists 0, [0; 0]. eexists. eexists. exists 2, (lit "tea").
  split; [apply (shop_reached CEqual false joined_ops); [reflexivity|cbn; intuition discriminate|vm_compute; reflexivity]|].
  split; [reflexivity|]. split; [reflexivity|]. split.
  { intros a o [<-|[<-|[]]] H; vm_compute in H; inversion H; subst o; discriminate. }
  split; [reflexivity|]. split; [reflexivity|]. split.
  { assert (L12 : link joined_db 1 2 (mkRset CEqual 1 2 2 [])) by (eapply (filter_link joined_db 1 2); reflexivity).
    assert (L23 : link joined_db 2 3 (mkRset CEqual 1 1 3 [])) by (eapply (filter_link joined_db 2 3); reflexivity).
    eapply JoinedHop; [exact L12|reflexivity|reflexivity|reflexivity|reflexivity|reflexivity|].
    eapply JoinedHop; [exact L23|reflexivity|reflexivity|reflexivity|reflexivity|reflexivity|]. apply JoinedEnd. }
  split; [reflexivity|]. split; [reflexivity|]. split; [|split; [vm_compute|]; reflexivity].
  split; [eexists; split; reflexivity|]. intros j fd Hj H.
  destruct (N.eq_dec j 0) as [->|]; [inversion H; discriminate|]. destruct (N.eq_dec j 1) as [->|]; [inversion H; discriminate|]. lia.
Qed.
Print Assumptions C76_join_refuted.
