(** The operations of the database, one by one. *)
From Coq Require Import NArith List Bool Lia Sorted.
From Verif Require Import Prelude PreludeFacts StrOrder ComponentModel RelModel RelSpec RelProofs DbModel DbSpec DbFacts DbGenSpec DbGen.
Import ListNotations.
Local Open Scope N_scope.

(** ** Creating a record *)

(** What happens to an occurrence when record [n] of table [t] is created. *)
Definition shows (t n : N) (oc : tocc) : tocc :=
  if to_table oc =? t then mkTocc (to_found oc ++ [n]) (to_table oc) (lenN (to_found oc)) (to_related oc) else oc.

Definition created (d : db) (t : N) (tb : dtable) (n : N) : db :=
  mkDb (map (shows t n) (d_occs d)) (d_index d) (d_handle d) (updateN (d_tables d) t (fun _ => add_blank_record tb)) (d_graph d).

Lemma create_record_eq d o tb f0 fs :
  nthN (d_occs d) (d_handle d) = Some o -> nthN (d_tables d) (to_table o) = Some tb -> dt_fields tb = f0 :: fs ->
  create_record d = Ok (created d (to_table o) tb (lenN (df_records f0))).
Proof.
  intros H1 H2 H3. unfold create_record, get_current_occurrence, get_current_table, get_current_occurrence.
  rewrite (proj2 (at_ok _ _ _) H1). cbn [bind]. rewrite (proj2 (at_ok _ _ _) H2). cbn [bind].
  rewrite (put_some _ _ _ _ H2). cbn [bind]. unfold get_records_n, add_blank_record. rewrite H3. cbn [map dt_fields].
  unfold at_ at 1. rewrite nthN_0. cbn [unwrap bind df_records].
  rewrite lenN_app. change (lenN [[]]) with 1. unfold subU. replace (1 <=? lenN (df_records f0) + 1) with true by lia.
  cbn [bind]. unfold created, add_blank_record. rewrite H3. cbn [map].
  replace (lenN (df_records f0) + 1 - 1) with (lenN (df_records f0)) by lia.
  f_equal. f_equal. apply map_ext. intros oc. unfold shows. destruct (to_table oc =? to_table o); auto.
  f_equal. rewrite lenN_app. change (lenN [lenN (df_records f0)]) with 1. lia.
Qed.

Lemma create_record_panics d :
  (nthN (d_occs d) (d_handle d) = None \/
   (exists o, nthN (d_occs d) (d_handle d) = Some o /\ nthN (d_tables d) (to_table o) = None) \/
   (exists o tb, nthN (d_occs d) (d_handle d) = Some o /\ nthN (d_tables d) (to_table o) = Some tb /\ dt_fields tb = [])) ->
  create_record d = Panic.
Proof.
  unfold create_record, get_current_occurrence, get_current_table, get_current_occurrence, at_.
  intros [H|[(o & H1 & H2)|(o & tb & H1 & H2 & H3)]].
  - rewrite H. reflexivity.
  - rewrite H1. cbn [unwrap bind]. rewrite H2. reflexivity.
  - rewrite H1. cbn [unwrap bind]. rewrite H2. cbn [unwrap bind]. rewrite (put_some _ _ _ _ H2). cbn [bind].
    unfold get_records_n, add_blank_record. rewrite H3. reflexivity.
Qed.

Lemma create_record_ok d d' : create_record d = Ok d' <->
  exists o tb f0 fs, nthN (d_occs d) (d_handle d) = Some o /\ nthN (d_tables d) (to_table o) = Some tb /\
    dt_fields tb = f0 :: fs /\ d' = created d (to_table o) tb (lenN (df_records f0)).
Proof.
  split.
  - intros H. destruct (nthN (d_occs d) (d_handle d)) as [o|] eqn:H1; [|rewrite create_record_panics in H by auto; discriminate].
    destruct (nthN (d_tables d) (to_table o)) as [tb|] eqn:H2; [|rewrite create_record_panics in H by eauto; discriminate].
    destruct (dt_fields tb) as [|f0 fs] eqn:H3; [rewrite create_record_panics in H by eauto 8; discriminate|].
    rewrite (create_record_eq _ _ _ _ _ H1 H2 H3) in H. inversion H. exists o, tb, f0, fs. auto.
  - intros (o & tb & f0 & fs & H1 & H2 & H3 & ->). eapply create_record_eq; eauto.
Qed.

Lemma created_cell d t tb n : nthN (d_tables d) t = Some tb -> holds tb n -> forall p,
  cell (created d t tb n) p =
  if (fst (fst p) =? t) && (snd p =? n) && (snd (fst p) <? lenN (dt_fields tb)) then Some [] else cell d p.
Proof.
  intros H1 H2 [[t' f'] r']. cbn [fst snd]. unfold cell, created. cbn [d_tables]. rewrite updateN_nth.
  destruct (N.eqb_spec t t') as [E|E].
  - subst t'. rewrite N.eqb_refl. rewrite H1. cbn [option_map andb]. unfold add_blank_record. cbn [dt_fields].
    rewrite nthN_map. destruct (nthN (dt_fields tb) f') as [fd|] eqn:Ef; cbn [option_map df_records].
    + pose proof (nthN_lt _ _ _ Ef). replace (f' <? lenN (dt_fields tb)) with true by lia. rewrite andb_true_r.
      assert (Hn : lenN (df_records fd) = n).
      { unfold holds in H2. rewrite Forall_forall in H2. apply H2. eapply nthN_In; eauto. }
      destruct (N.eqb_spec r' n).
      * subst r'. rewrite <- Hn. apply nthN_app_len.
      * destruct (N.lt_ge_cases r' n).
        -- apply nthN_app_l. lia.
        -- rewrite (proj2 (nthN_None (df_records fd) r')) by lia. apply nthN_None. rewrite lenN_app. change (lenN [[]]) with 1. lia.
    + apply nthN_None in Ef. replace (f' <? lenN (dt_fields tb)) with false by lia. now rewrite andb_false_r.
  - replace (t' =? t) with false by lia. reflexivity.
Qed.

(** ** Writing *)

Definition shape (tb : dtable) : list N * list (list N * N) :=
  (dt_name tb, map (fun f => (df_name f, lenN (df_records f))) (dt_fields tb)).

Lemma holds_shape tb n : holds tb n <-> Forall (fun e => snd e = n) (snd (shape tb)).
Proof. unfold holds, shape. cbn. now rewrite Forall_map. Qed.

Lemma record_of_shape d d' t r :
  map shape (d_tables d') = map shape (d_tables d) -> record_of d t r -> record_of d' t r.
Proof.
  intros E (tb & n & H1 & H2 & H3 & H4).
  assert (E' : option_map shape (nthN (d_tables d') t) = option_map shape (nthN (d_tables d) t)) by (now rewrite <- !nthN_map, E).
  rewrite H1 in E'. destruct (nthN (d_tables d') t) as [tb'|] eqn:E1; [|discriminate]. cbn in E'. inversion E' as [[En Es]].
  exists tb', n. split; auto. split; [|split; auto].
  - intros Hn. rewrite Hn in Es. cbn in Es. destruct (dt_fields tb); [congruence|discriminate].
  - apply holds_shape. apply holds_shape in H3. unfold shape in *. cbn in *. now rewrite Es.
Qed.

Lemma updateN_map {A B} (g : A -> B) l i x a : nthN l i = Some a -> g x = g a -> map g (updateN l i (fun _ => x)) = map g l.
Proof.
  intros H E. apply nth_ext. intros j. rewrite !nthN_map, updateN_nth. destruct (N.eqb_spec i j); auto.
  subst. rewrite H. cbn. now rewrite E.
Qed.

Lemma read_place_cell d p : read_place d p = unwrap (cell d p).
Proof.
  destruct p as [[t f] r]. unfold read_place, cell, at_. destruct (nthN (d_tables d) t) as [tb|]; cbn; auto.
  destruct (nthN (dt_fields tb) f) as [fd|]; cbn; auto.
Qed.

Lemma place_eq_dec (p q : N * N * N) : {p = q} + {p <> q}.
Proof. repeat decide equality. Qed.

Lemma write_place_ok d p v old : cell d p = Some old ->
  exists d', write_place d p v = Ok d' /\ d_occs d' = d_occs d /\ d_index d' = d_index d /\ d_handle d' = d_handle d /\
    d_graph d' = d_graph d /\ map shape (d_tables d') = map shape (d_tables d) /\
    (forall q, cell d' q = if place_eq_dec p q then Some v else cell d q).
Proof.
  destruct p as [[t f] r]. unfold cell at 1, write_place. intros H.
  destruct (nthN (d_tables d) t) as [tb|] eqn:Et; [|discriminate].
  destruct (nthN (dt_fields tb) f) as [fd|] eqn:Ef; [|discriminate].
  rewrite (proj2 (at_ok _ _ _) Et). cbn [bind]. rewrite (proj2 (at_ok _ _ _) Ef). cbn [bind].
  rewrite (put_some _ _ _ _ H). cbn [bind]. rewrite (put_some _ _ _ _ Ef). cbn [bind].
  rewrite (put_some _ _ _ _ Et). cbn [bind].
  eexists. split; [reflexivity|]. cbn. repeat (split; [reflexivity|]). split.
  - eapply updateN_map; eauto. unfold shape. cbn. f_equal. eapply updateN_map; eauto. cbn. now rewrite updateN_len.
  - intros [[t' f'] r']. unfold cell. cbn [d_tables with_tables]. rewrite updateN_nth.
    destruct (N.eqb_spec t t') as [E|E].
    + subst t'. rewrite Et. cbn [option_map dt_fields]. rewrite updateN_nth. destruct (N.eqb_spec f f') as [E|E].
      * subst f'. rewrite Ef. cbn [option_map df_records]. rewrite updateN_nth. destruct (N.eqb_spec r r') as [E|E].
        -- subst r'. rewrite H. cbn. destruct (place_eq_dec (t, f, r) (t, f, r)); congruence.
        -- destruct (place_eq_dec (t, f, r) (t, f, r')); congruence.
      * destruct (place_eq_dec (t, f, r) (t, f', r')); congruence.
    + destruct (place_eq_dec (t, f, r) (t', f', r')); congruence.
Qed.

(** ** Naming a place *)

(** The first field with a name. *)
Definition named_first (tb : dtable) (field : list N) (i : N) : Prop :=
  (exists fd, nthN (dt_fields tb) i = Some fd /\ df_name fd = field) /\
  forall j fd, j < i -> nthN (dt_fields tb) j = Some fd -> df_name fd <> field.

Lemma filter_enumerate (p : dfield -> bool) : forall l i,
  match filter (fun e => p (snd e)) (enumerate_from i l) with
  | [] => forall x, In x l -> p x = false
  | (j, x) :: _ => exists k, j = i + k /\ nthN l k = Some x /\ p x = true /\ forall k' y, k' < k -> nthN l k' = Some y -> p y = false
  end.
Proof.
  induction l as [|x l IH]; intros i; cbn [enumerate_from filter snd].
  - intros ? [].
  - destruct (p x) eqn:E.
    + exists 0. split; [lia|]. split; [apply nthN_0|]. split; auto. intros; lia.
    + specialize (IH (i + 1)). destruct (filter _ (enumerate_from (i + 1) l)) as [|[j y] l'].
      * intros z [->|H]; auto.
      * destruct IH as (k & -> & H1 & H2 & H3). exists (1 + k). split; [lia|]. rewrite nthN_succ. split; auto. split; auto.
        intros k' z Hk Hz. destruct (N.eq_dec k' 0) as [->|Hn].
        -- rewrite nthN_0 in Hz. congruence.
        -- replace k' with (1 + (k' - 1)) in Hz by lia. rewrite nthN_succ in Hz. apply (H3 (k' - 1)); auto. lia.
Qed.

Lemma first_index_ok tb field i : first_index (dt_fields tb) field = Ok i <-> named_first tb field i.
Proof.
  unfold first_index, enumerate. pose proof (filter_enumerate (fun f => str_eqb (df_name f) field) (dt_fields tb) 0) as H.
  destruct (filter _ (enumerate_from 0 (dt_fields tb))) as [|[j x] l'].
  - cbn. split; [discriminate|]. intros ((fd & H1 & H2) & _). exfalso.
    specialize (H fd (nthN_In _ _ _ H1)). rewrite H2, str_eqb_refl in H. discriminate.
  - destruct H as (k & -> & H1 & H2 & H3). unfold at_. rewrite nthN_0. cbn [unwrap bind fst].
    apply str_eqb_eq in H2. replace (0 + k) with k by lia. split.
    + intros E. assert (k = i) by congruence. subst k. split; [eauto|].
      intros j fd Hj Hd Hn. specialize (H3 _ _ Hj Hd). rewrite Hn, str_eqb_refl in H3. discriminate.
    + intros ((fd & E1 & E2) & F). f_equal. destruct (N.lt_trichotomy k i) as [Hl|[Hl|Hl]]; auto; exfalso.
      * eapply F; eauto.
      * specialize (H3 _ _ Hl E1). rewrite E2, str_eqb_refl in H3. discriminate.
Qed.

Lemma first_named_ok tb field fd : first_named (dt_fields tb) field = Ok fd <->
  exists i, named_first tb field i /\ nthN (dt_fields tb) i = Some fd.
Proof.
  unfold first_named. assert (G : forall l, match filter (fun f => str_eqb (df_name f) field) l with
    | [] => forall x, In x l -> df_name x <> field
    | x :: _ => exists k, nthN l k = Some x /\ df_name x = field /\ forall k' y, k' < k -> nthN l k' = Some y -> df_name y <> field end).
  { induction l as [|x l IH]; cbn [filter]; [intros ? []|].
    destruct (str_eqb_spec (df_name x) field).
    - exists 0. split; [apply nthN_0|]. split; auto. intros; lia.
    - destruct (filter (fun f => str_eqb (df_name f) field) l) as [|y l'].
      + intros z [->|Hz]; auto.
      + destruct IH as (k & H1 & H2 & H3). exists (1 + k). rewrite nthN_succ. split; auto. split; auto.
        intros k' z Hk Hz. destruct (N.eq_dec k' 0) as [->|Hn].
        * rewrite nthN_0 in Hz. congruence.
        * replace k' with (1 + (k' - 1)) in Hz by lia. rewrite nthN_succ in Hz. apply (H3 (k' - 1)); auto. lia. }
  specialize (G (dt_fields tb)). destruct (filter _ (dt_fields tb)) as [|x l'].
  - cbn. split; [discriminate|]. intros (i & ((fd' & H1 & H2) & _) & _). exfalso. eapply G; eauto. eapply nthN_In; eauto.
  - destruct G as (k & H1 & H2 & H3). unfold at_. rewrite nthN_0. cbn [unwrap]. split.
    + intros E. assert (x = fd) by congruence. subst x. exists k. split; auto. split; [eauto|]. intros j fd' Hj Hd. exact (H3 _ _ Hj Hd).
    + intros (i & ((fd' & E1 & E2) & F) & E3). f_equal. destruct (N.lt_trichotomy k i) as [Hl|[Hl|Hl]].
      * exfalso. exact (F _ _ Hl H1 H2).
      * congruence.
      * exfalso. exact (H3 _ _ Hl E1 E2).
Qed.

Lemma named_first_fun tb field i j : named_first tb field i -> named_first tb field j -> i = j.
Proof. rewrite <- !first_index_ok. congruence. Qed.

Lemma current_place_ok d o field p : current_place d o field = Ok (ROk p) <->
  exists r tb i v, nthN (to_found o) (to_ptr o) = Some r /\ nthN (d_tables d) (to_table o) = Some tb /\
    named_first tb field i /\ p = (to_table o, i, r) /\ cell d p = Some v.
Proof.
  unfold current_place, get_current_record. destruct (nthN (to_found o) (to_ptr o)) as [r|] eqn:Er.
  2:{ split; [discriminate|]. intros (r & ? & ? & ? & ? & _). discriminate. }
  split.
  - intros H. apply bind_ok in H as (tb & H1%at_ok & H). apply bind_ok in H as (i & H2%first_index_ok & H).
    apply bind_ok in H as (v & H3 & H). rewrite read_place_cell, unwrap_ok in H3. inversion H. exists r, tb, i, v. auto.
  - intros (r' & tb & i & v & Hr & H1 & H2 & -> & H3). assert (r' = r) by congruence. subst r'.
    apply bind_ok. exists tb. rewrite at_ok. split; auto. apply bind_ok. exists i. rewrite first_index_ok. split; auto.
    apply bind_ok. exists v. rewrite read_place_cell, unwrap_ok. auto.
Qed.

(** ** Moving about *)
Lemma pointer_ok_current o : pointer_ok o -> to_found o <> [] -> exists r, get_current_record o = Some r.
Proof.
  unfold pointer_ok, get_current_record. destruct (to_found o) as [|x l] eqn:E; [congruence|].
  intros H _. apply nthN_ex. auto.
Qed.
