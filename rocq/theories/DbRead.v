(** Lemmas on reading from the database. *)
From Coq Require Import NArith List Bool Lia Sorted.
From Verif Require Import Prelude PreludeFacts StrOrder StrOrderFacts ComponentModel RelModel RelSpec RelProofs RelSearch
  DbModel DbGenSpec DbSpec DbFacts DbGen DbProofs DbInv DbLookup DbReadSpec.
Import ListNotations.
Local Open Scope N_scope.

Lemma no_field_filter fs field : ~ In field (map df_name fs) -> filter (fun f => str_eqb (df_name f) field) fs = [].
Proof.
  induction fs as [|f fs IH]; intros H; cbn; auto. cbn in H. destruct (str_eqb_spec (df_name f) field); [tauto|]. apply IH. tauto.
Qed.

Lemma no_field_named tb field : no_field tb field -> first_named (dt_fields tb) field = Panic.
Proof. intros H. unfold first_named. rewrite no_field_filter; auto. Qed.

Lemma find_filter {A} (p : A -> bool) l : find p l = hd_error (filter p l).
Proof. induction l as [|x l IH]; cbn; auto. destruct (p x); auto. Qed.

(** ** Relations *)
Lemma filter_link d a b o : nthN (d_occs d) a = Some o -> forall rel,
  link d a b rel <-> hd_error (filter (fun x => rs_occ x =? b) (to_related o)) = Some rel.
Proof.
  intros Ho rel. unfold link. split.
  - intros (o' & l1 & l2 & H1 & H2 & H3 & H4). rewrite Ho in H1. inversion H1; subst o'. rewrite H2. clear - H3 H4.
    induction H4 as [|x l1 Hx Hl IH]; cbn.
    + now rewrite (proj2 (N.eqb_eq _ _) H3).
    + destruct (N.eqb_spec (rs_occ x) b); [congruence|]. exact IH.
  - intros H. assert (X : exists l1 l2, to_related o = l1 ++ rel :: l2 /\ rs_occ rel = b /\ Forall (fun x => rs_occ x <> b) l1).
    { induction (to_related o) as [|x l IH]; cbn in H; [discriminate|]. destruct (N.eqb_spec (rs_occ x) b) as [E|E].
      - inversion H; subst. exists [], l. auto.
      - destruct (IH H) as (l1 & l2 & E1 & E2 & E3). exists (x :: l1), l2. rewrite E1. auto. }
    destruct X as (l1 & l2 & X1 & X2 & X3). exists o, l1, l2. auto.
Qed.

Lemma link_fun d a b r1 r2 : link d a b r1 -> link d a b r2 -> r1 = r2.
Proof.
  intros H1 H2. destruct H1 as (o & l1 & l2 & Ho & H1). assert (L1 : link d a b r1) by (exists o, l1, l2; auto).
  rewrite (filter_link _ _ _ _ Ho) in L1, H2. congruence.
Qed.

(** Consecutive occurrences are related. *)
Fixpoint linked (d : db) (path : list N) : Prop :=
  match path with
  | a :: ((b :: _) as path') => (exists rel, link d a b rel) /\ linked d path'
  | _ => True
  end.

Lemma edge_link d a b : sound d -> edge (d_graph d) a b -> exists rel, link d a b rel.
Proof.
  intros S E. apply (s_edges _ S) in E as (o & Ho & Hin). apply in_map_iff in Hin as (r & Hr & Hi).
  destruct (filter (fun x => rs_occ x =? b) (to_related o)) as [|rel l] eqn:F.
  - exfalso. assert (In r (filter (fun x => rs_occ x =? b) (to_related o))) by (apply filter_In; split; auto; now apply N.eqb_eq).
    rewrite F in H. destruct H.
  - exists rel. apply (filter_link _ _ _ _ Ho). now rewrite F.
Qed.

Lemma walk_linked d a p t : sound d -> walk (d_graph d) a p t -> linked d p /\ exists q, p = a :: q.
Proof.
  intros S W. induction W as [x|x y p z E W (IH & q & ->)]; cbn; [eauto|]. split; [|eauto]. split; auto. now apply edge_link.
Qed.

Lemma walk_last g a p t : walk g a p t -> nthN p (lenN p - 1) = Some t.
Proof.
  intros W. induction W as [x|x y p z E W IH]; [reflexivity|].
  assert (0 < lenN p) by (destruct W; rewrite lenN_cons; lia).
  rewrite lenN_cons. replace (1 + lenN p - 1) with (1 + (lenN p - 1)) by lia. now rewrite nthN_succ.
Qed.

(** ** Lists with numbers *)
Lemma enumerate_In {A} (l : list A) : forall i k x, In (k, x) (enumerate_from i l) <-> i <= k /\ nthN l (k - i) = Some x.
Proof.
  induction l as [|y l IH]; intros i k x; cbn [enumerate_from In].
  - split; [tauto|]. intros [_ H]. rewrite nthN_nth_error in H. destruct (N.to_nat (k - i)); discriminate.
  - rewrite IH. split.
    + intros [H|[H1 H2]].
      * inversion H; subst. split; [lia|]. rewrite N.sub_diag. apply nthN_0.
      * split; [lia|]. replace (k - i) with (1 + (k - (i + 1))) by lia. now rewrite nthN_succ.
    + intros [H1 H2]. destruct (N.eq_dec k i) as [->|E].
      * left. rewrite N.sub_diag, nthN_0 in H2. congruence.
      * right. split; [lia|]. replace (k - i) with (1 + (k - (i + 1))) in H2 by lia. now rewrite nthN_succ in H2.
Qed.

Lemma enumerate_sorted {A} (p : N * A -> bool) (l : list A) : forall i,
  StronglySorted (fun a b => fst a < fst b) (filter p (enumerate_from i l)).
Proof.
  induction l as [|y l IH]; intros i; cbn [enumerate_from filter]; [constructor|].
  destruct (p (i, y)); auto. constructor; auto. rewrite Forall_forall. intros [k x] H. apply filter_In in H as [H _].
  apply enumerate_In in H. cbn. lia.
Qed.

Lemma flat_map_split {A B} (f : A -> list B) l : forall s1 x s2, flat_map f l = s1 ++ x :: s2 ->
  exists t1 e t2 u1 u2, l = t1 ++ e :: t2 /\ f e = u1 ++ x :: u2 /\ s1 = flat_map f t1 ++ u1.
Proof.
  induction l as [|a l IH]; intros s1 x s2 H; cbn in H; [destruct s1; discriminate|].
  apply app_eq_app in H as (u & [[H1 H2]|[H1 H2]]).
  - destruct u as [|y u]; cbn in H2.
    + destruct (IH [] x s2) as (t1 & e & t2 & u1 & u2 & E1 & E2 & E3); [now rewrite H2|].
      exists (a :: t1), e, t2, u1, u2. cbn. rewrite E1, <- app_assoc, <- E3, app_nil_r, H1, app_nil_r. auto.
    + inversion H2; subst. exists [], a, l, s1, u. auto.
  - destruct (IH u x s2 H2) as (t1 & e & t2 & u1 & u2 & E1 & E2 & E3).
    exists (a :: t1), e, t2, u1, u2. cbn. rewrite E1, <- app_assoc, <- E3, H1. auto.
Qed.

Lemma last_cons {A} (x d : A) l : last (x :: l) d = last l x.
Proof.
  revert x d. induction l as [|y l IH]; intros x d; auto. change (last (x :: y :: l) d) with (last (y :: l) d). now rewrite !IH.
Qed.

(** ** Several relations in a row *)
Section Hops.
Context (d : db).

Lemma hops_eq a b path s : hops d (a :: b :: path) s =
  (o <- get_occurrence d a ;;
   match get_current_record o with
   | None => Ok (RErr tt)
   | Some r =>
     match filter (fun x => rs_occ x =? b) (to_related o) with
     | [] => Ok (RErr tt)
     | rel :: _ =>
       s <- (match s with
             | [] => tb <- get_current_table d ;; f <- at_ (dt_fields tb) (rs_field1 rel) ;; v <- at_ (df_records f) r ;; Ok [(r, v)]
             | _ => Ok s
             end) ;;
       ob <- get_occurrence d b ;;
       tb <- at_ (d_tables d) (to_table ob) ;;
       fd <- at_ (dt_fields tb) (rs_field2 rel) ;;
       match flat_map (fun lhs => filter (fun rhs => joins (rs_cmp rel) (snd lhs) (snd rhs)) (enumerate (df_records fd))) s with
       | [] => Ok (RErr tt)
       | s' => hops d (b :: path) s'
       end
     end
   end).
Proof.
  cbn [hops]. destruct (get_occurrence d a) as [o| |]; cbn [bind]; auto. destruct (get_current_record o); auto.
  destruct (filter _ (to_related o)); auto. destruct (match s with [] => _ | _ => _ end); cbn [bind]; auto.
  destruct (get_occurrence d b) as [ob| |]; cbn [bind]; auto. destruct (at_ (d_tables d) (to_table ob)) as [tb| |]; cbn [bind]; auto.
  destruct (at_ (dt_fields tb) _) as [fd| |]; cbn [bind]; auto. destruct (flat_map _ _); auto.
Qed.

(** The head of a result set: reached from the first entry with a trail, along the first of its trails. *)
Definition leads_first (path : list N) (s : list (N * list N)) (k : N) : Prop :=
  exists s1 k0 v s2 ks, s = s1 ++ (k0, v) :: s2 /\ (forall e ks', In e s1 -> ~ trail d path (snd e) ks') /\
    first_trail d path v ks /\ k = last ks k0.

Lemma hops_spec : forall path a s, linked d (a :: path) -> comparable d (a :: path) -> s <> [] ->
  (positioned d (a :: path) ->
     (exists k x s', hops d (a :: path) s = Ok (ROk ((k, x) :: s')) /\ leads_first (a :: path) s k) \/
     (hops d (a :: path) s = Ok (RErr tt) /\ forall e ks, In e s -> ~ trail d (a :: path) (snd e) ks)) /\
  (~ positioned d (a :: path) -> hops d (a :: path) s = Ok (RErr tt)).
Proof.
  induction path as [|b path IH]; intros a s L C Hs.
  - split.
    + intros _. left. destruct s as [|(k, v) s]; [congruence|]. exists k, v, s. split; auto.
      exists [], k, v, s, []. split; auto. split; [intros ? ? []|]. split; auto. split; [constructor|].
      intros ks' H. inversion H. auto.
    + intros P. exfalso. apply P. intros x o []. 
  - cbn [linked] in L. destruct L as ((rel & Lk) & L). cbn [comparable] in C. destruct C as (C1 & C).
    destruct (C1 _ Lk) as (ob & tb & fd & Hob & Htb & Hfd).
    pose proof Lk as (o & _ & _ & Ho & _).
    pose proof Lk as F. rewrite (filter_link _ _ _ _ Ho) in F.
    destruct (filter (fun x => rs_occ x =? b) (to_related o)) as [|rel' rest] eqn:Ef; [discriminate|]. cbn in F. inversion F; subst rel'.
    set (f := fun lhs : N * list N => filter (fun rhs : N * list N => joins (rs_cmp rel) (snd lhs) (snd rhs)) (enumerate (df_records fd))).
    assert (Step : hops d (a :: b :: path) s = match get_current_record o with
              | None => Ok (RErr tt)
              | Some _ => match flat_map f s with [] => Ok (RErr tt) | s' => hops d (b :: path) s' end end).
    { rewrite hops_eq. unfold get_occurrence at 1. rewrite (proj2 (at_ok _ _ _) Ho). cbn [bind].
      destruct (get_current_record o) as [r|]; auto. rewrite Ef. destruct s as [|e s]; [congruence|]. cbn [bind].
      unfold get_occurrence at 1. rewrite (proj2 (at_ok _ _ _) Hob). cbn [bind]. rewrite (proj2 (at_ok _ _ _) Htb). cbn [bind].
      rewrite (proj2 (at_ok _ _ _) Hfd). cbn [bind]. reflexivity. }
    assert (Inf : forall e k w, In (k, w) (f e) <-> cell d (to_table ob, rs_field2 rel, k) = Some w /\ relates (rs_cmp rel) (snd e) w).
    { intros e k w. unfold f. rewrite filter_In. unfold enumerate. rewrite enumerate_In, N.sub_0_r, (column_cell _ _ _ _ _ _ Htb Hfd).
      cbn [snd]. rewrite joins_relates. split; [intros [[_ H1] H2]; auto|]. intros [H1 H2]. split; auto. split; auto. lia. }
    assert (Tr : forall v ks, trail d (a :: b :: path) v ks <-> exists k w ks', ks = k :: ks' /\ In (k, w) (f (0, v)) /\ trail d (b :: path) w ks').
    { intros v ks. split.
      - intros H. inversion H as [|a0 b0 path0 v0 rel0 o0 k w ks0 X1 X2 X3 X4 X5]; subst. pose proof (link_fun _ _ _ _ _ Lk X1). subst rel0.
        exists k, w, ks0. split; auto. split; auto. apply Inf. cbn. assert (ob = o0) by congruence. subst. auto.
      - intros (k & w & ks' & -> & H1 & H2). apply Inf in H1 as [H3 H4]. eapply TrailHop; eauto. }
    rewrite Step. destruct (get_current_record o) as [r|] eqn:Er.
    + assert (Pp : positioned d (a :: b :: path) <-> positioned d (b :: path)).
      { unfold positioned. change (removelast (a :: b :: path)) with (a :: removelast (b :: path)). split.
        - intros H x ox Hx. apply H. now right.
        - intros H x ox [->|Hx]; [|eauto]. intros Hox. congruence. }
      destruct (flat_map f s) as [|e0 s0] eqn:Es.
      * assert (Nt : forall e ks, In e s -> ~ trail d (a :: b :: path) (snd e) ks).
        { intros e ks He Ht. apply Tr in Ht as (k & w & ks' & _ & H1 & _).
          assert (In (k, w) (flat_map f s)) by (apply in_flat_map; exists e; split; auto). rewrite Es in H. destruct H. }
        split; auto.
      * rewrite <- Es in *. destruct (IH b (flat_map f s)) as [I1 I2]; auto; [rewrite Es; discriminate|].
        rewrite Pp. split; auto. intros P. destruct (I1 P) as [(k & x & s' & H1 & H2)|(H1 & H2)].
        -- left. exists k, x, s'. rewrite Es in *. split; auto. destruct H2 as (s1 & k0 & v & s2 & ks & E1 & N1 & (T1 & T2) & Ek).
           rewrite <- Es in E1. destruct (flat_map_split _ _ _ _ _ E1) as (t1 & e & t2 & u1 & u2 & E2 & E3 & E4).
           destruct e as [ke ve]. exists t1, ke, ve, t2, (k0 :: ks). split; auto. split; [|split; [|rewrite last_cons; exact Ek]].
           ++ intros e ks' He Ht. apply Tr in Ht as (k' & w & ks'' & _ & H3 & H4). apply (N1 (k', w) ks''); auto.
              rewrite E4. apply in_or_app. left. apply in_flat_map. exists e. auto.
           ++ assert (Hin : In (k0, v) (f (0, ve))) by (change (f (0, ve)) with (f (ke, ve)); rewrite E3; apply in_or_app; right; now left).
              split.
              ** apply Tr. exists k0, v, ks. auto.
              ** intros ks' Ht. apply Tr in Ht as (k' & w & ks'' & -> & H3 & H4).
                 change (f (0, ve)) with (f (ke, ve)) in H3. rewrite E3 in H3. apply in_app_or in H3 as [H3|[H3|H3]].
                 --- exfalso. apply (N1 (k', w) ks''); auto. rewrite E4. apply in_or_app. now right.
                 --- inversion H3; subst k' w. destruct (T2 _ H4) as [->|Hb]; [now left|right; now constructor].
                 --- right. constructor. assert (So : StronglySorted (fun a b : N * list N => fst a < fst b) (f (ke, ve))) by apply enumerate_sorted.
                     rewrite E3 in So. clear - So H3. induction u1 as [|y u1 IHu]; cbn in So.
                     +++ inversion So as [|? ? _ Hf]; subst. rewrite Forall_forall in Hf. apply (Hf _ H3).
                     +++ inversion So; subst. auto.
        -- right. rewrite Es in *. split; auto. intros e ks He Ht. apply Tr in Ht as (k & w & ks' & _ & H3 & H4).
           apply (H2 (k, w) ks'); auto. rewrite <- Es. apply in_flat_map. exists e. auto.
    + split; auto. intros P. exfalso. apply (P a o); auto. change (removelast (a :: b :: path)) with (a :: removelast (b :: path)). now left.
Qed.

(** Without a set to start from, the current record makes one. *)
Lemma hops_start b path o r rel v : nthN (d_occs d) (d_handle d) = Some o -> get_current_record o = Some r -> link d (d_handle d) b rel ->
  cell d (to_table o, rs_field1 rel, r) = Some v ->
  hops d (d_handle d :: b :: path) [] = hops d (d_handle d :: b :: path) [(r, v)].
Proof.
  intros Ho Hr Lk Hv. rewrite (filter_link _ _ _ _ Ho) in Lk. rewrite !hops_eq. unfold get_occurrence at 1 3.
  rewrite (proj2 (at_ok _ _ _) Ho). cbn [bind]. rewrite Hr.
  destruct (filter (fun x => rs_occ x =? b) (to_related o)) as [|rel' rest]; [discriminate|]. cbn in Lk. inversion Lk; subst rel'.
  unfold cell in Hv. destruct (nthN (d_tables d) (to_table o)) as [tb|] eqn:Et; [|discriminate].
  destruct (nthN (dt_fields tb) (rs_field1 rel)) as [fd|] eqn:Efd; [|discriminate].
  unfold get_current_table, get_current_occurrence. rewrite (proj2 (at_ok _ _ _) Ho). cbn [bind].
  rewrite (proj2 (at_ok _ _ _) Et). cbn [bind]. rewrite (proj2 (at_ok _ _ _) Efd). cbn [bind]. rewrite (proj2 (at_ok _ _ _) Hv). reflexivity.
Qed.

(** A trail ends at a record of the last occurrence. *)
Lemma trail_end : forall path v ks, trail d path v ks -> forall dft, ks <> [] ->
  exists o f w, nthN (d_occs d) (last path dft) = Some o /\ cell d (to_table o, f, last ks dft) = Some w.
Proof.
  intros path v ks T. induction T as [a v|a b path v rel o k w ks L Ho Hc R T IH]; intros dft Hn; [congruence|].
  rewrite !last_cons. destruct ks as [|k' ks].
  - inversion T; subst. cbn [last]. exists o, (rs_field2 rel), w. auto.
  - destruct (IH dft) as (o' & f & w' & H1 & H2); [discriminate|]. exists o', f, w'. rewrite last_cons in H1, H2 |- *. auto.
Qed.

Lemma trail_nonempty a b path v ks : trail d (a :: b :: path) v ks -> ks <> [].
Proof. intros H. inversion H. discriminate. Qed.
End Hops.

Lemma first_trail_unique d path v ks ks' : first_trail d path v ks -> first_trail d path v ks' -> ks = ks'.
Proof.
  intros [T1 M1] [T2 M2]. destruct (M1 _ T2) as [E|E1]; auto. destruct (M2 _ T1) as [E|E2]; auto. exfalso. clear - E1 E2.
  induction E1; inversion E2; subst; try lia; auto.
Qed.

(** ** The lookup *)
Theorem lookup_path d oname field t p b o r rel v ot tb i :
  sound d -> sget (d_index d) oname = Some t -> get_path (d_graph d) (d_handle d) t = Ok (Some (d_handle d :: b :: p)) ->
  comparable d (d_handle d :: b :: p) ->
  nthN (d_occs d) (d_handle d) = Some o -> get_current_record o = Some r -> link d (d_handle d) b rel ->
  cell d (to_table o, rs_field1 rel, r) = Some v ->
  nthN (d_occs d) t = Some ot -> nthN (d_tables d) (to_table ot) = Some tb -> field_at tb field i ->
  (forall ks, positioned d (d_handle d :: b :: p) -> first_trail d (d_handle d :: b :: p) v ks ->
     exists w, cell d (to_table ot, i, last ks 0) = Some w /\ get_related_record_field d oname field = Ok (ROk w)) /\
  (~ positioned d (d_handle d :: b :: p) \/ (forall ks, ~ trail d (d_handle d :: b :: p) v ks) ->
     get_related_record_field d oname field = Ok (RErr tt)).
Proof.
  intros S Hi Hp C Ho Hr Lk Hv Hot Htb Hat.
  destruct (s_graph _ S) as (es & R). destruct (related_built _ _ R) as (es' & B).
  destruct (get_path_walk _ _ _ _ _ B Hp) as (W & _ & _).
  destruct (walk_linked _ _ _ _ S W) as (L & _).
  destruct (hops_spec d (b :: p) (d_handle d) [(r, v)] L C) as [H1 H2]; [discriminate|].
  assert (Eq : get_related_record_field d oname field =
    bind (hops d (d_handle d :: b :: p) [(r, v)]) (fun x => match x with
      | RErr e => Ok (RErr e)
      | ROk cs => bind (at_ cs 0) (fun c => match nthN (dt_fields tb) i with
                                          | Some fd => bind (at_ (df_records fd) (fst c)) (fun w => Ok (ROk w))
                                          | None => Panic end) end)).
  { unfold get_related_record_field, occurrence_index. rewrite Hi. cbn [unwrap bind]. rewrite Hp. cbn [bind].
    rewrite (hops_start d b p o r rel v) by auto.
    destruct (hops d (d_handle d :: b :: p) [(r, v)]) as [x| |]; cbn [bind]; auto. destruct x as [cs|e]; auto.
    rewrite (walk_last _ _ _ _ W). cbn [unwrap bind]. unfold get_occurrence. rewrite (proj2 (at_ok _ _ _) Hot). cbn [bind].
    rewrite (proj2 (at_ok _ _ _) Htb). cbn [bind]. pose proof Hat as ((fd & Hfd & _) & _). rewrite Hfd.
    rewrite (first_named_at _ _ _ _ Hat Hfd). cbn [bind]. reflexivity. }
  split.
  - intros ks P F. destruct (H1 P) as [(k & x & s' & E1 & E2)|(E1 & E2)].
    + destruct E2 as (s1 & k0 & v0 & s2 & ks' & F1 & F2 & F3 & F4). destruct s1 as [|y s1]; [|destruct s1; discriminate].
      inversion F1; subst k0 v0 s2. pose proof (first_trail_unique _ _ _ _ _ F F3) as Ek. subst ks'.
      destruct F as [T _]. pose proof (trail_nonempty _ _ _ _ _ _ T) as Nn.
      destruct (trail_end d _ _ _ T 0 Nn) as (o' & f & w' & G1 & G2).
      assert (El : last (d_handle d :: b :: p) 0 = t).
      { pose proof (walk_last _ _ _ _ W) as Wl. clear - Wl. revert Wl. generalize (d_handle d :: b :: p). intros l.
        assert (X : forall (l : list N) dft, l <> [] -> nthN l (lenN l - 1) = Some (last l dft)).
        { clear. induction l as [|y l IH]; intros dft H; [congruence|]. rewrite last_cons. destruct l as [|z l]; [reflexivity|].
          rewrite lenN_cons. replace (1 + lenN (z :: l) - 1) with (1 + (lenN (z :: l) - 1)) by (rewrite lenN_cons; lia).
          rewrite nthN_succ. apply IH. discriminate. }
        intros Wl. destruct l as [|z l]; [discriminate|]. rewrite (X (z :: l) 0) in Wl by discriminate. congruence. }
      rewrite El in G1. assert (o' = ot) by congruence. subst o'.
      pose proof Hat as ((fd & Hfd & _) & _).
      assert (Hw : exists w, nthN (df_records fd) (last ks 0) = Some w).
      { apply nthN_ex. unfold cell in G2. rewrite Htb in G2. destruct (nthN (dt_fields tb) f) as [fd'|] eqn:Ef; [|discriminate].
        destruct (s_rect _ S _ _ Htb) as (n & Hn). unfold holds in Hn. rewrite Forall_forall in Hn.
        rewrite (Hn fd) by (eapply nthN_In; eauto). rewrite <- (Hn fd') by (eapply nthN_In; eauto). eapply nthN_lt; eauto. }
      destruct Hw as (w & Hw). exists w. split; [now rewrite (column_cell _ _ _ _ _ _ Htb Hfd)|].
      rewrite Eq, E1. cbn [bind]. unfold at_ at 1. rewrite nthN_0. cbn [unwrap bind fst]. rewrite Hfd.
      assert (Ek : k = last ks 0) by (rewrite F4; destruct ks; [congruence|now rewrite !last_cons]).
      rewrite Ek, (proj2 (at_ok _ _ _) Hw). reflexivity.
    + exfalso. destruct F as [T _]. apply (E2 (r, v) ks); auto. now left.
  - intros Hx. rewrite Eq. assert (E : hops d (d_handle d :: b :: p) [(r, v)] = Ok (RErr tt)).
    { assert (Dec : positioned d (d_handle d :: b :: p) \/ ~ positioned d (d_handle d :: b :: p)).
      { unfold positioned. generalize (removelast (d_handle d :: b :: p)). intros l. induction l as [|y l IH]; [left; intros ? ? []|].
        destruct IH as [IH|IH].
        - destruct (nthN (d_occs d) y) as [oy|] eqn:Ey.
          + destruct (get_current_record oy) as [ry|] eqn:Ery.
            * left. intros a oa [->|Ha]; [|eauto]. congruence.
            * right. intros H. apply (H y oy); auto. now left.
          + left. intros a oa [->|Ha]; [|eauto]. congruence.
        - right. intros H. apply IH. intros a oa Ha. apply H. now right. }
      destruct Dec as [P|P]; auto. destruct (H1 P) as [(k & x & s' & E1 & E2)|(E1 & E2)]; auto.
      destruct Hx as [Hx|Hx]; [tauto|]. exfalso. destruct E2 as (s1 & k0 & v0 & s2 & ks' & F1 & F2 & F3 & F4).
      destruct s1 as [|y s1]; [|destruct s1; discriminate]. inversion F1; subst. destruct F3 as [T _]. apply (Hx _ T). }
    rewrite E. reflexivity.
Qed.
