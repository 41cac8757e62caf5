(** What holds of every database that can be reached. *)
From Coq Require Import NArith List Bool Lia Sorted.
From Verif Require Import Prelude PreludeFacts StrOrder ComponentModel RelModel RelSpec RelProofs RelSearch DbModel DbSpec DbFacts DbGenSpec DbGen DbProofs.
Import ListNotations.
Local Open Scope N_scope.

(** ** The effect of each operation *)

Definition static (o : tocc) : N * list rset := (to_table o, to_related o).

Lemma static_related a b : static a = static b -> to_related a = to_related b.
Proof. unfold static. congruence. Qed.
Lemma static_table a b : static a = static b -> to_table a = to_table b.
Proof. unfold static. congruence. Qed.

(** Only the current occurrence moves. *)
Definition moved (d d' : db) (o o' : tocc) : Prop :=
  nthN (d_occs d) (d_handle d) = Some o /\ to_table o' = to_table o /\ to_related o' = to_related o /\
  d' = with_occs d (updateN (d_occs d) (d_handle d) (fun _ => o')).

Lemma moved_static d d' o o' : moved d d' o o' ->
  map static (d_occs d') = map static (d_occs d) /\ d_tables d' = d_tables d /\ d_graph d' = d_graph d /\
  d_index d' = d_index d /\ d_handle d' = d_handle d.
Proof.
  intros (H1 & H2 & H3 & ->). cbn. repeat (split; [|auto]). eapply updateN_map; eauto. unfold static. congruence.
Qed.

Lemma updateN_updateN {A} (l : list A) i x y :
  updateN (updateN l i (fun _ => x)) i (fun _ => y) = updateN l i (fun _ => y).
Proof.
  apply nth_ext. intros j. rewrite !updateN_nth. destruct (N.eqb_spec i j); auto. now destruct (nthN l j).
Qed.

Lemma reset_found_set_ok d d' : reset_found_set d = Ok d' <->
  exists o tb f0 fs, nthN (d_occs d) (d_handle d) = Some o /\ nthN (d_tables d) (to_table o) = Some tb /\ dt_fields tb = f0 :: fs /\
    d' = with_occs d (updateN (d_occs d) (d_handle d)
           (fun _ => mkTocc (below (lenN (df_records f0))) (to_table o) (to_ptr o) (to_related o))).
Proof.
  unfold reset_found_set, get_current_table, get_current_occurrence. split.
  - intros H. apply bind_ok in H as (tb & H1 & H). apply bind_ok in H1 as (o & H1%at_ok & H2%at_ok).
    apply bind_ok in H as (f0 & H3%at_ok & H). apply modify_current_ok in H as (o1 & o' & H4 & H5 & ->).
    assert (o1 = o) by congruence. subst o1. inversion H5. destruct (dt_fields tb) as [|f1 fs] eqn:Ef; [discriminate|].
    rewrite nthN_0 in H3. assert (f1 = f0) by congruence. subst f1. exists o, tb, f0, fs. auto.
  - intros (o & tb & f0 & fs & H1 & H2 & H3 & ->). apply bind_ok. exists tb. split.
    + apply bind_ok. exists o. rewrite !at_ok. auto.
    + apply bind_ok. exists f0. rewrite at_ok, H3. split; [apply nthN_0|]. apply modify_current_ok.
      eexists. eexists. split; [exact H1|]. split; reflexivity.
Qed.

Lemma update_found_set_ok d rs d' : rs <> [] -> update_found_set d rs = Ok d' <->
  exists o tb, nthN (d_occs d) (d_handle d) = Some o /\ nthN (d_tables d) (to_table o) = Some tb /\ dt_fields tb <> [] /\
    d' = with_occs d (updateN (d_occs d) (d_handle d) (fun _ => mkTocc rs (to_table o) 0 (to_related o))).
Proof.
  intros Hrs. assert (U : update_found_set d rs =
    (d1 <- reset_found_set d ;; modify_current d1 (fun o => Ok (mkTocc rs (to_table o) 0 (to_related o)))))
    by (destruct rs; [congruence|reflexivity]).
  rewrite U. clear U Hrs. split.
  - intros H. apply bind_ok in H as (d1 & H & H'). apply reset_found_set_ok in H as (o & tb & f0 & fs & H1 & H2 & H3 & ->).
    apply modify_current_ok in H' as (o1 & o' & H4 & H5 & ->). cbn [with_occs d_occs d_handle] in *.
    rewrite updateN_nth, N.eqb_refl, H1 in H4. cbn in H4. inversion H4. subst o1. inversion H5. cbn [to_table to_related].
    exists o, tb. split; auto. split; auto. split; [congruence|]. unfold with_occs. cbn. now rewrite updateN_updateN.
  - intros (o & tb & H1 & H2 & H3 & ->). destruct (dt_fields tb) as [|f0 fs] eqn:Ef; [congruence|].
    apply bind_ok. eexists. split; [apply reset_found_set_ok; exists o, tb, f0, fs; eauto|].
    apply modify_current_ok. cbn [with_occs d_occs d_handle]. rewrite updateN_nth, N.eqb_refl, H1. eexists. eexists.
    split; [reflexivity|]. split; [reflexivity|]. cbn. unfold with_occs. cbn. now rewrite updateN_updateN.
Qed.

Lemma modify_moved d f d' : (forall o o', f o = Ok o' -> to_table o' = to_table o /\ to_related o' = to_related o) ->
  modify_current d f = Ok d' -> exists o o', moved d d' o o' /\ f o = Ok o'.
Proof.
  intros Hf (o & o' & H1 & H2 & ->)%modify_current_ok. exists o, o'. destruct (Hf _ _ H2). split; auto. repeat split; auto.
Qed.

Lemma with_ptr_static o o' k : (p <- subU k 1 ;; Ok (with_ptr o p)) = Ok o' -> to_table o' = to_table o /\ to_related o' = to_related o.
Proof. intros H. apply bind_ok in H as (p & _ & E). inversion E. auto. Qed.

(** The navigation steps as a function of the occurrence. *)
Definition nav (o : op) (oc : tocc) : option tocc :=
  let n := lenN (to_found oc) in
  match o with
  | OGoto k => if n =? 0 then None else Some (with_ptr oc (if n <=? k then n - 1 else k))
  | OPrevious => Some (with_ptr oc (to_ptr oc - 1))
  | ONext => if n =? 0 then None else Some (with_ptr oc (if to_ptr oc <? n - 1 then to_ptr oc + 1 else to_ptr oc))
  | OFirst => Some (with_ptr oc 0)
  | OLast => if n =? 0 then None else Some (with_ptr oc (n - 1))
  | _ => None
  end.
Definition is_nav (o : op) : bool :=
  match o with OGoto _ | OPrevious | ONext | OFirst | OLast => true | _ => false end.

Lemma with_ptr_id o : with_ptr o (to_ptr o) = o.
Proof. now destruct o. Qed.

Lemma nav_exact d o oc : is_nav o = true -> nthN (d_occs d) (d_handle d) = Some oc ->
  apply_op d o = match nav o oc with
                 | Some oc' => Ok (with_occs d (updateN (d_occs d) (d_handle d) (fun _ => oc')))
                 | None => Panic
                 end.
Proof.
  intros Hn H.
  assert (M : forall f, modify_current d f = match f oc with Ok oc' => Ok (with_occs d (updateN (d_occs d) (d_handle d) (fun _ => oc')))
    | Panic => Panic | NoFuel => NoFuel end).
  { intros f. unfold modify_current, get_current_occurrence. rewrite (proj2 (at_ok _ _ _) H). cbn [bind].
    destruct (f oc) as [oc'| |]; cbn [bind]; auto. rewrite (put_some _ _ _ _ H). reflexivity. }
  destruct o; try discriminate; cbn [apply_op nav];
    unfold goto_record, goto_previous_record, goto_next_record, goto_first_record, goto_last_record; rewrite M; clear M.
  - unfold subU. destruct (N.leb_spec (lenN (to_found oc)) n).
    + destruct (N.eqb_spec (lenN (to_found oc)) 0) as [E|E].
      * rewrite E. reflexivity.
      * replace (1 <=? lenN (to_found oc)) with true by lia. reflexivity.
    + replace (lenN (to_found oc) =? 0) with false by lia. reflexivity.
  - destruct (N.ltb_spec 0 (to_ptr oc)); auto. replace (to_ptr oc - 1) with (to_ptr oc) by lia. now rewrite with_ptr_id.
  - unfold subU. destruct (N.eqb_spec (lenN (to_found oc)) 0) as [E|E].
    + rewrite E. reflexivity.
    + replace (1 <=? lenN (to_found oc)) with true by lia. cbn [bind].
      destruct (to_ptr oc <? lenN (to_found oc) - 1); auto. now rewrite with_ptr_id.
  - reflexivity.
  - unfold subU. destruct (N.eqb_spec (lenN (to_found oc)) 0) as [E|E].
    + rewrite E. reflexivity.
    + replace (1 <=? lenN (to_found oc)) with true by lia. reflexivity.
Qed.

Lemma nav_nohandle d o : is_nav o = true -> nthN (d_occs d) (d_handle d) = None -> apply_op d o = Panic.
Proof.
  intros Hn H.
  assert (M : forall f, modify_current d f = Panic).
  { intros f. unfold modify_current, get_current_occurrence, at_. now rewrite H. }
  destruct o; try discriminate; apply M.
Qed.

Lemma nav_static o oc oc' : nav o oc = Some oc' -> static oc' = static oc /\ to_found oc' = to_found oc.
Proof.
  destruct o; cbn; try discriminate; try (destruct (lenN (to_found oc) =? 0); try discriminate); intros E; inversion E; auto.
Qed.

Lemma nav_pointer o oc oc' : nav o oc = Some oc' -> pointer_ok oc -> pointer_ok oc'.
Proof.
  intros H. pose proof (nav_static _ _ _ H) as (_ & Hf). unfold pointer_ok. rewrite Hf.
  destruct (to_found oc) as [|x l] eqn:E.
  - destruct o; cbn [nav] in H; try discriminate; try rewrite E in H; try discriminate; inversion H; cbn; lia.
  - set (n := lenN (x :: l)) in *. assert (Hn : 0 < n) by (unfold n; rewrite lenN_cons; lia).
    destruct o; cbn [nav] in H; try discriminate; try rewrite E in H; fold n in H; clearbody n;
      try (replace (n =? 0) with false in H by lia); inversion H; cbn [with_ptr to_ptr].
    + destruct (N.leb_spec n n0); lia.
    + lia.
    + destruct (N.ltb_spec (to_ptr oc) (n - 1)); lia.
    + lia.
    + lia.
Qed.

(** ** Invariants that survive everything *)
Record sound (d : db) : Prop := {
  s_rect : forall t tb, nthN (d_tables d) t = Some tb -> exists n, holds tb n;
  s_empty : forall i o, nthN (d_occs d) i = Some o -> Forall (fun r => rs_records r = []) (to_related o);
  s_graph : exists es, related es (d_graph d);
  s_edges : forall i j, edge (d_graph d) i j <-> exists o, nthN (d_occs d) i = Some o /\ In j (map rs_occ (to_related o));
  s_targets : forall i j, edge (d_graph d) i j -> j < lenN (d_occs d);
}.

Lemma sound_static d d' :
  (forall t tb, nthN (d_tables d') t = Some tb -> exists n, holds tb n) ->
  map static (d_occs d') = map static (d_occs d) -> d_graph d' = d_graph d -> sound d -> sound d'.
Proof.
  intros Hr Hs Hg [_ S2 S3 S4 S5].
  assert (Hl : lenN (d_occs d') = lenN (d_occs d)) by (rewrite <- (lenN_map static), Hs, lenN_map; auto).
  assert (Hn : forall i o', nthN (d_occs d') i = Some o' -> exists o, nthN (d_occs d) i = Some o /\ static o' = static o).
  { intros i o' H. assert (E : nthN (map static (d_occs d')) i = nthN (map static (d_occs d)) i) by now rewrite Hs.
    rewrite !nthN_map, H in E. destruct (nthN (d_occs d) i) as [o|]; [|discriminate]. cbn in E. exists o. split; auto. congruence. }
  assert (Hn' : forall i o, nthN (d_occs d) i = Some o -> exists o', nthN (d_occs d') i = Some o' /\ static o' = static o).
  { intros i o H. assert (E : nthN (map static (d_occs d')) i = nthN (map static (d_occs d)) i) by now rewrite Hs.
    rewrite !nthN_map, H in E. destruct (nthN (d_occs d') i) as [o'|]; [|discriminate]. cbn in E. exists o'. split; auto. congruence. }
  constructor; auto.
  - intros i o' H. destruct (Hn _ _ H) as (o & H1 & H2). rewrite (static_related _ _ H2). eauto.
  - now rewrite Hg.
  - intros i j. rewrite Hg, S4. split.
    + intros (o & H1 & H2). destruct (Hn' _ _ H1) as (o' & H3 & H4). exists o'. split; auto. now rewrite (static_related _ _ H4).
    + intros (o' & H1 & H2). destruct (Hn _ _ H1) as (o & H3 & H4). exists o. split; auto. now rewrite <- (static_related _ _ H4).
  - rewrite Hg, Hl. auto.
Qed.

Lemma gen_sound f d : maps_ok f -> generate_from_fmp12 db_new f = Ok d -> sound d /\
  (forall i o, nthN (d_occs d) i = Some o -> to_found o = [] /\ to_ptr o = 0).
Proof.
  intros M G. destruct (generate_ok f M) as [G1 G2].
  assert (Fit : relations_fit f).
  { unfold relations_fit. destruct (Forall_dec (fun rl => rl_table1 rl <= max_key (keys (f_occurrences f)) /\
      rl_table2 rl <= max_key (keys (f_occurrences f)))) with (l := vals (f_relationships f)) as [H|H]; auto.
    - intros rl. set (m := max_key (keys (f_occurrences f))).
      destruct ((rl_table1 rl <=? m) && (rl_table2 rl <=? m)) eqn:E; [left; lia|right; lia].
    - rewrite G2 in G by auto. discriminate. }
  destruct (G1 Fit) as (d0 & E & Lt & Lo & Ht & Ho & R & _ & _). rewrite E in G. inversion G; subst d0. clear G G1 G2 E.
  split.
  - constructor.
    + intros t tb H. rewrite Ht in H. exists 0. unfold holds. apply Forall_forall. intros fd Hfd.
      destruct (nget (f_tables f) t) as [tt|] eqn:Et.
      * inversion H; subst tb. unfold empty_table, columns in Hfd. cbn in Hfd.
        assert (Nd : NoDup (keys (tb_fields tt))).
        { destruct M as (_ & _ & _ & M). eapply M. eapply (mget_In _ N.eqb_spec); eauto. }
        destruct (gen_fields_ok tt Nd) as (fs & Ef & _ & Hf). rewrite Ef in Hfd. apply In_nthN in Hfd as (j & Hj).
        rewrite Hf in Hj. unfold column in Hj. destruct (nget (tb_fields tt) j); [inversion Hj; auto|].
        destruct (j <=? max_key (keys (tb_fields tt))); inversion Hj; auto.
      * destruct (t <=? max_key (keys (f_tables f))); inversion H; subst tb. destruct Hfd.
    + intros i o H. rewrite Ho in H. assert (E : to_related o = flat_map (seen_from i) (vals (f_relationships f))).
      { unfold occurrence_at in H. destruct (nget (f_occurrences f) i); [inversion H; auto|].
        destruct (i <=? _); inversion H; auto. }
      rewrite E. apply Forall_forall. intros r Hr. apply in_flat_map in Hr as (rl & _ & Hr). unfold seen_from in Hr.
      apply in_app_iff in Hr. destruct (rl_table1 rl =? i), (rl_table2 rl =? i); cbn in Hr; intuition; subst; auto.
    + eauto.
    + intros i j. rewrite (related_edge _ _ R). unfold relation_pairs.
      assert (Hrel : forall o, nthN (d_occs d) i = Some o -> to_related o = flat_map (seen_from i) (vals (f_relationships f))).
      { intros o H. rewrite Ho in H. unfold occurrence_at in H. destruct (nget (f_occurrences f) i); [inversion H; auto|].
        destruct (i <=? _); inversion H; auto. }
      rewrite !in_map_iff. split.
      * intros H. assert (Hi : i < lenN (d_occs d)).
        { rewrite Lo. unfold relations_fit in Fit. rewrite Forall_forall in Fit.
          destruct H as [(rl & E & H)|(rl & E & H)]; inversion E; subst; specialize (Fit _ H); lia. }
        destruct (nthN_ex _ _ Hi) as (o & Eo). exists o. split; auto. rewrite (Hrel _ Eo), in_map_iff.
        destruct H as [(rl & E & H)|(rl & E & H)]; inversion E; subst.
        -- exists (mkRset (rl_cmp rl) (rl_field1 rl) (rl_field2 rl) (rl_table2 rl) []). split; auto.
           apply in_flat_map. exists rl. split; auto. unfold seen_from. rewrite N.eqb_refl. now left.
        -- exists (mkRset (rl_cmp rl) (rl_field2 rl) (rl_field1 rl) (rl_table1 rl) []). split; auto.
           apply in_flat_map. exists rl. split; auto. unfold seen_from. rewrite N.eqb_refl. apply in_app_iff. right. now left.
      * intros (o & Eo & H). rewrite (Hrel _ Eo), in_map_iff in H. destruct H as (r & E & H).
        apply in_flat_map in H as (rl & Hrl & H). unfold seen_from in H. apply in_app_iff in H.
        destruct (N.eqb_spec (rl_table1 rl) i) as [E1|E1], (N.eqb_spec (rl_table2 rl) i) as [E2|E2]; cbn in H; try tauto.
        -- destruct H as [[H|[]]|[H|[]]]; subst r; cbn in E; [left|right]; exists rl; split; auto; congruence.
        -- destruct H as [[H|[]]|[]]; subst r; cbn in E; left; exists rl; split; auto; congruence.
        -- destruct H as [[]|[H|[]]]; subst r; cbn in E; right; exists rl; split; auto; congruence.
    + intros i j H. rewrite (related_edge _ _ R) in H. unfold relation_pairs in H. rewrite !in_map_iff in H. rewrite Lo.
      unfold relations_fit in Fit. rewrite Forall_forall in Fit.
      destruct H as [(rl & E & H)|(rl & E & H)]; inversion E; subst; specialize (Fit _ H); lia.
  - intros i o H. rewrite Ho in H. unfold occurrence_at in H. destruct (nget (f_occurrences f) i); [inversion H; auto|].
    destruct (i <=? _); inversion H; auto.
Qed.

Lemma created_static d t tb n : map static (d_occs (created d t tb n)) = map static (d_occs d).
Proof.
  cbn. rewrite map_map. apply map_ext. intros o. unfold shows. destruct (to_table o =? t); reflexivity.
Qed.

Lemma holds_blank tb n : holds tb n -> holds (add_blank_record tb) (n + 1).
Proof.
  unfold holds, add_blank_record. cbn. rewrite Forall_map. intros H. eapply Forall_impl; [|exact H].
  intros fd E. cbn. rewrite lenN_app, E. reflexivity.
Qed.

Lemma rect_shape d d' : map shape (d_tables d') = map shape (d_tables d) ->
  (forall t tb, nthN (d_tables d) t = Some tb -> exists n, holds tb n) ->
  (forall t tb, nthN (d_tables d') t = Some tb -> exists n, holds tb n).
Proof.
  intros E H t tb' Ht. assert (E' : option_map shape (nthN (d_tables d') t) = option_map shape (nthN (d_tables d) t)) by (now rewrite <- !nthN_map, E).
  rewrite Ht in E'. destruct (nthN (d_tables d) t) as [tb|] eqn:E1; [|discriminate]. cbn [option_map] in E'.
  destruct (H _ _ E1) as (n & Hn). exists n. apply holds_shape in Hn. apply holds_shape. congruence.
Qed.

(** What a write does. *)
Definition wrote (d d' : db) : Prop :=
  d_occs d' = d_occs d /\ d_graph d' = d_graph d /\ d_index d' = d_index d /\ d_handle d' = d_handle d /\
  map shape (d_tables d') = map shape (d_tables d).

Lemma write_at_wrote d p v d' : write_place d p v = Ok d' -> wrote d d'.
Proof.
  intros H. destruct (cell d p) as [old|] eqn:E.
  - destruct (write_place_ok d p v old E) as (d1 & E1 & H1 & H2 & H3 & H4 & H5 & _). rewrite E1 in H. inversion H; subst.
    repeat split; auto.
  - exfalso. destruct p as [[t f] r]. unfold write_place in H. unfold cell in E.
    apply bind_ok in H as (tb & H1%at_ok & H). rewrite H1 in E. apply bind_ok in H as (fd & H2%at_ok & H). rewrite H2 in E.
    apply bind_ok in H as (rs & H3 & _). apply put_ok in H3 as (H3 & _). apply nthN_None in E. lia.
Qed.

Lemma op_write_wrote d o d' : (exists occ f v, o = OWrite occ f v) \/ (exists f v, o = OWriteHere f v) ->
  apply_op d o = Ok d' -> wrote d d'.
Proof.
  intros [(occ & f & v & ->)|(f & v & ->)] H; cbn [apply_op] in H; apply bind_ok in H as (r & _ & H);
    destruct r as [p|]; cbn in H; try discriminate; eapply write_at_wrote; eauto.
Qed.

Lemma nav_moved d o d' : is_nav o = true -> apply_op d o = Ok d' ->
  exists oc oc', nthN (d_occs d) (d_handle d) = Some oc /\ nav o oc = Some oc' /\
    d' = with_occs d (updateN (d_occs d) (d_handle d) (fun _ => oc')).
Proof.
  intros Hn H. destruct (nthN (d_occs d) (d_handle d)) as [oc|] eqn:E; [|rewrite nav_nohandle in H by auto; discriminate].
  rewrite (nav_exact _ _ _ Hn E) in H. destruct (nav o oc) as [oc'|] eqn:Eo; inversion H. exists oc, oc'. auto.
Qed.

Lemma sound_step d o d' : sound d -> apply_op d o = Ok d' -> sound d'.
Proof.
  intros S H. destruct (is_nav o) eqn:En.
  { destruct (nav_moved _ _ _ En H) as (oc & oc' & H1 & H2 & ->). destruct (nav_static _ _ _ H2) as (H3 & _).
    apply (sound_static d); auto; cbn; [apply (s_rect _ S)|]. eapply updateN_map; eauto. }
  assert (Hupd : forall oc oc', nthN (d_occs d) (d_handle d) = Some oc -> static oc' = static oc ->
    sound (with_occs d (updateN (d_occs d) (d_handle d) (fun _ => oc')))).
  { intros oc oc' H1 H2. apply (sound_static d); auto; cbn; [apply (s_rect _ S)|]. eapply updateN_map; eauto. }
  assert (Hwr : wrote d d' -> sound d').
  { intros (W1 & W2 & W3 & W4 & W5). apply (sound_static d); auto; [|now rewrite W1].
    eapply rect_shape; eauto. apply (s_rect _ S). }
  destruct o; try discriminate; cbn [apply_op] in H.
  - apply create_record_ok in H as (o & tb & f0 & fs & H1 & H2 & H3 & ->). apply (sound_static d); auto; [|apply created_static].
    intros t tb' Ht. cbn [created d_tables] in Ht. rewrite updateN_nth in Ht. destruct (N.eqb_spec (to_table o) t) as [E|E].
    + subst t. rewrite H2 in Ht. cbn in Ht. inversion Ht; subst. destruct (s_rect _ S _ _ H2) as (n & Hn).
      exists (n + 1). now apply holds_blank.
    + eapply (s_rect _ S); eauto.
  - apply Hwr. apply (op_write_wrote d (OWrite occ field value)); eauto.
  - apply Hwr. apply (op_write_wrote d (OWriteHere field value)); eauto.
  - destruct records as [|r rs].
    + cbn in H. apply reset_found_set_ok in H as (o & tb & f0 & fs & H1 & H2 & H3 & ->). apply (Hupd o); auto.
    + apply update_found_set_ok in H as (o & tb & H1 & H2 & H3 & ->); [|discriminate]. apply (Hupd o); auto.
  - apply reset_found_set_ok in H as (o & tb & f0 & fs & H1 & H2 & H3 & ->). apply (Hupd o); auto.
  - inversion H; subst. apply (sound_static d); auto. apply (s_rect _ S).
  - inversion H; subst. apply (sound_static d); auto. intros t tb Ht. cbn in Ht. rewrite nthN_map in Ht.
    destruct (nthN (d_tables d) t) as [tb0|] eqn:E0; [|discriminate]. cbn in Ht. inversion Ht. exists 0. unfold holds. cbn.
    apply Forall_map. apply Forall_forall. reflexivity.
Qed.

Theorem reached_sound c d : reached c d -> sound d.
Proof.
  induction 1 as [f d M G|d o d' R IH P C E]; [apply (gen_sound f d M G)|eapply sound_step; eauto].
Qed.

(** ** Found sets, as long as records are not cleared *)
Definition found_ok (d : db) (o : tocc) : Prop :=
  StronglySorted N.lt (to_found o) /\ Forall (record_of d (to_table o)) (to_found o) /\ pointer_ok o.

Lemma record_of_max d t tb n r : nthN (d_tables d) t = Some tb -> holds tb n -> record_of d t r -> r < n.
Proof.
  intros H1 H2 (tb' & n' & H3 & H4 & H5 & H6). assert (tb' = tb) by congruence. subst.
  destruct (dt_fields tb) as [|f fs] eqn:E; [congruence|]. unfold holds in *. rewrite E in *. inversion H2; inversion H5; subst. lia.
Qed.

Lemma found_all d o : sound d -> found_ok d o -> nthN (d_tables d) (to_table o) <> None ->
  forall tb f0 fs, nthN (d_tables d) (to_table o) = Some tb -> dt_fields tb = f0 :: fs ->
  lenN (to_found o) <= lenN (df_records f0).
Proof.
  intros S (F1 & F2 & F3) _ tb f0 fs H1 H2. apply sorted_len; auto. intros x Hx. rewrite Forall_forall in F2.
  destruct (s_rect _ S _ _ H1) as (n & Hn). assert (lenN (df_records f0) = n).
  { unfold holds in Hn. rewrite H2 in Hn. inversion Hn. auto. }
  rewrite H. eapply record_of_max; eauto.
Qed.

Lemma below_records d t tb f0 fs : sound d -> nthN (d_tables d) t = Some tb -> dt_fields tb = f0 :: fs ->
  Forall (record_of d t) (below (lenN (df_records f0))).
Proof.
  intros S H1 H2. apply Forall_forall. intros r Hr%below_In. destruct (s_rect _ S _ _ H1) as (n & Hn).
  exists tb, n. split; auto. split; [congruence|]. split; auto. unfold holds in Hn. rewrite H2 in Hn. inversion Hn; subst. auto.
Qed.

Lemma reset_found_ok d o tb f0 fs : sound d -> nthN (d_occs d) (d_handle d) = Some o -> found_ok d o ->
  nthN (d_tables d) (to_table o) = Some tb -> dt_fields tb = f0 :: fs ->
  found_ok d (mkTocc (below (lenN (df_records f0))) (to_table o) (to_ptr o) (to_related o)).
Proof.
  intros S H1 F H2 H3. split; [apply below_sorted|]. split; [eapply below_records; eauto|].
  assert (L : lenN (to_found o) <= lenN (df_records f0)) by (eapply found_all; eauto; congruence).
  destruct F as (_ & _ & F3). unfold pointer_ok in *. cbn [to_found to_ptr].
  pose proof (below_len (lenN (df_records f0))) as Hb.
  destruct (to_found o) as [|x l] eqn:E.
  - destruct (below (lenN (df_records f0))) eqn:E2; auto. rewrite F3. rewrite lenN_cons in *. lia.
  - destruct (below (lenN (df_records f0))) eqn:E2.
    + change (lenN (@nil N)) with 0 in Hb. rewrite lenN_cons in L. lia.
    + rewrite Hb. lia.
Qed.

Lemma found_step d o d' : sound d -> (forall i oc, nthN (d_occs d) i = Some oc -> found_ok d oc) ->
  proper d o -> o <> OClear -> apply_op d o = Ok d' ->
  forall i oc, nthN (d_occs d') i = Some oc -> found_ok d' oc.
Proof.
  intros S F P C H.
  assert (Hupd : forall oc', (forall oc, nthN (d_occs d) (d_handle d) = Some oc -> found_ok d oc') ->
    forall i oc, nthN (d_occs (with_occs d (updateN (d_occs d) (d_handle d) (fun _ => oc')))) i = Some oc ->
    found_ok (with_occs d (updateN (d_occs d) (d_handle d) (fun _ => oc'))) oc).
  { intros oc' Hoc i oc Hi. cbn in Hi. rewrite updateN_nth in Hi. destruct (N.eqb_spec (d_handle d) i) as [E|E].
    - subst i. destruct (nthN (d_occs d) (d_handle d)) as [o0|] eqn:E0; [|discriminate]. cbn in Hi. inversion Hi; subst. apply (Hoc o0). auto.
    - apply (F i); auto. }
  assert (Hwr : wrote d d' -> forall i oc, nthN (d_occs d') i = Some oc -> found_ok d' oc).
  { intros (W1 & W2 & W3 & W4 & W5) i oc Hi. rewrite W1 in Hi. destruct (F _ _ Hi) as (F1 & F2 & F3). split; auto. split; auto.
    eapply Forall_impl; [|exact F2]. intros r. now apply record_of_shape. }
  destruct (is_nav o) eqn:En.
  { destruct (nav_moved _ _ _ En H) as (oc & oc' & H1 & H2 & ->). destruct (nav_static _ _ _ H2) as (H3 & H4).
    apply Hupd. intros oc0 E0. assert (oc0 = oc) by congruence. subst oc0. destruct (F _ _ H1) as (F1 & F2 & F3).
    unfold found_ok. rewrite H4, (static_table _ _ H3). split; auto. split; auto. eapply nav_pointer; eauto. }
  destruct o; try discriminate; cbn [apply_op] in H.
  - apply create_record_ok in H as (o & tb & f0 & fs & H1 & H2 & H3 & ->). intros i oc Hi.
    destruct (s_rect _ S _ _ H2) as (n & Hn). assert (En0 : lenN (df_records f0) = n).
    { unfold holds in Hn. rewrite H3 in Hn. inversion Hn. auto. }
    rewrite En0 in *. cbn [created d_occs] in Hi. rewrite nthN_map in Hi. destruct (nthN (d_occs d) i) as [oc0|] eqn:Ei; [|discriminate].
    cbn in Hi. inversion Hi as [Eo]. clear Hi. destruct (F _ _ Ei) as (F1 & F2 & F3). unfold shows.
    assert (Keep : forall t r, record_of d t r -> record_of (created d (to_table o) tb n) t r).
    { intros t r (tb1 & n1 & R1 & R2 & R3 & R4). destruct (N.eq_dec t (to_table o)) as [E|E].
      - subst t. assert (tb1 = tb) by congruence. subst tb1. exists (add_blank_record tb), (n1 + 1). cbn [created d_tables].
        rewrite updateN_nth, N.eqb_refl, H2. split; auto. split; [cbn; rewrite H3; discriminate|]. split; [now apply holds_blank|lia].
      - exists tb1, n1. cbn [created d_tables]. rewrite updateN_nth. destruct (N.eqb_spec (to_table o) t); [congruence|]. auto. }
    destruct (N.eqb_spec (to_table oc0) (to_table o)) as [E|E].
    + split; [|split]; cbn [to_found to_table].
      * apply sorted_snoc; auto. intros y Hy. rewrite Forall_forall in F2. rewrite E in F2. eapply record_of_max; eauto.
      * apply Forall_app. split; [eapply Forall_impl; [|exact F2]; auto|]. constructor; [|constructor]. rewrite E.
        exists (add_blank_record tb), (n + 1). cbn [created d_tables]. rewrite updateN_nth, N.eqb_refl, H2. split; auto.
        split; [cbn; rewrite H3; discriminate|]. split; [now apply holds_blank|lia].
      * unfold pointer_ok. cbn [to_found to_ptr]. destruct (to_found oc0 ++ [n]) eqn:E2; [now destruct (to_found oc0)|].
        rewrite <- E2, lenN_app. change (lenN [n]) with 1. lia.
    + split; auto. split; auto. eapply Forall_impl; [|exact F2]; auto.
  - apply Hwr. apply (op_write_wrote d (OWrite occ field value)); eauto.
  - apply Hwr. apply (op_write_wrote d (OWriteHere field value)); eauto.
  - destruct records as [|r rs].
    + cbn in H. apply reset_found_set_ok in H as (o & tb & f0 & fs & H1 & H2 & H3 & ->). apply Hupd.
      intros oc E. assert (oc = o) by congruence. subst. eapply reset_found_ok; eauto.
    + apply update_found_set_ok in H as (o & tb & H1 & H2 & H3 & ->); [|discriminate]. apply Hupd.
      intros oc E. cbn in P. destruct P as (P1 & P2). split; auto. split.
      * cbn [to_found to_table]. apply P2. unfold get_current_occurrence. now rewrite at_ok.
      * unfold pointer_ok. cbn [to_found to_ptr]. rewrite lenN_cons. lia.
  - apply reset_found_set_ok in H as (o & tb & f0 & fs & H1 & H2 & H3 & ->). apply Hupd.
    intros oc E. assert (oc = o) by congruence. subst. eapply reset_found_ok; eauto.
  - inversion H; subst. intros i oc Hi. cbn in Hi. apply (F i oc Hi).
  - congruence.
Qed.

Theorem reached_found d : reached false d -> forall i o, nthN (d_occs d) i = Some o -> found_ok d o.
Proof.
  induction 1 as [f d M G|d o d' R IH P C E].
  - intros i o H. destruct (gen_sound f d M G) as [_ G2]. destruct (G2 _ _ H) as [E1 E2]. unfold found_ok, pointer_ok.
    rewrite E1, E2. repeat split; constructor.
  - eapply found_step; eauto; [eapply reached_sound; eauto|]. intros ->. now specialize (C eq_refl).
Qed.

(** ** Looking up a related field *)
Lemma direct_path es g a b : built es g -> edge g a b -> get_path g a b = Ok (Some [a; b]).
Proof.
  intros B E. apply (get_path_first _ _ _ _ _ B). unfold edge in E. apply In_nth_error in E as (k & E).
  exists [k]. split.
  - repeat split; [discriminate|]. cbn. now rewrite E.
  - intros js q (Hn & R & L). destruct js as [|j [|j' js]]; [congruence| |right; left; cbn; lia].
    left. f_equal. cbn in R. destruct (nth_error (neighbours g a) j) as [y|] eqn:Ej; [|discriminate].
    assert (q = [a; y]) by congruence. subst q. cbn in L. subst y. pose proof (built_nodup _ _ B a) as Nd. rewrite NoDup_nth_error in Nd.
    apply Nd; [|congruence]. apply nth_error_Some. congruence.
Qed.

Lemma enumerate_filter_first (p : list N -> bool) : forall l i,
  match filter (fun e => p (snd e)) (enumerate_from i l) with
  | [] => forall k x, nthN l k = Some x -> p x = false
  | (j, x) :: _ => exists k, j = i + k /\ nthN l k = Some x /\ p x = true /\ forall k' y, k' < k -> nthN l k' = Some y -> p y = false
  end.
Proof.
  induction l as [|x l IH]; intros i; cbn [enumerate_from filter snd].
  - intros k x H. apply nthN_lt in H. change (lenN (@nil (list N))) with 0 in H. lia.
  - destruct (p x) eqn:E.
    + exists 0. split; [lia|]. split; [apply nthN_0|]. split; auto. intros; lia.
    + specialize (IH (i + 1)). destruct (filter _ (enumerate_from (i + 1) l)) as [|[j y] l'].
      * intros k z Hz. destruct (N.eq_dec k 0) as [->|Hn].
        -- rewrite nthN_0 in Hz. congruence.
        -- replace k with (1 + (k - 1)) in Hz by lia. rewrite nthN_succ in Hz. eauto.
      * destruct IH as (k & -> & H1 & H2 & H3). exists (1 + k). split; [lia|]. rewrite nthN_succ. split; auto. split; auto.
        intros k' z Hk Hz. destruct (N.eq_dec k' 0) as [->|Hn].
        -- rewrite nthN_0 in Hz. congruence.
        -- replace k' with (1 + (k' - 1)) in Hz by lia. rewrite nthN_succ in Hz. apply (H3 (k' - 1)); auto. lia.
Qed.

(** One hop, with everything it needs in place. *)
Lemma one_hop d h t o r rel rest v o' tb' fd' :
  nthN (d_occs d) h = Some o -> h = d_handle d -> get_current_record o = Some r ->
  filter (fun x => rs_occ x =? t) (to_related o) = rel :: rest ->
  cell d (to_table o, rs_field1 rel, r) = Some v ->
  nthN (d_occs d) t = Some o' -> nthN (d_tables d) (to_table o') = Some tb' -> nthN (dt_fields tb') (rs_field2 rel) = Some fd' ->
  hops d [h; t] [] = match filter (fun e => joins (rs_cmp rel) v (snd e)) (enumerate (df_records fd')) with
                     | [] => Ok (RErr tt)
                     | s => Ok (ROk s)
                     end.
Proof.
  intros H1 -> H2 H3 H4 H5 H6 H7. cbn [hops]. unfold get_occurrence. rewrite (proj2 (at_ok _ _ _) H1). cbn [bind].
  rewrite H2, H3. unfold cell in H4. destruct (nthN (d_tables d) (to_table o)) as [tb|] eqn:Et; [|discriminate].
  destruct (nthN (dt_fields tb) (rs_field1 rel)) as [fd|] eqn:Ef; [|discriminate].
  unfold get_current_table, get_current_occurrence. rewrite (proj2 (at_ok _ _ _) H1). cbn [bind].
  rewrite (proj2 (at_ok _ _ _) Et). cbn [bind]. rewrite (proj2 (at_ok _ _ _) Ef). cbn [bind].
  rewrite (proj2 (at_ok _ _ _) H4). cbn [bind]. rewrite (proj2 (at_ok _ _ _) H5). cbn [bind].
  rewrite (proj2 (at_ok _ _ _) H6). cbn [bind]. rewrite (proj2 (at_ok _ _ _) H7). cbn [bind flat_map snd].
  rewrite app_nil_r. destruct (filter _ (enumerate (df_records fd'))); reflexivity.
Qed.
