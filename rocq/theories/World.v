From Coq Require Import NArith List Bool Lia.
From Verif Require Import Prelude PreludeFacts ComponentModel RelModel DbModel DbFacts DbGenSpec DbGen DbSpec DbProofs DbInv DbProps PastSpec Past WorldSpec.
Import ListNotations.
Local Open Scope N_scope.

Lemma place_ok field : forall l k, place_of field l = Some k <-> nthN l k = Some field /\ forall j, j < k -> nthN l j <> Some field.
Proof.
  induction l as [|n l IH]; intros k; cbn [place_of].
  - split; [discriminate|]. intros [H _]. apply nthN_lt in H. cbn in H. lia.
  - destruct (str_eqb_spec n field) as [->|Nn].
    + split; [intros [= <-]; split; [apply nthN_0|lia]|]. intros [_ H]. destruct (N.eq_dec k 0) as [->|Nk]; [reflexivity|]. exfalso. apply (H 0); [lia|apply nthN_0].
    + split.
      * intros H. destruct (place_of field l) as [k'|] eqn:Q; [|discriminate]. assert (Hk : k = 1 + k') by (cbn [option_map] in H; congruence). rewrite Hk. clear H Hk. destruct (proj1 (IH k') eq_refl) as [A B].
        replace (nthN (n :: l) (1 + k')) with (nthN l k') by (symmetry; apply nthN_succ). split; [exact A|].
        intros j Hj. destruct (N.eq_dec j 0) as [->|Nj]; [rewrite nthN_0; congruence|]. replace j with (1 + (j - 1)) by lia. rewrite nthN_succ. apply B. lia.
      * intros [A B]. destruct (N.eq_dec k 0) as [->|Nk]; [rewrite nthN_0 in A; congruence|]. replace k with (1 + (k - 1)) in A by lia. rewrite nthN_succ in A.
        assert (Q : place_of field l = Some (k - 1)). { apply IH. split; [exact A|]. intros j Hj. specialize (B (1 + j)). rewrite nthN_succ in B. apply B. lia. }
        rewrite Q. cbn [option_map]. f_equal. lia.
Qed.
Lemma place_first tb field k : place_of field (field_names tb) = Some k <-> named_first tb field k.
Proof.
  rewrite place_ok. unfold named_first, field_names. rewrite nthN_map. split.
  - intros [A B]. split; [destruct (nthN (dt_fields tb) k) as [fd|]; [|discriminate]; exists fd; cbn in A; split; congruence|].
    intros j fd Hj H E. apply (B j Hj). rewrite nthN_map, H. cbn. congruence.
  - intros [(fd & A & <-) B]. split; [now rewrite A|]. intros j Hj. rewrite nthN_map. destruct (nthN (dt_fields tb) j) as [fe|] eqn:Q; [|discriminate]. cbn. intros [= E]. now apply (B j fe Hj Q).
Qed.

Section World.
Context (f : fmpfile).
Let Rep (d : db) (w : world) : Prop := represents f d w /\ sound d.

Lemma rep_table d w t : Rep d w -> 0 < width f t -> exists tb f0 fs, nthN (d_tables d) t = Some tb /\ dt_fields tb = f0 :: fs /\ holds tb (many w t) /\ lenN (df_records f0) = many w t /\ field_names tb = headings f t /\ lenN (dt_fields tb) = width f t.
Proof.
  intros [(_ & _ & _ & H & C) S] W. specialize (H t). assert (L : lenN (headings f t) = width f t). { unfold headings. rewrite !lenN_map. unfold lenN. rewrite seq_length. lia. }
  destruct (nthN (d_tables d) t) as [tb|] eqn:Q; [|rewrite <- H in L; cbn in L; lia]. assert (L' : lenN (dt_fields tb) = width f t). { rewrite <- L, <- H. unfold field_names. now rewrite lenN_map. }
  destruct (dt_fields tb) as [|f0 fs] eqn:E; [cbn in L'; lia|]. destruct (s_rect _ S _ _ Q) as (n & Hn).
  assert (B : lenN (df_records f0) = n) by (unfold holds in Hn; rewrite E in Hn; now inversion Hn).
  assert (X : n = many w t).
  { assert (A : forall r, (r <? n) = (r <? many w t)).
    { intros r. specialize (C t 0 r). unfold cell in C. rewrite Q, E, nthN_0 in C. replace (0 <? width f t) with true in C by lia. cbn [andb] in C.
      destruct (r <? many w t) eqn:K; [apply nthN_lt in C; lia|apply nthN_None in C; lia]. }
    pose proof (A n). pose proof (A (many w t)). lia. }
  subst n. exists tb, f0, fs. repeat (split; auto). 1: congruence. now rewrite <- E in L'.
Qed.
Lemma rep_empty d w t tb : Rep d w -> width f t = 0 -> nthN (d_tables d) t = Some tb -> dt_fields tb = [].
Proof.
  intros [(_ & _ & _ & H & C) S] W Q. specialize (H t). rewrite Q in H. unfold headings in H. rewrite W in H. unfold field_names in H. now destruct (dt_fields tb).
Qed.
Lemma rep_occ d w i : Rep d w -> nthN (d_occs d) i = if occurs f i then Some (mkTocc (found w i) (base f i) (spot w i) (flat_map (seen_from i) (vals (f_relationships f)))) else None.
Proof. intros [(_ & H & _) _]. apply H. Qed.
Lemma rep_shown d w : Rep d w -> d_handle d = shown w.
Proof. intros [(H & _) _]. exact H. Qed.

Lemma rep_occs d w w' i oc : Rep d w -> occurs f i = true -> d_handle d = i -> sound (with_occs d (updateN (d_occs d) i (fun _ => oc))) ->
  shown w' = shown w -> many w' = many w -> value w' = value w -> (forall j, j <> i -> found w' j = found w j /\ spot w' j = spot w j) ->
  oc = mkTocc (found w' i) (base f i) (spot w' i) (flat_map (seen_from i) (vals (f_relationships f))) -> Rep (with_occs d (updateN (d_occs d) i (fun _ => oc))) w'.
Proof.
  intros R O Hi S A B C D E. split; [|exact S]. destruct R as [(R1 & R2 & R3 & R4 & R5) _]. split; [cbn; congruence|]. split; [|split; [exact R3|split; [exact R4|]]].
  - intros j. cbn [with_occs d_occs]. rewrite updateN_nth. destruct (N.eqb_spec i j) as [<-|Nj].
    + rewrite R2, O. cbn [option_map]. now rewrite E.
    + rewrite R2. destruct (D j) as [-> ->]; [auto|reflexivity].
  - intros t j r. rewrite B, C. apply R5.
Qed.

Lemma step_rep d w o : Rep d w -> match step f w o with Some w' => exists d', apply_op d o = Ok d' /\ Rep d' w' | None => apply_op d o = Panic end.
Proof.
  intros R. pose proof (rep_shown d w R) as HS. pose proof (rep_occ d w (shown w) R) as RO. assert (SS : forall d', apply_op d o = Ok d' -> sound d') by (intros d'; apply sound_step; apply R).
  destruct (is_nav o) eqn:En.
  { destruct (occurs f (shown w)) eqn:O.
    2:{ assert (P : apply_op d o = Panic) by (apply nav_nohandle; [exact En|now rewrite HS]). destruct o; try discriminate En; cbn [step]; unfold go; rewrite O; cbn [andb]; exact P. }
    set (oc := mkTocc (found w (shown w)) (base f (shown w)) (spot w (shown w)) (flat_map (seen_from (shown w)) (vals (f_relationships f)))) in RO.
    rewrite <- HS in RO. pose proof (nav_exact d o oc En RO) as X. rewrite HS in X. pose proof SS as SS'. rewrite X in SS'. rewrite X.
    assert (K : forall p, nav o oc = Some (with_ptr oc p) -> exists d', match nav o oc with Some oc' => Ok (with_occs d (updateN (d_occs d) (shown w) (fun _ => oc'))) | None => Panic end = Ok d' /\ Rep d' (at_spot w p)).
    { intros p Q. rewrite Q in *. eexists. split; [reflexivity|]. apply (rep_occs d w); auto.
      - intros j Nj. cbn [at_spot found spot]. split; [reflexivity|]. unfold but. replace (j =? shown w) with false by lia. reflexivity.
      - cbn [at_spot found spot]. unfold but. rewrite N.eqb_refl. reflexivity. }
    destruct o; try discriminate En; cbn [step]; unfold go; rewrite O; cbn [andb orb]; cbn [nav to_found to_ptr oc] in K |- *; fold oc in K |- *;
      try (apply K; reflexivity); destruct (lenN (found w (shown w)) =? 0) eqn:Z; cbn [negb]; try reflexivity.
    - replace (N.min n (lenN (found w (shown w)) - 1)) with (if lenN (found w (shown w)) <=? n then lenN (found w (shown w)) - 1 else n) by (destruct (N.leb_spec (lenN (found w (shown w))) n); lia). apply K. reflexivity.
    - apply K. reflexivity.
    - apply K. reflexivity. }
  assert (ALL : match show_all f w with Some w' => exists d', reset_found_set d = Ok d' /\ (sound d' -> Rep d' w') | None => reset_found_set d = Panic end).
  { unfold show_all. destruct (occurs f (shown w)) eqn:O; cbn [andb].
    2:{ unfold reset_found_set, get_current_table, get_current_occurrence, at_. rewrite HS, RO. reflexivity. }
    destruct (0 <? width f (base f (shown w))) eqn:Wd.
    2:{ unfold reset_found_set, get_current_table, get_current_occurrence, at_. rewrite HS, RO. cbn [unwrap bind to_table]. destruct (nthN (d_tables d) (base f (shown w))) as [tb|] eqn:Q; [|reflexivity]. cbn [unwrap bind].
        rewrite (rep_empty d w (base f (shown w)) tb R) by (auto; lia). reflexivity. }
    destruct (rep_table d w (base f (shown w)) R) as (tb & f0 & fs & Q & E & Hh & L & _ & _); [lia|].
    eexists. split; [apply reset_found_set_ok; rewrite HS; eexists; exists tb, f0, fs; split; [exact RO|split; [exact Q|split; [exact E|reflexivity]]]|].
    intros Sd. apply (rep_occs d w); auto.
    - intros j Nj. cbn [show found spot]. unfold but. replace (j =? shown w) with false by lia. auto.
    - cbn [show found spot to_table to_ptr to_related]. unfold but. rewrite N.eqb_refl. unfold below. now rewrite L. }
  assert (WR : forall i field v, match write f w i field v with
      | Some w' => exists d', bind (o <- at_ (d_occs d) i ;; current_place d o field) (fun r => write_at d r v) = Ok d' /\ (sound d' -> Rep d' w')
      | None => bind (o <- at_ (d_occs d) i ;; current_place d o field) (fun r => write_at d r v) = Panic end).
  { intros i field v. unfold write. pose proof (rep_occ d w i R) as Oi. unfold at_. rewrite Oi. destruct (occurs f i) eqn:O; [|reflexivity]. cbn [unwrap bind].
    set (oc := mkTocc (found w i) (base f i) (spot w i) (flat_map (seen_from i) (vals (f_relationships f)))).
    destruct (nthN (found w i) (spot w i)) as [r|] eqn:Er.
    2:{ unfold current_place, get_current_record. cbn [to_found to_ptr oc]. rewrite Er. reflexivity. }
    assert (HH := proj1 (proj2 (proj2 (proj2 (proj1 R)))) (base f i)). assert (CC := proj2 (proj2 (proj2 (proj2 (proj1 R)))) (base f i)).
    assert (NF : forall k, current_place d oc field <> Ok (ROk k) -> True) by auto. clear NF.
    assert (CP : (exists p, current_place d oc field = Ok (ROk p)) \/ current_place d oc field = Panic).
    { unfold current_place, get_current_record. cbn [to_found to_ptr to_table oc]. rewrite Er. unfold at_. destruct (nthN (d_tables d) (base f i)) as [tb|]; [|right; reflexivity]. cbn [unwrap bind].
      unfold first_index, at_. destruct (nthN (filter _ _) 0); [|right; reflexivity]. cbn [unwrap bind]. rewrite read_place_cell. destruct (cell d _); [left; eexists; reflexivity|right; reflexivity]. }
    destruct (place_of field (headings f (base f i))) as [j|] eqn:Ej.
    - destruct (r <? many w (base f i)) eqn:Em.
      + assert (Wj : 0 < width f (base f i)). { destruct (N.eq_dec (width f (base f i)) 0) as [Z|]; [|lia]. unfold headings in Ej. rewrite Z in Ej. discriminate. }
        destruct (rep_table d w (base f i) R Wj) as (tb & f0 & fs & Q & E & Hh & L & Hn & Ln). pose proof Ej as Ej'. rewrite <- Hn in Ej'. apply place_first in Ej'.
        assert (Lj : j < width f (base f i)). { apply place_ok in Ej as [Ej _]. apply nthN_lt in Ej. unfold headings in Ej. rewrite !lenN_map in Ej. unfold lenN in Ej. rewrite seq_length in Ej. lia. }
        assert (Cj : cell d (base f i, j, r) = Some (value w (base f i) j r)). { rewrite CC, Em. now replace (j <? width f (base f i)) with true by lia. }
        assert (P : current_place d oc field = Ok (ROk (base f i, j, r))). { apply current_place_ok. exists r, tb, j, (value w (base f i) j r). cbn [oc to_found to_ptr to_table]. auto. }
        rewrite P. cbn [bind write_at]. destruct (write_place_ok d (base f i, j, r) v _ Cj) as (d' & E1 & A1 & A2 & A3 & A4 & A5 & A6). exists d'. split; [exact E1|]. intros Sd. split; [|exact Sd].
        destruct R as [(R1 & R2 & R3 & R4 & R5) _]. split; [cbn; congruence|]. split; [intros k; rewrite A1; apply R2|]. split; [intros n; rewrite A2; apply R3|]. split.
        * intros t. rewrite <- R4. assert (X : option_map shape (nthN (d_tables d') t) = option_map shape (nthN (d_tables d) t)) by (now rewrite <- !nthN_map, A5).
          destruct (nthN (d_tables d') t) as [a|], (nthN (d_tables d) t) as [b|]; try discriminate; [|reflexivity]. cbn [option_map] in X. assert (X' : snd (shape a) = snd (shape b)) by congruence.
          unfold shape in X'. cbn [snd] in X'. apply (f_equal (map fst)) in X'. rewrite !map_map in X'. exact X'.
        * intros t k s. rewrite A6. cbn [many value]. destruct (place_eq_dec (base f i, j, r) (t, k, s)) as [Z|Z].
          -- inversion Z; subst. rewrite !N.eqb_refl. cbn [andb]. rewrite Em. now replace (k <? width f (base f i)) with true by lia.
          -- rewrite R5. destruct ((t =? base f i) && (k =? j) && (s =? r)) eqn:K; [|reflexivity]. exfalso. apply Z. f_equal; [f_equal|]; lia.
      + destruct CP as [(p & P)|P]; [|now rewrite P]. exfalso. apply current_place_ok in P as (r' & tb & k & u & P1 & P2 & P3 & -> & P4). cbn [oc to_found to_ptr to_table] in *. assert (r' = r) by congruence. subst r'.
        rewrite CC, Em, andb_false_r in P4. discriminate.
    - destruct CP as [(p & P)|P]; [|now rewrite P]. exfalso. apply current_place_ok in P as (r' & tb & k & u & P1 & P2 & P3 & -> & P4). cbn [oc to_found to_ptr to_table] in *. rewrite P2 in HH. apply place_first in P3. congruence. }
  destruct o as [|name field v|field v|rs| | | | | | |h|]; try discriminate En; cbn [step].
  - destruct (occurs f (shown w)) eqn:O; cbn [andb].
    2:{ apply create_record_panics. left. now rewrite HS. }
    destruct (0 <? width f (base f (shown w))) eqn:Wd.
    2:{ apply create_record_panics. right. rewrite HS. destruct (nthN (d_tables d) (base f (shown w))) as [tb|] eqn:Q; [right; eexists; exists tb; split; [exact RO|]; split; [exact Q|]; eapply rep_empty; eauto; lia|left; eexists; split; [exact RO|exact Q]]. }
    destruct (rep_table d w (base f (shown w)) R) as (tb & f0 & fs & Q & E & Hh & L & Hn & Ln); [lia|]. cbn [apply_op].
    assert (C : create_record d = Ok (created d (base f (shown w)) tb (many w (base f (shown w))))).
    { apply create_record_ok. eexists. exists tb, f0, fs. rewrite HS, L. split; [exact RO|]. split; [exact Q|]. split; [exact E|reflexivity]. }
    eexists. split; [exact C|]. split; [|apply SS; exact C]. set (t := base f (shown w)) in *. destruct R as [(R1 & R2 & R3 & R4 & R5) _]. split; [exact R1|]. split; [|split; [exact R3|split]].
    + intros i. cbn [created d_occs found spot]. rewrite nthN_map, R2. destruct (occurs f i); [|reflexivity]. cbn [option_map]. unfold shows. cbn [to_table to_found to_related]. destruct (base f i =? t); reflexivity.
    + intros u. cbn [created d_tables]. rewrite updateN_nth. rewrite <- R4. destruct (N.eqb_spec t u) as [<-|]; [|reflexivity]. rewrite Q. cbn [option_map]. unfold field_names, add_blank_record. cbn [dt_fields]. now rewrite map_map.
    + intros u j r. rewrite (created_cell d t tb _ Q Hh). cbn [fst snd many value]. rewrite R5, Ln. unfold but. destruct (N.eqb_spec u t) as [->|Nu]; [|reflexivity]. cbn [andb].
      destruct (N.eqb_spec r (many w t)) as [->|Nr]; cbn [andb].
      * replace (many w t <? many w t + 1) with true by lia. rewrite N.ltb_irrefl, andb_true_r, andb_false_r. reflexivity.
      * replace (r <? many w t + 1) with (r <? many w t) by lia. reflexivity.
  - cbn [apply_op] in *. unfold get_current_record_by_table_field_mut, get_occurrence_by_name, occurrence_index in *. rewrite (proj1 (proj2 (proj2 (proj1 R)))) in *.
    destruct (named f name) as [i|]; [|reflexivity]. cbn [unwrap bind] in *. specialize (WR i field v). destruct (write f w i field v) as [w'|]; [|exact WR]. destruct WR as (d' & A & B). exists d'. split; [exact A|]. apply B. now apply SS.
  - cbn [apply_op] in *. unfold get_current_record_by_field_mut, get_current_occurrence in *. rewrite HS in *. specialize (WR (shown w) field v). destruct (write f w (shown w) field v) as [w'|]; [|exact WR].
    destruct WR as (d' & A & B). exists d'. split; [exact A|]. apply B. now apply SS.
  - destruct rs as [|r rs].
    + cbn [apply_op update_found_set] in *. destruct (show_all f w) as [w'|]; [|exact ALL]. destruct ALL as (d' & A & B). exists d'. split; [exact A|]. apply B. now apply SS.
    + unfold show_all in ALL. destruct (occurs f (shown w) && (0 <? width f (base f (shown w)))) eqn:G.
      2:{ cbn [apply_op update_found_set]. now rewrite ALL. }
      assert (O : occurs f (shown w) = true) by (destruct (occurs f (shown w)); [reflexivity|discriminate]). rewrite O in *. cbn [andb] in G.
      destruct (rep_table d w (base f (shown w)) R) as (tb & f0 & fs & Q & E & Hh & L & _ & _); [lia|].
      assert (U : apply_op d (OFind (r :: rs)) = Ok (with_occs d (updateN (d_occs d) (shown w) (fun _ => mkTocc (r :: rs) (base f (shown w)) 0 (flat_map (seen_from (shown w)) (vals (f_relationships f))))))).
      { cbn [apply_op]. apply update_found_set_ok; [discriminate|]. rewrite HS. eexists. exists tb. split; [exact RO|]. split; [exact Q|]. split; [congruence|]. reflexivity. }
      eexists. split; [exact U|]. pose proof (SS _ U) as Sd. apply (rep_occs d w); auto.
      * intros j Nj. cbn [show found spot]. unfold but. replace (j =? shown w) with false by lia. auto.
      * cbn [show found spot]. unfold but. now rewrite N.eqb_refl.
  - cbn [apply_op] in *. destruct (show_all f w) as [w'|]; [|exact ALL]. destruct ALL as (d' & A & B). exists d'. split; [exact A|]. apply B. now apply SS.
  - eexists. split; [reflexivity|]. split; [|now apply SS]. destruct R as [(R1 & R2 & R3 & R4 & R5) _]. repeat (split; auto).
  - eexists. split; [reflexivity|]. split; [|now apply SS]. destruct R as [(R1 & R2 & R3 & R4 & R5) _]. split; [exact R1|]. split; [exact R2|]. split; [exact R3|]. split.
    + intros t. rewrite <- R4. unfold clear_records, with_tables. cbn [d_tables]. rewrite nthN_map. destruct (nthN (d_tables d) t) as [tb|]; [|reflexivity]. cbn [option_map]. unfold field_names. cbn [dt_fields]. now rewrite map_map.
    + intros t j r. cbn [many]. replace (r <? 0) with false by lia. rewrite andb_false_r. unfold cell, clear_records, with_tables. cbn [d_tables]. rewrite nthN_map.
      destruct (nthN (d_tables d) t) as [tb|]; [|reflexivity]. cbn [option_map dt_fields]. rewrite nthN_map. destruct (nthN (dt_fields tb) j); [|reflexivity]. cbn [option_map df_records]. apply nthN_None. cbn. lia.
Qed.

Lemma named_index : forall l ix name, sget (fold_left (fun ix e => sset ix (oc_name (snd e)) (as_u16 (fst e))) l ix) name =
  fold_left (fun acc (e : N * occurrence) => if str_eqb (oc_name (snd e)) name then Some (fst e mod 65536) else acc) l (sget ix name).
Proof.
  induction l as [|e l IH]; intros ix name; cbn [fold_left]; [reflexivity|]. rewrite IH. f_equal. unfold sget, sset. rewrite (mget_mset _ str_eqb_spec). reflexivity.
Qed.
Lemma start_rep d : maps_ok f -> generate_from_fmp12 db_new f = Ok d -> Rep d (beginning f).
Proof.
  intros M G. pose proof (gen_wide f d M G) as (_ & _ & C). destruct (gen_sound f d M G) as [S _]. split; [|exact S]. destruct (generate_ok f M) as [G1 G2].
  assert (Fit : relations_fit f).
  { unfold relations_fit. destruct (Forall_dec (fun rl => rl_table1 rl <= max_key (keys (f_occurrences f)) /\
      rl_table2 rl <= max_key (keys (f_occurrences f)))) with (l := vals (f_relationships f)) as [H|H]; auto.
    - intros rl. set (m := max_key (keys (f_occurrences f))).
      destruct ((rl_table1 rl <=? m) && (rl_table2 rl <=? m)) eqn:E; [left; lia|right; lia].
    - rewrite G2 in G by auto. discriminate. }
  destruct (G1 Fit) as (d0 & E & _ & _ & Ht & Ho & _ & Hh & Hx). rewrite E in G. inversion G; subst d0. clear G G1 G2 E.
  split; [exact Hh|]. split; [|split; [|split; [|exact C]]].
  - intros i. rewrite Ho. unfold occurrence_at, occurs, base. cbn [beginning found spot]. destruct (nget (f_occurrences f) i) as [o|] eqn:Q; [|reflexivity].
    replace (i <=? max_key (keys (f_occurrences f))) with true; [reflexivity|]. symmetry. apply N.leb_le. apply max_key_ge. apply (mget_In _ N.eqb_spec) in Q. apply in_map_iff. exists (i, o). auto.
  - intros name. rewrite Hx. apply named_index.
  - intros t. rewrite Ht. unfold headings, width, heading. destruct (nget (f_tables f) t) as [tt|] eqn:Et; [|destruct (t <=? _); reflexivity].
    assert (Nd : NoDup (keys (tb_fields tt))). { destruct M as (_ & _ & _ & M). eapply M. eapply (mget_In _ N.eqb_spec); eauto. }
    destruct (gen_fields_ok tt Nd) as (fs & Ef & L & Hf). unfold field_names, empty_table, columns. cbn [dt_fields]. rewrite Ef. apply nth_ext. intros j. rewrite nthN_map, Hf, nthN_map. unfold column.
    assert (B : nthN (map N.of_nat (seq 0 (N.to_nat (max_key (keys (tb_fields tt)) + 1)))) j = if j <=? max_key (keys (tb_fields tt)) then Some j else None).
    { destruct (N.leb_spec j (max_key (keys (tb_fields tt)))) as [Z|Z]; [|apply nthN_None; rewrite lenN_map; unfold lenN; rewrite seq_length; lia].
      rewrite nthN_nth_error, (map_nth_error N.of_nat (N.to_nat j) (seq 0 (N.to_nat (max_key (keys (tb_fields tt)) + 1))) (d := N.to_nat j)); [f_equal; lia|].
      rewrite (nth_error_nth' _ 0%nat) by (rewrite seq_length; lia). f_equal. rewrite seq_nth by lia. lia. }
    rewrite B. destruct (nget (tb_fields tt) j) as [fl|] eqn:Q.
    + replace (j <=? max_key (keys (tb_fields tt))) with true; [cbn [option_map]; now rewrite Q|]. symmetry. apply N.leb_le. apply max_key_ge. apply (mget_In _ N.eqb_spec) in Q. apply in_map_iff. exists (j, fl). auto.
    + destruct (j <=? _); [cbn [option_map]; now rewrite Q|reflexivity].
Qed.
Lemma steps_rep : forall os d w, Rep d w -> match steps f w os with Some w' => exists d', run_ops d os = Ok d' /\ Rep d' w' | None => run_ops d os = Panic end.
Proof.
  induction os as [|o os IH]; intros d w R; cbn [steps run_ops]; [now exists d|]. pose proof (step_rep d w o R) as H. destruct (step f w o) as [w1|].
  - destruct H as (d1 & E & R1). rewrite E. cbn [bind]. now apply IH.
  - rewrite H. reflexivity.
Qed.
End World.
