(** Decompiling an arbitrary file: relations and data sources. *)
From Coq Require Import NArith Arith List Bool Lia.
From Verif Require Import Prelude PreludeFacts Utf8 EncodingModel CharConvModel ChunkModel InstrModel ComponentModel DecompModel DecompSpec
  DecompScriptSpec DecompScript HistorySpec History.
Import ListNotations.
Local Open Scope N_scope.

(** ** Relations *)
Definition longer (e : entry) (x : N * N * history) : N * N * history := (fst x, snd x ++ [e]).
Definition counted (h : history) : N := lenN (filter starts_occurrence h).

Lemma counted_cons e h : counted (e :: h) = (if starts_occurrence e then 1 else 0) + counted h.
Proof. unfold counted, lenN. cbn [filter]. destruct (starts_occurrence e); cbn [length]; lia. Qed.
Lemma counted_snoc h e : counted (h ++ [e]) = counted h + (if starts_occurrence e then 1 else 0).
Proof. unfold counted, lenN. rewrite filter_app, app_length. cbn [filter]. destruct (starts_occurrence e); cbn [length]; lia. Qed.

Lemma join_no_start e b : join_to e = Some b -> starts_occurrence e = false.
Proof. unfold join_to, starts_occurrence, occurrence_here. destruct (at_place e); try discriminate. reflexivity. Qed.

Lemma joins_snoc h e : forall n seen, joins n seen (h ++ [e]) = map (longer e) (joins n seen h) ++
  match join_to e with
  | Some b => if pair_in b ((n + counted h) mod 65536) (seen ++ map fst (joins n seen h)) then [] else [((n + counted h) mod 65536, b, [])]
  | None => []
  end.
Proof.
  induction h as [|a h IH]; intros n seen; cbn [app].
  - cbn [joins map app]. rewrite app_nil_r. change (counted []) with 0. rewrite N.add_0_r. destruct (join_to e) as [b|]; [|reflexivity].
    destruct (pair_in _ _ _); reflexivity.
  - cbn [joins]. rewrite counted_cons. destruct (join_to a) as [b|] eqn:J.
    + rewrite (join_no_start a b J). change (0 + counted h) with (counted h). destruct (pair_in b (n mod 65536) seen).
      * apply IH.
      * cbn [map app]. rewrite IH. cbn [fst longer snd]. rewrite <- app_assoc. reflexivity.
    + rewrite IH. replace ((if starts_occurrence a then n + 1 else n) + counted h) with (n + ((if starts_occurrence a then 1 else 0) + counted h)) by (destruct (starts_occurrence a); lia).
      reflexivity.
Qed.

Fixpoint rels (i : N) (l : list (N * N * history)) : list (N * relationship) :=
  match l with [] => [] | x :: q => (i, relation_read i x) :: rels (i + 1) q end.

Lemma rels_get l : forall i k, nget (rels i l) k = if k <? i then None else option_map (relation_read k) (nth_error l (N.to_nat (k - i))).
Proof.
  induction l as [|x l IH]; intros i k; cbn [rels].
  - destruct (k <? i); [reflexivity|]. now destruct (N.to_nat (k - i)).
  - change (nget ((i, relation_read i x) :: rels (i + 1) l) k) with (if i =? k then Some (relation_read i x) else nget (rels (i + 1) l) k). rewrite IH.
    destruct (N.eqb_spec i k) as [<-|Hn].
    + rewrite N.ltb_irrefl, N.sub_diag. reflexivity.
    + destruct (N.ltb_spec k i), (N.ltb_spec k (i + 1)); try lia; [reflexivity|].
      replace (N.to_nat (k - i)) with (S (N.to_nat (k - (i + 1)))) by lia. reflexivity.
Qed.
Lemma rels_len l : forall i, lenN (rels i l) = lenN l.
Proof. unfold lenN. induction l as [|x l IH]; intros i; cbn [rels length]; [reflexivity|]. specialize (IH (i + 1)). lia. Qed.
Lemma rels_add l v : forall i, nset (rels i l) (i + lenN l) (relation_read (i + lenN l) v) = rels i (l ++ [v]).
Proof.
  unfold lenN. induction l as [|x l IH]; intros i; cbn [rels app length].
  - replace (i + N.of_nat 0) with i by lia. reflexivity.
  - unfold nset. cbn [mset]. destruct (N.eqb_spec i (i + N.of_nat (S (length l)))); [lia|]. f_equal.
    replace (i + N.of_nat (S (length l))) with (i + 1 + N.of_nat (length l)) by lia. apply IH.
Qed.
Lemma rels_pairs b t l : forall i, existsb (fun x => (rl_table1 (snd x) =? b) && (rl_table2 (snd x) =? t)) (rels i l) = pair_in b t (map fst l).
Proof.
  unfold pair_in. induction l as [|x l IH]; intros i; cbn [rels map existsb]; [reflexivity|]. rewrite IH. reflexivity.
Qed.
Lemma rels_same e l : (forall k, condition k e = None) -> forall i, rels i (map (longer e) l) = rels i l.
Proof.
  intros H. induction l as [|x l IH]; intros i; cbn [map rels]; [reflexivity|]. rewrite IH. f_equal. f_equal.
  unfold relation_read, longer. cbn [fst snd]. rewrite last_of_snoc, H. reflexivity.
Qed.
Lemma rels_set e k f1 f2 c l : (forall k', condition k' e = if k' =? k then Some (f1, f2, c) else None) -> forall i, 
  rels i (map (longer e) l) =
  match nget (rels i l) k with
  | Some r => nset (rels i l) k (mkRel (rl_table1 r) (rl_table1_name r) f1 (rl_table2 r) (rl_table2_name r) f2 c)
  | None => rels i l
  end.
Proof.
  intros H. induction l as [|x l IH]; intros i; cbn [map rels]; [reflexivity|]. rewrite IH.
  change (nget ((i, relation_read i x) :: rels (i + 1) l) k) with (if i =? k then Some (relation_read i x) else nget (rels (i + 1) l) k).
  assert (RR : relation_read i (longer e x) = if i =? k then mkRel (fst (fst x)) [] f1 (snd (fst x)) [] f2 c else relation_read i x).
  { unfold relation_read, longer. cbn [fst snd]. rewrite last_of_snoc, H. destruct (i =? k); reflexivity. }
  rewrite RR. destruct (N.eqb_spec i k) as [<-|Hn].
  - rewrite rels_get. destruct (N.ltb_spec i (i + 1)); [|lia]. unfold nset. cbn [mset]. rewrite N.eqb_refl. reflexivity.
  - destruct (nget (rels (i + 1) l) k) as [r|]; [|reflexivity]. unfold nset. cbn [mset]. destruct (N.eqb_spec i k); [contradiction|reflexivity].
Qed.

Lemma nth_kinds b : nth (N.to_nat b) kinds CEqual = comparison_of b.
Proof.
  destruct (N.ltb_spec b 7) as [Hb|Hb].
  - assert (H : b = 0 \/ b = 1 \/ b = 2 \/ b = 3 \/ b = 4 \/ b = 5 \/ b = 6) by lia. repeat destruct H as [->|H]; try reflexivity. now subst.
  - rewrite nth_overflow by (cbn; lia). unfold comparison_of.
    repeat match goal with |- context [match ?x with _ => _ end] => is_var x; destruct x end; try reflexivity; lia.
Qed.

Lemma slice_is {A} (d : list A) i j v : slice d i j = Ok v -> v = firstn (N.to_nat (j - i)) (skipn (N.to_nat i) d) /\ j <= lenN d.
Proof. unfold slice. destruct (_ && _) eqn:E; [|discriminate]. intros [= <-]. apply andb_true_iff in E as [_ E]. apply N.leb_le in E. auto. Qed.

Lemma relation_step h s path ch s' : dispatch path ch s = Ok s' -> occ s = numbered 1 (occs h) -> rls s = rels 1 (joins 0 [] h) ->
  rls s' = rels 1 (joins 0 [] (h ++ [(path, ch)])).
Proof.
  intros D IO I. apply frame_rls in D. rewrite joins_snoc.
  assert (CN : lenN (f_occurrences (d_file s)) = counted h).
  { fold (occ s). rewrite IO, numbered_len. unfold occs, counted. unfold lenN at 1. rewrite map_length. apply sections_count. }
  assert (Q : (forall k, condition k (path, ch) = None) -> join_to (path, ch) = None -> rls s' = rls s ->
    rls s' = rels 1 (map (longer (path, ch)) (joins 0 [] h) ++ match join_to (path, ch) with
      | Some b => if pair_in b ((0 + counted h) mod 65536) ([] ++ map fst (joins 0 [] h)) then [] else [((0 + counted h) mod 65536, b, [])]
      | None => [] end)).
  { intros Q1 Q2 E. rewrite Q2, app_nil_r, rels_same by exact Q1. congruence. }
  destruct (place_of path) eqn:P; try (apply Q; [intros k0; unfold condition, at_place; cbn [fst]; now rewrite P|unfold join_to, at_place; cbn [fst]; now rewrite P|exact D]).
  - assert (CD : forall k, condition k (path, ch) = None) by (intros; unfold condition, at_place; cbn [fst]; now rewrite P).
    unfold arm_relation in D. rewrite type_eqb_simple in D.
    assert (JT : join_to (path, ch) = if simple (path, ch) then byte_of (path, ch) 2 else None) by (unfold join_to, at_place; cbn [fst]; now rewrite P).
    unfold simple in JT. cbn [snd] in JT.
    revert D JT. destruct (match ctype ch with DataSimple => true | _ => false end); intros D JT.
    2: { apply Q; auto. now injection D as <-. }
    cbv zeta in D. destruct (cdata ch) as [d|] eqn:CDA; [|discriminate]. cbn [unwrap bind] in D. unfold at_ in D.
    destruct (nthN d 2) as [b|] eqn:NB; [|discriminate]. cbn [unwrap bind] in D.
    unfold byte_of in JT. cbn [snd] in JT. rewrite CDA, NB in JT. rewrite JT.
    change (f_relationships (d_file s)) with (rls s) in D. rewrite CN, I, rels_pairs in D. change (0 + counted h) with (counted h).
    cbn [app]. unfold as_u16 in D. destruct (pair_in b (counted h mod 65536) (map fst (joins 0 [] h))).
    + injection D as <-. rewrite app_nil_r, rels_same by exact CD. exact I.
    + injection D as <-. unfold rls at 1. cbn [d_file with_file f_relationships set_relationships]. rewrite rels_len.
      rewrite <- rels_add. replace (lenN (map (longer (path, ch)) (joins 0 [] h))) with (lenN (joins 0 [] h)) by (unfold lenN; now rewrite map_length).
      rewrite rels_same by exact CD. rewrite (N.add_comm 1). reflexivity.
  - assert (JT : join_to (path, ch) = None) by (unfold join_to, at_place; cbn [fst]; now rewrite P).
    rewrite JT, app_nil_r. unfold arm_relation_fields in D.
    destruct (key_cases (cref ch) 1) as [K|K].
    + rewrite K in D. cbv zeta in D. destruct (cdata ch) as [d|] eqn:CDA; [|discriminate]. cbn [unwrap bind] in D.
      unfold at_ in D. destruct (nthN d 0) as [b|] eqn:NB; [|discriminate]. cbn [unwrap bind] in D.
      destruct (slice d 2 4) as [x1| |] eqn:S1; try discriminate. cbn [bind] in D. destruct (subU (get_path_int x1) 128) as [f1| |] eqn:U1; try discriminate. cbn [bind] in D.
      destruct (slice d 5 7) as [x2| |] eqn:S2; try discriminate. cbn [bind] in D. destruct (subU (get_path_int x2) 128) as [f2| |] eqn:U2; try discriminate. cbn [bind] in D.
      apply slice_is in S1 as [S1 _]. apply slice_is in S2 as [S2 L2].
      destruct d as [|c [|? [|a1 [|a2 [|? [|b1 [|b2 rest]]]]]]]; try (unfold lenN in L2; cbn [length] in L2; lia).
      change (x1 = [a1; a2]) in S1. change (x2 = [b1; b2]) in S2. subst x1 x2.
      assert (b = c) by (cbn in NB; congruence). subst b.
      unfold subU in U1, U2. destruct (128 <=? get_path_int [a1; a2]); [|discriminate]. destruct (128 <=? get_path_int [b1; b2]); [|discriminate].
      injection U1 as <-. injection U2 as <-.
      rewrite (rels_set _ k ((get_path_int [a1; a2] - 128) mod 65536) ((get_path_int [b1; b2] - 128) mod 65536) (comparison_of c)).
      * rewrite <- I. unfold rls at 2 3 4. destruct (nget (f_relationships (d_file s)) k) as [r|].
        -- injection D as <-. reflexivity.
        -- injection D as <-. reflexivity.
      * intros k'. unfold condition, at_place. cbn [fst snd]. rewrite P, CDA. rewrite (has_key_is 1) by exact K. rewrite N.eqb_refl, andb_true_r, nth_kinds, (N.eqb_sym k'). reflexivity.
    + assert (E : s' = s) by (repeat match type of D with match ?x with _ => _ end = _ => destruct x end; try congruence; exfalso; apply K; reflexivity).
      subst s'. rewrite rels_same; [exact I|]. intros k'. unfold condition, at_place. cbn [fst snd]. rewrite P, has_key_other by exact K. rewrite andb_false_r.
      destruct (cdata ch) as [[|? [|? [|? [|? [|? [|? [|? ?]]]]]]]|]; reflexivity.
Qed.

(** ** Data sources *)
Definition longer2 (e : entry) (x : N * (list N * history)) : N * (list N * history) := (fst x, (fst (snd x), snd (snd x) ++ [e])).
Fixpoint left_over (waiting : list (list N)) (h : history) : list (list N) :=
  match h with
  | [] => waiting
  | e :: r =>
    match named_source e, enters_source e, waiting with
    | Some t, _, _ => left_over (waiting ++ [t]) r
    | None, Some k, t :: rest => left_over rest r
    | None, _, _ => left_over waiting r
    end
  end.

Lemma sources_snoc h e : forall w, sources w (h ++ [e]) = map (longer2 e) (sources w h) ++
  match named_source e, enters_source e, left_over w h with None, Some k, t :: _ => [(k, (t, []))] | _, _, _ => [] end.
Proof.
  induction h as [|a h IH]; intros w; cbn [app sources left_over].
  - destruct (named_source e); [reflexivity|]. destruct (enters_source e); [|reflexivity]. destruct w; reflexivity.
  - destruct (named_source a); [apply IH|]. destruct (enters_source a); [|apply IH]. destruct w; [apply IH|]. cbn [map app]. rewrite IH. reflexivity.
Qed.
Lemma left_over_snoc h e : forall w, left_over w (h ++ [e]) =
  match named_source e, enters_source e, left_over w h with
  | Some t, _, w => w ++ [t]
  | None, Some _, _ :: w => w
  | None, _, w => w
  end.
Proof.
  induction h as [|a h IH]; intros w; cbn [app left_over].
  - destruct (named_source e); [reflexivity|]. destruct (enters_source e); [|reflexivity]. destruct w; reflexivity.
  - destruct (named_source a); [apply IH|]. destruct (enters_source a); [|apply IH]. destruct w; apply IH.
Qed.

Definition source_upd (k : N) (e : entry) (d : data_source) : data_source :=
  mkSource (ds_name d) (match source_place k e with Some l => l | None => ds_location d end) (ds_account d)
    (match source_user k e with Some u => u | None => ds_user d end).

Lemma find_longer k e l : option_map (fun x => source_read k (snd x)) (find (fun x => fst x =? k) (map (longer2 e) l)) =
  option_map (source_upd k e) (option_map (fun x => source_read k (snd x)) (find (fun x => fst x =? k) l)).
Proof.
  induction l as [|x l IH]; cbn [map find]; [reflexivity|]. cbn [longer2 fst]. destruct (fst x =? k); [|exact IH].
  cbn [option_map snd longer2]. unfold source_read, source_upd. cbn [fst snd ds_name ds_location ds_account ds_user]. rewrite !last_of_snoc.
  reflexivity.
Qed.

Lemma source_of_snoc k h e : source_of k (h ++ [e]) =
  match named_source e, enters_source e, left_over [] h with
  | None, Some j, t :: _ => if j =? k then Some (mkSource t (mkLocation [] [] []) [] []) else option_map (source_upd k e) (source_of k h)
  | _, _, _ => option_map (source_upd k e) (source_of k h)
  end.
Proof.
  unfold source_of. rewrite sources_snoc, rev_app_distr, <- map_rev.
  destruct (named_source e); [apply find_longer|]. destruct (enters_source e) as [j|]; [|apply find_longer].
  destruct (left_over [] h) as [|t w]; [apply find_longer|]. cbn [rev app find fst]. destruct (j =? k); [reflexivity|apply find_longer].
Qed.

Lemma upd_none k e d : source_place k e = None -> source_user k e = None -> source_upd k e d = d.
Proof. intros A B. unfold source_upd. rewrite A, B. destruct d; reflexivity. Qed.
Lemma upd_none_map k e o : source_place k e = None -> source_user k e = None -> option_map (source_upd k e) o = o.
Proof. intros A B. destruct o; [|reflexivity]. cbn [option_map]. now rewrite upd_none. Qed.

Lemma source_step h s path ch s' : dispatch path ch s = Ok s' -> (forall k, nget (fst (src s)) k = source_of k h) -> snd (src s) = left_over [] h ->
  (forall k, nget (fst (src s')) k = source_of k (h ++ [(path, ch)])) /\ snd (src s') = left_over [] (h ++ [(path, ch)]).
Proof.
  intros D I W. apply frame_src in D.
  assert (Q : (forall k, source_place k (path, ch) = None) -> (forall k, source_user k (path, ch) = None) -> named_source (path, ch) = None -> enters_source (path, ch) = None ->
     src s' = src s ->
     (forall k, nget (fst (src s')) k = source_of k (h ++ [(path, ch)])) /\ snd (src s') = left_over [] (h ++ [(path, ch)])).
  { intros Q1 Q2 Q3 Q4 E. rewrite E. split.
    - intros k. rewrite source_of_snoc, Q3, Q4, upd_none_map; auto.
    - rewrite left_over_snoc, Q3, Q4. exact W. }
  destruct (place_of path) eqn:P;
    try (apply Q; [intros; unfold source_place, source_here, at_place; cbn [fst]; now rewrite P|intros; unfold source_user, source_here, at_place; cbn [fst]; now rewrite P
      |unfold named_source, at_place; cbn [fst]; now rewrite P|unfold enters_source, at_place; cbn [fst]; now rewrite P|exact D]).
  - (* a name *)
    assert (Q1 : forall k, source_place k (path, ch) = None) by (intros; unfold source_place, source_here, at_place; cbn [fst]; now rewrite P).
    assert (Q2 : forall k, source_user k (path, ch) = None) by (intros; unfold source_user, source_here, at_place; cbn [fst]; now rewrite P).
    assert (Q4 : enters_source (path, ch) = None) by (unfold enters_source, at_place; cbn [fst]; now rewrite P).
    assert (NS : named_source (path, ch) = if simple (path, ch) then Some (decoded (cdata ch)) else None) by (unfold named_source, at_place; cbn [fst]; now rewrite P).
    unfold simple in NS. cbn [snd] in NS. unfold arm_source_name in D.
    destruct (ctype ch) eqn:CT; try (apply Q; auto; now injection D as <-).
    destruct (cdata ch) as [d|]; [|discriminate]. cbn [unwrap bind] in D. destruct (decode_bytes d) as [t| |] eqn:DB; try discriminate. cbn [bind] in D.
    injection D as <-. cbn [decoded] in NS. rewrite DB in NS. split.
    + intros k. rewrite source_of_snoc, NS, upd_none_map by auto. apply I.
    + rewrite left_over_snoc, NS, <- W. reflexivity.
  - assert (Q3 : named_source (path, ch) = None) by (unfold named_source, at_place; cbn [fst]; now rewrite P).
    assert (SH : forall k', source_here k' (path, ch) = (k =? k')) by (intros; unfold source_here, at_place; cbn [fst]; now rewrite P).
    assert (ES : enters_source (path, ch) = if enters (path, ch) then option_map get_int (cdata ch) else None) by (unfold enters_source, at_place; cbn [fst]; now rewrite P).
    unfold enters in ES. cbn [snd] in ES. unfold arm_source in D. cbv zeta in D.
    assert (NK : ctype ch <> RefSimple -> (forall k', source_place k' (path, ch) = None) /\ forall k', source_user k' (path, ch) = None).
    { intros NC. assert (KF : keyed (path, ch) = false) by (unfold keyed; cbn [snd]; destruct (ctype ch); congruence).
      split; intros; [unfold source_place|unfold source_user]; rewrite KF, andb_false_r; reflexivity. }
    destruct (ctype ch) eqn:CT; try (destruct NK as [N1 N2]; [discriminate|]); try (apply Q; auto; now injection D as <-).
    + (* a key *)
      destruct (cref ch) as [r|] eqn:R; [|discriminate]. cbn [unwrap bind] in D.
      assert (KT : keyed (path, ch) = true) by (unfold keyed; cbn [snd]; now rewrite CT).
      destruct (N.eq_dec r 130) as [->|NR].
      * destruct (cdata ch) as [d|] eqn:CDA; [|discriminate]. cbn [unwrap bind] in D.
        assert (HK : has_key 130 (path, ch) = true) by now apply has_key_some.
        destruct (ccode ch =? 6) eqn:C6.
        -- destruct (location_from_bytes d) as [loc| |] eqn:L; try discriminate. cbn [bind] in D.
           assert (SP : forall k', source_place k' (path, ch) = if k =? k' then Some loc else None).
           { intros. unfold source_place. rewrite SH, KT, HK. cbn [snd]. rewrite C6, CDA, L. destruct (k =? k'); reflexivity. }
           assert (SU : forall k', source_user k' (path, ch) = None).
           { intros. unfold source_user. cbn [snd]. rewrite C6. cbn [negb]. rewrite andb_false_r. reflexivity. }
           change (f_sources (d_file s)) with (fst (src s)) in D. split.
           ++ intros k'. rewrite source_of_snoc, Q3, ES, <- I. destruct (nget (fst (src s)) k) as [o|] eqn:G.
              ** injection D as <-. unfold src at 1. cbn [fst d_file with_file f_sources set_sources]. rewrite nget_nset. fold (src s). destruct (N.eqb_spec k k') as [<-|Hk].
                 --- rewrite G. cbn [option_map]. unfold source_upd. rewrite SP, SU, N.eqb_refl. reflexivity.
                 --- symmetry. apply upd_none_map; auto. rewrite SP. destruct (N.eqb_spec k k'); [contradiction|reflexivity].
              ** injection D as <-. destruct (N.eqb_spec k k') as [<-|Hk]; [now rewrite G|]. symmetry. apply upd_none_map; auto. rewrite SP.
                 destruct (N.eqb_spec k k'); [contradiction|reflexivity].
           ++ rewrite left_over_snoc, Q3, ES, <- W. destruct (nget (fst (src s)) k); injection D as <-; reflexivity.
        -- assert (SU : forall k', source_user k' (path, ch) = if k =? k' then Some (fm_string_decrypt d) else None).
           { intros. unfold source_user. rewrite SH, KT, HK. cbn [snd]. rewrite C6. unfold text_of. cbn [snd]. rewrite CDA. destruct (k =? k'); reflexivity. }
           assert (SP : forall k', source_place k' (path, ch) = None).
           { intros. unfold source_place. cbn [snd]. rewrite C6. rewrite andb_false_r. reflexivity. }
           change (f_sources (d_file s)) with (fst (src s)) in D. split.
           ++ intros k'. rewrite source_of_snoc, Q3, ES, <- I. destruct (nget (fst (src s)) k) as [o|] eqn:G.
              ** injection D as <-. unfold src at 1. cbn [fst d_file with_file f_sources set_sources]. rewrite nget_nset. fold (src s). destruct (N.eqb_spec k k') as [<-|Hk].
                 --- rewrite G. cbn [option_map]. unfold source_upd. rewrite SP, SU, N.eqb_refl. reflexivity.
                 --- symmetry. apply upd_none_map; auto. rewrite SU. destruct (N.eqb_spec k k'); [contradiction|reflexivity].
              ** injection D as <-. destruct (N.eqb_spec k k') as [<-|Hk]; [now rewrite G|]. symmetry. apply upd_none_map; auto. rewrite SU.
                 destruct (N.eqb_spec k k'); [contradiction|reflexivity].
           ++ rewrite left_over_snoc, Q3, ES, <- W. destruct (nget (fst (src s)) k); injection D as <-; reflexivity.
      * assert (HK : has_key 130 (path, ch) = false) by (apply has_key_other; congruence).
        apply Q; auto; [| |].
        -- intros. unfold source_place. rewrite HK, andb_false_r. reflexivity.
        -- intros. unfold source_user. rewrite HK, andb_false_r. reflexivity.
        -- assert (E : s' = s); [|now subst].
           repeat match type of D with match ?x with _ => _ end = _ => destruct x end; try congruence; exfalso; apply NR; reflexivity.
    + (* entering *)
      destruct (cdata ch) as [d|]; [|discriminate]. cbn [unwrap bind option_map] in D, ES.
      destruct (d_names s) as [|n rest] eqn:DN.
      * injection D as <-. unfold src in W. cbn [snd] in W. split.
        -- intros k'. rewrite source_of_snoc, Q3, ES, <- W, DN, upd_none_map by auto. apply I.
        -- rewrite left_over_snoc, Q3, ES, <- W, DN. unfold src. cbn [snd]. exact DN.
      * injection D as <-. unfold src in W. cbn [snd] in W. split.
        -- intros k'. rewrite source_of_snoc, Q3, ES, <- W, DN, upd_none_map by auto. unfold src. cbn [fst d_file f_sources set_sources]. rewrite nget_nset.
           destruct (get_int d =? k'); [reflexivity|]. apply I.
        -- rewrite left_over_snoc, Q3, ES, <- W, DN. reflexivity.
Qed.
