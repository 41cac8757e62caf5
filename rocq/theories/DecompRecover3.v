(** A stored schema is read back: occurrences, relations and the whole. *)
From Coq Require Import Ascii String NArith ZArith List Bool Lia.
From Verif Require Import Prelude PreludeFacts Utf8 EncodingModel EncodingProofs CharConvModel ChunkModel ComponentModel
  AsmModel AsmSpec AsmFacts AsmProofs AsmRound DecompModel DecompStream DecompImage DecompCalcSpec DecompCalc DecompScriptSpec DecompScript
  DecompRecoverSpec DecompRecover DecompRecover2.
Import ListNotations.
Local Open Scope N_scope.

(** * Numbered lists *)

Definition numbered {A} (l : list A) : list (N * A) :=
  map (fun '(i, x) => (N.of_nat i, x)) (combine (seq 1 (length l)) l).

Lemma combine_snoc {A} (l : list A) x : forall a,
  combine (seq a (length (l ++ [x]))) (l ++ [x]) = combine (seq a (length l)) l ++ [((a + length l)%nat, x)].
Proof.
  induction l as [|y l IH]; intros a.
  - cbn. now rewrite Nat.add_0_r.
  - cbn [app length seq combine]. rewrite IH. replace (S a + length l)%nat with (a + S (length l))%nat by lia. reflexivity.
Qed.

Lemma numbered_snoc {A} (l : list A) x : numbered (l ++ [x]) = numbered l ++ [(lenN l + 1, x)].
Proof. unfold numbered. rewrite combine_snoc, map_app. cbn [map]. do 3 f_equal. unfold lenN. lia. Qed.

Lemma numbered_keys {A} (l : list A) k : In k (map fst (numbered l)) -> 1 <= k /\ k <= lenN l.
Proof.
  induction l as [|x l IH] using rev_ind; [intros []|]. rewrite numbered_snoc, map_app, in_app_iff, lenN_app.
  change (lenN [x]) with 1. intros [H|H]; [apply IH in H; lia|]. cbn in H. destruct H as [H|[]]. lia.
Qed.

Lemma numbered_NoDup {A} (l : list A) : NoDup (map fst (numbered l)).
Proof.
  induction l as [|x l IH] using rev_ind; [constructor|]. rewrite numbered_snoc, map_app. cbn [map fst].
  apply (NoDup_Add (a := lenN l + 1) (l := map fst (numbered l))).
  - rewrite <- (app_nil_r (map fst (numbered l))) at 1. apply Add_app.
  - split; auto. intro H. apply numbered_keys in H. lia.
Qed.

Lemma numbered_len {A} (l : list A) : lenN (numbered l) = lenN l.
Proof. unfold numbered, lenN. rewrite map_length, combine_length, seq_length. lia. Qed.

Definition occ_of (e : N * list N * list N) : occurrence := let '(t, n, _) := e in mkOcc n t [] [] [].
Definition occs_of (l : list (N * list N * list N)) : list (N * occurrence) := map (fun e => (fst e, occ_of (snd e))) (numbered l).
Definition rel_of (p : N * N) : relationship := mkRel (fst p) [] 0 (snd p) [] 0 CEqual.
Definition rels_of (l : list (N * N)) : list (N * relationship) := map (fun e => (fst e, rel_of (snd e))) (numbered l).

Definition pairs_of (l : list (N * list N * list N)) : list (N * N) :=
  flat_map (fun e => map (fun r => (fst e, r)) (snd (snd e))) (numbered l).

Lemma pairs_snoc l t n rs : pairs_of (l ++ [(t, n, rs)]) = pairs_of l ++ map (fun r => (lenN l + 1, r)) rs.
Proof. unfold pairs_of. rewrite numbered_snoc, flat_map_app. cbn [flat_map fst snd]. now rewrite app_nil_r. Qed.

Lemma distinct_app a : forall seen b, distinct seen (a ++ b) = distinct (distinct seen a) b.
Proof. induction a as [|[x y] a IH]; intros seen b; [reflexivity|]. cbn [app distinct]. apply IH. Qed.

Lemma occs_keys l k : In k (map fst (occs_of l)) -> k <= lenN l.
Proof. unfold occs_of. rewrite map_map. cbn [fst]. intros H. now apply numbered_keys in H. Qed.
Lemma rels_keys l k : In k (map fst (rels_of l)) -> k <= lenN l.
Proof. unfold rels_of. rewrite map_map. cbn [fst]. intros H. now apply numbered_keys in H. Qed.
Lemma occs_len l : lenN (occs_of l) = lenN l.
Proof. unfold occs_of. now rewrite lenN_map, numbered_len. Qed.
Lemma rels_len l : lenN (rels_of l) = lenN l.
Proof. unfold rels_of. now rewrite lenN_map, numbered_len. Qed.
Lemma occs_snoc l e : occs_of (l ++ [e]) = occs_of l ++ [(lenN l + 1, occ_of e)].
Proof. unfold occs_of. now rewrite numbered_snoc, map_app. Qed.
Lemma rels_snoc l e : rels_of (l ++ [e]) = rels_of l ++ [(lenN l + 1, rel_of e)].
Proof. unfold rels_of. now rewrite numbered_snoc, map_app. Qed.

Lemma rels_exists (f : N * N -> bool) (g : N * relationship -> bool) seen :
  (forall i p, g (i, rel_of p) = f p) -> existsb g (rels_of seen) = existsb f seen.
Proof.
  intros H. induction seen as [|p seen IH] using rev_ind; [reflexivity|].
  rewrite rels_snoc, !existsb_app, IH. cbn [existsb]. now rewrite H.
Qed.

Lemma run_related rs : forall s seen n,
  lenN (f_occurrences (d_file s)) = n -> n < 65536 -> Forall (fun r => r < 256) rs ->
  f_relationships (d_file s) = rels_of seen ->
  run_events (map (fun r => Item [0; 0; r]) rs) [3; 17; 5; 0; 251] s =
  Ok (with_file s (set_relationships (d_file s) (rels_of (distinct seen (map (fun r => (n, r)) rs))))).
Proof.
  induction rs as [|r rs IH]; intros s seen n Hn HB HR E.
  - cbn [map distinct run_events]. rewrite <- E. f_equal. destruct s as [[] ? ?]; reflexivity.
  - inversion HR as [|? ? Hr HR']; subst. cbn [map distinct]. run.
    change (dispatch [3; 17; 5; 0; 251]) with arm_relation. unfold arm_relation at 1. cbn [ctype chunk_type_eqb cdata unwrap bind].
    change (at_ [0; 0; r] 2) with (Ok r). cbn [bind]. unfold as_u16. rewrite N.mod_small by auto. rewrite E.
    rewrite (rels_exists (fun p => (fst p =? r) && (snd p =? lenN (f_occurrences (d_file s))))) by reflexivity.
    destruct (existsb _ seen).
    + cbn [bind]. now rewrite (IH s seen _ eq_refl).
    + cbn [bind]. rewrite rels_len, nset_fresh by (intro H; apply rels_keys in H; lia).
      match goal with |- run_events _ _ ?s2 = _ => rewrite (IH s2 (seen ++ [(lenN (f_occurrences (d_file s)), r)]) (lenN (f_occurrences (d_file s)))) end;
        [reflexivity|reflexivity|auto|auto|]. now rewrite rels_snoc.
Qed.

Lemma related_path rs p : stream_path (map (fun r => Item [0; 0; r]) rs) p = p.
Proof. apply stream_path_still. reflexivity. Qed.

Lemma run_occurrences l : forall s,
  lenN l < 65536 -> Forall (fun '(t, n, rs) => t < 256 /\ short_text n /\ Forall (fun r => r < 256) rs) l ->
  f_occurrences (d_file s) = [] -> f_relationships (d_file s) = [] ->
  run_events (flat_map ev_occurrence l) [3; 17; 5; 0] s =
  Ok (with_file s (set_relationships (set_occurrences (d_file s) (occs_of l)) (rels_of (distinct [] (pairs_of l))))) /\
  stream_path (flat_map ev_occurrence l) [3; 17; 5; 0] = [3; 17; 5; 0].
Proof.
  induction l as [|[[t n] rs] l IH] using rev_ind; intros s HL HF E1 E2.
  - split; [|reflexivity]. cbn. destruct s as [[] ? ?]; cbn in *. subst. reflexivity.
  - apply Forall_app in HF as [HF1 HF2]. inversion HF2 as [|? ? HH _]; subst. destruct HH as (Ht & Hn & Hr).
    rewrite lenN_app in HL. change (lenN [(t, n, rs)]) with 1 in HL.
    destruct (IH s ltac:(lia) HF1 E1 E2) as [I1 I2].
    rewrite flat_map_app, run_events_app, stream_path_app, I1, I2. cbn [bind flat_map]. rewrite app_nil_r.
    unfold ev_occurrence. run. change (shown 251) with 251.
    change (dispatch [3; 17; 5; 0]) with arm_occurrence. change (dispatch [3; 17; 5; 0; 251]) with arm_relation.
    split.
    + unfold arm_occurrence at 1. cbn [cref cdata unwrap bind]. change (at_ [0; 0; 0; 0; 0; 0; t] 6) with (Ok t).
      change (at_ [0; 0; 0; 0; 0; 0; t] 2) with (Ok 0). cbn [bind with_file d_file set_relationships set_occurrences f_occurrences].
      rewrite occs_len, nset_fresh by (intro H; apply occs_keys in H; lia).
      unfold arm_occurrence at 1. cbn [cref cdata unwrap bind with_file d_file set_relationships set_occurrences f_occurrences].
      rewrite lenN_app, occs_len. change (lenN [(lenN l + 1, mkOcc [] t [] [] [])]) with 1.
      rewrite nget_last by (intro H; apply occs_keys in H; lia). cbn [unwrap bind].
      rewrite nset_last by (intro H; apply occs_keys in H; lia). cbn [oc_table oc_table_name oc_account oc_user]. rewrite text_back by auto.
      unfold arm_relation at 1. cbn [ctype chunk_type_eqb bind].
      unfold arm_relation at 1. cbn [ctype chunk_type_eqb bind].
      rewrite run_events_app. 
      match goal with |- bind (run_events _ _ ?s2) _ = _ => rewrite (run_related rs s2 (distinct [] (pairs_of l)) (lenN l + 1)) end.
      * cbn [bind]. rewrite related_path. run. change (removelast [3; 17; 5; 0; 251]) with [3; 17; 5; 0].
        change (dispatch [3; 17; 5; 0]) with arm_occurrence. unfold arm_occurrence. cbn [cref bind].
        rewrite occs_snoc, pairs_snoc, distinct_app. reflexivity.
      * cbn. rewrite lenN_app, occs_len. reflexivity.
      * lia.
      * auto.
      * reflexivity.
    + rewrite stream_path_app, related_path. reflexivity.
Qed.

(** * Joins *)

Definition joined (J : N -> option (N * N * N)) (i : N) (p : N * N) : relationship :=
  match J i with
  | Some (cmp, a, b) => mkRel (fst p) [] a (snd p) [] b (nth (N.to_nat cmp) comparisons CEqual)
  | None => rel_of p
  end.
Definition joined_rels (J : N -> option (N * N * N)) (l : list (N * N)) : list (N * relationship) :=
  map (fun e => (fst e, joined J (fst e) (snd e))) (numbered l).

Lemma comparison_nth c : c < 7 -> comparison_of c = nth (N.to_nat c) comparisons CEqual.
Proof.
  intros H. assert (C : c = 0 \/ c = 1 \/ c = 2 \/ c = 3 \/ c = 4 \/ c = 5 \/ c = 6) by lia.
  repeat destruct C as [-> | C]; try reflexivity. subst c. reflexivity.
Qed.

Lemma path_252 a : a < 256 -> get_path_int [252; a] = 128 + a.
Proof.
  intros H. pose proof (all_bytes (fun a => get_path_int [252; a] =? 128 + a) ltac:(vm_compute; reflexivity) a H) as X.
  cbv beta in X. now apply N.eqb_eq in X.
Qed.

Lemma still_join i : still [3; 251; 5; i].
Proof.
  intros ch s H _ _. destruct i as [|p]; reflexivity.
Qed.

Lemma still_join3 i : still [3; 251; 5; i; 3].
Proof. intros ch s H _ _. change (dispatch [3; 251; 5; i; 3] ch s) with (arm_relation_fields i ch s). unfold arm_relation_fields. now rewrite H. Qed.

Lemma run_joins l : forall s J prs,
  NoDup (map fst l) -> Forall (fun '(i, (c, a, b)) => i < 384 /\ c < 7 /\ a < 256 /\ b < 256) l ->
  f_relationships (d_file s) = joined_rels J prs -> 
  run_events (flat_map ev_join l) [3; 251; 5] s =
  Ok (with_file s (set_relationships (d_file s) (joined_rels (fun i => match nget l i with Some x => Some x | None => J i end) prs))) /\
  stream_path (flat_map ev_join l) [3; 251; 5] = [3; 251; 5].
Proof.
  induction l as [|[i [[c a] b]] l IH]; intros s J prs ND HL E.
  - split; [|reflexivity]. cbn [flat_map run_events]. unfold nget. cbn [mget].
    change (joined_rels (fun i => J i) prs) with (joined_rels J prs). rewrite <- E. f_equal. destruct s as [[] ? ?]; reflexivity.
  - inversion HL as [|? ? HH HL']; subst. destruct HH as (Hi & Hc & Ha & Hb). cbn [map fst] in ND. inversion ND as [|? ? NI ND']; subst.
    cbn [flat_map]. change (ev_join (i, (c, a, b))) with (within [i; 3] [Put 1 [c; 0; 252; a; 0; 252; b]]).
    destruct (run_within [i; 3] [3; 251; 5] [Put 1 [c; 0; 252; a; 0; 252; b]] s) as [W1 W2].
    + still.
    + repeat constructor; apply shown_id; lia.
    + cbn [app still_all]. auto using still_join, still_join3.
    + reflexivity.
    + rewrite run_events_app, stream_path_app, W1, W2. run.
      change (dispatch [3; 251; 5; i; 3]) with (arm_relation_fields i).
      unfold arm_relation_fields. cbn [cref cdata unwrap bind].
      change (at_ [c; 0; 252; a; 0; 252; b] 0) with (Ok c). cbn [bind].
      change (slice [c; 0; 252; a; 0; 252; b] 2 4) with (Ok [252; a]). cbn [bind]. rewrite path_252 by auto.
      replace (subU (128 + a) 128) with (Ok a) by (symmetry; apply subU_ok; lia). cbn [bind].
      change (slice [c; 0; 252; a; 0; 252; b] 5 7) with (Ok [252; b]). cbn [bind]. rewrite path_252 by auto.
      replace (subU (128 + b) 128) with (Ok b) by (symmetry; apply subU_ok; lia). cbn [bind]. unfold as_u16. rewrite !N.mod_small by lia.
      rewrite comparison_nth by auto.
      set (J' := fun k => if k =? i then Some (c, a, b) else J k).
      assert (ST : forall s', (match nget (f_relationships (d_file s)) i with
                 | Some r => Ok (with_file s (set_relationships (d_file s) (nset (f_relationships (d_file s)) i
                     (mkRel (rl_table1 r) (rl_table1_name r) a (rl_table2 r) (rl_table2_name r) b (nth (N.to_nat c) comparisons CEqual)))))
                 | None => Ok s end) = Ok s' ->
                 s' = with_file s (set_relationships (d_file s) (joined_rels J' prs))).
      { intros s'. rewrite E. unfold joined_rels. 
        rewrite (nget_map (fun e => joined J (fst e) (snd e))). cbn [fst snd].
        destruct (nget (numbered prs) i) as [p|] eqn:EN; cbn [option_map]; intros H; injection H as <-.
        - do 2 f_equal. rewrite (nset_map (fun e => joined J (fst e) (snd e))).
          + apply map_ext_in. intros [k x] Hx. cbn [fst snd]. f_equal. 
            destruct (N.eqb_spec k i) as [Ek|Ek].
            * subst k. apply nget_of_in in Hx; [|apply numbered_NoDup]. assert (x = p) by congruence. subst x.
              unfold joined, J'. rewrite N.eqb_refl. destruct (J i) as [[[c1 a1] b1]|]; reflexivity.
            * unfold joined, J'. now replace (k =? i) with false by lia.
          + apply numbered_NoDup.
          + destruct (in_dec N.eq_dec i (map fst (numbered prs))) as [Y|Y]; auto. apply nget_fresh in Y. congruence.
        - transitivity (with_file s (set_relationships (d_file s) (joined_rels J prs))).
          + rewrite <- E. destruct s as [[] ? ?]; reflexivity.
          + do 2 f_equal. unfold joined_rels. apply map_ext_in. intros [k x] Hx. cbn [fst snd]. f_equal.
            unfold joined, J'. destruct (N.eqb_spec k i) as [Ek|Ek]; auto. subst k.
            apply nget_of_in in Hx; [|apply numbered_NoDup]. congruence. }
      match goal with |- bind (bind (bind ?m _) _) _ = _ /\ _ => destruct m as [s'| |] eqn:EM end.
      * cbn [bind]. specialize (ST s' eq_refl). subst s'.
        match goal with |- run_events _ _ ?s2 = _ /\ _ => destruct (IH s2 J' prs ND' HL' eq_refl) as [I1 I2] end.
        rewrite I1, I2. split; [|reflexivity]. unfold with_file, set_relationships.
        cbn [d_file f_name f_tables f_relationships f_layouts f_value_lists f_scripts f_occurrences f_sources f_tests d_segments d_names].
        do 3 f_equal. unfold joined_rels. apply map_ext. intros [k x]. cbn [fst snd]. f_equal. unfold joined, J'.
        rewrite nget_cons, (N.eqb_sym i k). destruct (N.eqb_spec k i) as [Ek|Ek]; auto. subst k. now rewrite nget_fresh by auto.
      * destruct (nget (f_relationships (d_file s)) i); discriminate.
      * destruct (nget (f_relationships (d_file s)) i); discriminate.
Qed.
