(** A stored schema is read back: the remaining components. *)
From Coq Require Import Ascii String NArith ZArith List Bool Lia.
From Verif Require Import Prelude PreludeFacts Utf8 EncodingModel EncodingProofs CharConvModel ChunkModel ComponentModel
  AsmModel AsmSpec AsmFacts AsmProofs AsmRound DecompModel DecompStream DecompImage DecompCalcSpec DecompCalc DecompScriptSpec DecompScript
  DecompRecoverSpec DecompRecover.
Import ListNotations.
Local Open Scope N_scope.

Lemma nget_of_in {V} (l : list (N * V)) k v : NoDup (map fst l) -> In (k, v) l -> nget l k = Some v.
Proof.
  induction l as [|[k0 v0] l IH]; intros ND H; [destruct H|]. rewrite nget_cons. cbn [map fst] in ND. inversion ND; subst.
  destruct H as [H|H].
  - injection H as -> ->. now rewrite N.eqb_refl.
  - destruct (N.eqb_spec k0 k) as [E|E]; auto. subst k0. exfalso. apply H2. now apply (in_map fst) in H.
Qed.

Ltac nob := cbn; auto.

Lemma still_nil : still [].
Proof. still. Qed.

Lemma run_all_fields l : forall s G qt,
  NoDup (map fst qt) -> Forall (fun t => fst t < 128) qt -> NoDup (map fst l) ->
  Forall (fun e => In (fst e) (map fst qt) /\
      Forall (fun f => fst f < 384 /\
        Forall short_text [qf_type (snd f); qf_description (snd f); qf_name (snd f); qf_account (snd f); qf_user (snd f)]) (snd e)) l ->
  f_tables (d_file s) = mk_tables G qt ->
  run_events (flat_map ev_fields l) [] s =
  Ok (with_file s (set_tables (d_file s)
       (mk_tables (fun id => match nget l id with Some x => add_fields x (G id) | None => G id end) qt))) /\
  stream_path (flat_map ev_fields l) [] = [].
Proof.
  induction l as [|[id fs] l IH]; intros s G qt NQ LQ NL HL E.
  - split; [|reflexivity]. cbn [flat_map run_events]. unfold nget. cbn [mget]. f_equal. 
    change (mk_tables (fun id => G id) qt) with (mk_tables G qt). rewrite <- E. destruct s as [[] ? ?]; reflexivity.
  - inversion HL as [|? ? [HI HF] HL']; subst. cbn [fst snd map] in *. inversion NL as [|? ? NI NL']; subst.
    assert (L128 : id < 128).
    { apply in_map_iff in HI as ([k x] & Hk & Hx). cbn [fst] in Hk. subst k. rewrite Forall_forall in LQ. now apply LQ in Hx. }
    destruct (nget_in qt id HI) as (n & Hn).
    assert (ET : nget (f_tables (d_file s)) id = Some (mkTable n [] [] (G id) false)).
    { rewrite E. unfold mk_tables. rewrite nget_map, Hn. reflexivity. }
    destruct (run_fields id fs s _ L128 HF ET) as [R1 R2].
    destruct (still_field (128 + id) ltac:(lia)) as (S1 & S2 & S3).
    destruct (run_within [128 + id; 3; 5] [] (flat_map ev_field fs) s) as [W1 W2].
    + exact still_nil.
    + repeat constructor; apply shown_id; lia.
    + cbn [app still_all]. auto.
    + exact R2.
    + cbn [flat_map]. rewrite run_events_app, stream_path_app. change (ev_fields (id, fs)) with (within [128 + id; 3; 5] (flat_map ev_field fs)).
      rewrite W1, W2. cbn [app]. rewrite R1. cbn [bind].
      match goal with |- run_events _ _ ?s1 = _ /\ _ => 
        destruct (IH s1 (fun k => if k =? id then add_fields fs (G id) else G k) qt NQ LQ NL' HL') as [I1 I2] end.
      * cbn [with_file d_file set_tables f_tables]. rewrite E. unfold mk_tables.
        rewrite (nset_map (fun t => mkTable (snd t) [] [] (G (fst t)) false)) by auto.
        apply map_ext_in. intros [k x] Hx. cbn [fst snd]. f_equal. destruct (N.eqb_spec k id) as [Ek|Ek]; auto.
        subst k. apply (nget_of_in qt) in Hx; auto. unfold with_fields. cbn. congruence.
      * rewrite I1, I2. split; [|reflexivity]. unfold with_file, set_tables. cbn [d_file f_name f_relationships f_layouts f_value_lists f_scripts f_occurrences f_sources f_tests d_segments d_names].
        do 3 f_equal. unfold mk_tables. apply map_ext. intros [k x]. cbn [fst snd]. do 2 f_equal.
        rewrite nget_cons. rewrite (N.eqb_sym id k). destruct (N.eqb_spec k id) as [Ek|Ek]; auto.
        subst k. rewrite nget_fresh by auto. reflexivity.
Qed.

(** * Layouts *)

Definition mk_layouts (l : list (N * (N * list N))) : list (N * layout) :=
  map (fun e => (fst e, mkLayout (snd (snd e)) (fst (snd e)) [] [])) l.

Lemma run_layouts l : forall s done,
  NoDup (map fst (done ++ l)) -> Forall (fun e => fst e < 384 /\ fst (snd e) < 128 /\ short_text (snd (snd e))) l ->
  f_layouts (d_file s) = mk_layouts done ->
  run_events (flat_map ev_layout l) [4; 1; 7] s =
  Ok (with_file s (set_layouts (d_file s) (mk_layouts (done ++ l)))) /\
  stream_path (flat_map ev_layout l) [4; 1; 7] = [4; 1; 7].
Proof.
  induction l as [|[x [o n]] l IH]; intros s done ND Hl E.
  - rewrite app_nil_r, <- E. split; [|reflexivity]. cbn. f_equal. destruct s as [[] ? ?]; reflexivity.
  - inversion Hl as [|? ? (Hx & Ho & Hn) Hl']; subst. cbn [fst snd] in *.
    assert (FR : ~ In x (map fst done)).
    { rewrite map_app in ND. cbn [map fst] in ND. apply NoDup_remove_2 in ND. intro H. apply ND, in_or_app. auto. }
    assert (FK : ~ In x (map fst (f_layouts (d_file s)))) by (rewrite E; unfold mk_layouts; rewrite map_map; exact FR).
    cbn [flat_map]. unfold ev_layout at 1 3. run. rewrite shown_id by lia.
    change (removelast [4; 1; 7; x]) with [4; 1; 7].
    change (dispatch [4; 1; 7; x]) with (arm_layout x).
    change (dispatch [4; 1; 7]) with (fun (_ : chunk) (x : dstate) => Ok x). cbv beta.
    unfold arm_layout at 1. cbn [ctype chunk_type_eqb bind]. rewrite nset_fresh by auto.
    unfold arm_layout at 1. cbn [ctype chunk_type_eqb bind cref].
    unfold arm_layout at 1. cbn [ctype chunk_type_eqb bind cref cdata with_file d_file f_layouts set_layouts]. rewrite nget_last by auto.
    cbn [unwrap bind]. change (at_ [1; 128 + o] 1) with (Ok (128 + o)). cbn [bind].
    replace (subU (128 + o) 128) with (Ok o) by (symmetry; apply subU_ok; lia). cbn [bind]. rewrite nset_last by auto.
    unfold arm_layout at 1. cbn [ctype chunk_type_eqb bind cref cdata with_file d_file f_layouts set_layouts]. rewrite nget_last by auto.
    cbn [unwrap bind]. rewrite nset_last, text_back by auto. cbn [ly_name ly_occurrence ly_account ly_user layout_new].
    match goal with |- run_events _ _ ?s2 = _ /\ _ => destruct (IH s2 (done ++ [(x, (o, n))])) as [I1 I2] end.
    + now rewrite <- app_assoc.
    + auto.
    + unfold mk_layouts. cbn. rewrite E, map_app. reflexivity.
    + rewrite I1, I2, <- app_assoc. split; reflexivity.
Qed.

(** * Scripts *)

Definition mk_scripts (l : list (N * list N)) : list (N * script) := map (fun e => (fst e, mkScript (snd e) [] [] [] [])) l.

Lemma run_scripts l : forall s done,
  NoDup (map fst (done ++ l)) -> Forall (fun e => fst e < 384 /\ short_text (snd e)) l ->
  f_scripts (d_file s) = mk_scripts done ->
  run_events (flat_map ev_script l) [17; 1; 1] s =
  Ok (with_file s (set_scripts (d_file s) (mk_scripts (done ++ l)))) /\
  stream_path (flat_map ev_script l) [17; 1; 1] = [17; 1; 1].
Proof.
  induction l as [|[x n] l IH]; intros s done ND Hl E.
  - rewrite app_nil_r, <- E. split; [|reflexivity]. cbn. f_equal. destruct s as [[] ? ?]; reflexivity.
  - inversion Hl as [|? ? (Hx & Hn) Hl']; subst. cbn [fst snd] in *.
    assert (FR : ~ In x (map fst done)).
    { rewrite map_app in ND. cbn [map fst] in ND. apply NoDup_remove_2 in ND. intro H. apply ND, in_or_app. auto. }
    assert (FK : ~ In x (map fst (f_scripts (d_file s)))) by (rewrite E; unfold mk_scripts; rewrite map_map; exact FR).
    cbn [flat_map]. unfold ev_script at 1 3. run. rewrite shown_id by lia.
    change (removelast [17; 1; 1; x]) with [17; 1; 1].
    change (dispatch [17; 1; 1; x]) with (arm_script_name x).
    change (dispatch [17; 1; 1]) with (fun (_ : chunk) (x : dstate) => Ok x). cbv beta.
    unfold arm_script_name at 1. cbn [ctype bind].
    unfold arm_script_name at 1. cbn [ctype bind].
    unfold arm_script_name at 1. cbn [ctype bind cref cdata]. rewrite nget_fresh by auto. cbn [unwrap bind].
    rewrite nset_fresh, text_back by auto.
    match goal with |- run_events _ _ ?s2 = _ /\ _ => destruct (IH s2 (done ++ [(x, n)])) as [I1 I2] end.
    + now rewrite <- app_assoc.
    + auto.
    + unfold mk_scripts. cbn. rewrite E, map_app. reflexivity.
    + rewrite I1, I2, <- app_assoc. split; reflexivity.
Qed.

(** * Sources *)

Lemma run_source_names l : forall s ns,
  Forall2 (fun (e : N * list N * list N) n => decode_bytes (snd (fst e)) = Ok n) l ns ->
  run_events (map (fun e => Item (snd (fst e))) l) [32; 1; 1] s = Ok (mkD (d_file s) (d_segments s) (d_names s ++ ns)) /\
  stream_path (map (fun e => Item (snd (fst e))) l) [32; 1; 1] = [32; 1; 1].
Proof.
  induction l as [|[[id n] loc] l IH]; intros s ns H; inversion H as [|? m ? ms Hm Hms]; subst.
  - rewrite app_nil_r. destruct s; split; reflexivity.
  - cbn [fst snd map] in *. run. change (dispatch [32; 1; 1]) with arm_source_name.
    unfold arm_source_name at 1. cbn [ctype cdata unwrap bind]. rewrite Hm. cbn [bind].
    match goal with |- run_events _ _ ?s2 = _ /\ _ => destruct (IH s2 ms Hms) as [I1 I2] end.
    rewrite I1, I2. cbn [d_file d_segments d_names]. rewrite <- app_assoc. split; reflexivity.
Qed.

Lemma run_sources l : forall s ss,
  NoDup (map fst (f_sources (d_file s)) ++ map (fun e => fst (fst e)) l) ->
  Forall (fun e => fst (fst e) < 128 /\ 10 <= lenN (snd e)) l ->
  Forall2 (fun (e : N * list N * list N) n => decode_bytes (snd (fst e)) = Ok n) l (d_names s) ->
  Forall2 source_back l ss ->
  run_events (flat_map ev_source l) [32; 5] s =
  Ok (mkD (set_sources (d_file s) (f_sources (d_file s) ++ ss)) (d_segments s) []) /\
  stream_path (flat_map ev_source l) [32; 5] = [32; 5].
Proof.
  induction l as [|[[id n] loc] l IH]; intros s ss ND HL HN HS;
    inversion HN as [E0|? m ? ms Hm Hms E0 E]; subst; inversion HS as [|? r ? rs Hr Hrs]; subst.
  - rewrite app_nil_r. split; [|reflexivity]. cbn. destruct s as [[] ? ?]; cbn in *. unfold set_sources. cbn. congruence.
  - inversion HL as [|? ? [Hi H10] HL']; subst. cbn [fst snd map] in *.
    destruct Hr as (n' & lc & D & LC & ->). assert (n' = m) by congruence. subst n'.
    assert (FK : ~ In id (map fst (f_sources (d_file s)))).
    { apply NoDup_remove_2 in ND. intro H. apply ND, in_or_app. auto. }
    cbn [flat_map]. unfold ev_source at 1 3. run. rewrite shown_id by lia.
    change (removelast [32; 5; id]) with [32; 5].
    change (dispatch [32; 5; id]) with (arm_source id).
    change (dispatch [32; 5]) with (fun (_ : chunk) (x : dstate) => Ok x). cbv beta.
    unfold arm_source at 1. cbn [ctype cdata unwrap bind]. rewrite <- E.
    unfold number. replace (id <? 128) with true by lia. cbn [get_int]. rewrite nset_fresh by auto. cbn [bind].
    unfold arm_source at 1. cbn [ctype bind].
    assert (K6 : kv_opcode 130 loc = 6).
    { unfold kv_opcode. change (forced 130) with false. cbv iota. destruct (N.eq_dec (short_code (lenN loc)) 6) as [|Hne]; auto.
      apply short_code_short in Hne. cbn [In] in Hne.
      repeat destruct Hne as [Hne|Hne]; try contradiction; injection Hne as _ Hne; lia. }
    unfold arm_source at 1. cbn [ctype cref cdata unwrap bind ccode]. rewrite K6. change (6 =? 6) with true. cbv iota beta.
    rewrite (location_found loc lc LC). cbn [bind d_file f_sources set_sources with_file]. rewrite nget_last by auto.
    rewrite nset_last by auto. cbn [bind ds_name ds_location ds_account ds_user].
    match goal with |- run_events _ _ ?s2 = _ /\ _ => destruct (IH s2 rs) as [I1 I2] end.
    + cbn. rewrite map_app, <- app_assoc. exact ND.
    + auto.
    + exact Hms.
    + auto.
    + rewrite I1, I2. split; [|reflexivity]. cbn. rewrite <- app_assoc. reflexivity.
Qed.
