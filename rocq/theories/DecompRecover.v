(** A stored schema is read back. *)
From Coq Require Import Ascii String NArith ZArith List Bool Lia.
From Verif Require Import Prelude PreludeFacts Utf8 EncodingModel EncodingProofs CharConvModel ChunkModel ComponentModel
  AsmModel AsmSpec AsmFacts AsmProofs AsmRound DecompModel DecompStream DecompImage DecompCalcSpec DecompCalc DecompScriptSpec DecompScript DecompRecoverSpec.
Import ListNotations.
Local Open Scope N_scope.

(** * Streams *)

Lemma run_events_app es1 : forall es2 p s,
  run_events (es1 ++ es2) p s = (s1 <- run_events es1 p s ;; run_events es2 (stream_path es1 p) s1).
Proof.
  induction es1 as [|e es1 IH]; intros es2 p s; [reflexivity|]. cbn [app run_events stream_path].
  destruct (run_chunks (event_chunks e p) s) as [s1| |]; cbn [bind]; auto.
Qed.

(** Directories in which going in and out does nothing. *)
Definition still (p : list N) : Prop :=
  forall ch s, cref ch = None -> csegment ch = None -> In (ctype ch) [PathPush; PathPop; Noop] -> dispatch p ch s = Ok s.

Ltac still := let ch := fresh in let H := fresh in
  intros ch ? ? ? H; cbn; unfold arm_occurrence, arm_source_name, arm_relation;
  repeat match goal with E : cref ch = None |- _ => rewrite ?E; clear E end;
  cbn [In] in H; repeat destruct H as [H|H]; try contradiction; rewrite <- ?H; reflexivity.

Fixpoint still_all (path dirs : list N) : Prop :=
  match dirs with [] => True | d :: ds => still (path ++ [d]) /\ still_all (path ++ [d]) ds end.

Lemma run_within dirs : forall p es s,
  still p -> Forall (fun d => shown d = d) dirs -> still_all p dirs -> stream_path es (p ++ dirs) = p ++ dirs ->
  run_events (within dirs es) p s = run_events es (p ++ dirs) s /\ stream_path (within dirs es) p = p.
Proof.
  induction dirs as [|d ds IH]; intros p es s Hp Hs Ha He; cbn [within].
  - rewrite app_nil_r in *. auto.
  - inversion Hs as [|? ? Hd Hds]; subst. destruct Ha as [Ha1 Ha2].
    replace (p ++ d :: ds) with ((p ++ [d]) ++ ds) in * by (rewrite <- app_assoc; reflexivity).
    destruct (IH (p ++ [d]) es s Ha1 Hds Ha2 He) as [I1 I2]. split.
    + cbn [run_events event_chunks run_chunks event_path]. rewrite Hd.
      rewrite (Ha1 (mkChunk PathPush _ _ _ _ _ _)) by (cbn; auto). cbn [bind].
      rewrite (Ha1 (mkChunk Noop _ _ _ _ _ _)) by (cbn; auto). cbn [bind].
      rewrite run_events_app, I1, I2. destruct (run_events es _ s) as [s1| |]; cbn [bind]; auto.
      cbn [run_events event_chunks run_chunks]. rewrite removelast_last. rewrite Hp by (cbn; auto). reflexivity.
    + cbn [stream_path event_path]. rewrite Hd, stream_path_app, I2. cbn [stream_path event_path]. apply removelast_last.
Qed.

Lemma shown_id d : d < 384 -> shown d = d.
Proof. intros H. unfold shown. destruct (N.ltb_spec d 128); auto. rewrite N.mod_small; lia. Qed.

Lemma text_back s : short_text s -> fm_string_decrypt (fm_string_encrypt s) = s.
Proof. intros [H _]. now apply decrypt_encrypt. Qed.

(** * Maps *)

Lemma nset_fresh {V} (m : list (N * V)) k v : ~ In k (map fst m) -> nset m k v = m ++ [(k, v)].
Proof.
  induction m as [|[k0 v0] m IH]; intros H; [reflexivity|]. unfold nset in *. cbn [mset app map fst In] in *.
  replace (k0 =? k) with false by (symmetry; apply N.eqb_neq; intuition). rewrite IH; auto.
Qed.

Lemma nset_last {V} (m : list (N * V)) k v w : ~ In k (map fst m) -> nset (m ++ [(k, v)]) k w = m ++ [(k, w)].
Proof. intros H. rewrite <- (nset_fresh m k v), nset_nset by auto. now apply nset_fresh. Qed.

Lemma nget_last {V} (m : list (N * V)) k v : ~ In k (map fst m) -> nget (m ++ [(k, v)]) k = Some v.
Proof. intros H. rewrite <- nset_fresh by auto. rewrite nget_nset, N.eqb_refl. reflexivity. Qed.

Lemma nhas_fresh {V} (m : list (N * V)) k : ~ In k (map fst m) -> nhas m k = false.
Proof.
  intros H. unfold nhas, mhas. destruct (mget N.eqb m k) eqn:E; auto. exfalso. apply H.
  clear H. induction m as [|[k0 v0] m IH]; [discriminate|]. cbn [mget map fst In] in *.
  destruct (N.eqb_spec k0 k); auto.
Qed.

Lemma nget_fresh {V} (m : list (N * V)) k : ~ In k (map fst m) -> nget m k = None.
Proof. intros H. apply nhas_fresh in H. unfold nhas, mhas, nget in *. destruct (mget N.eqb m k); congruence. Qed.

Lemma nset_map {A V} (F : N * A -> V) (l : list (N * A)) k v : NoDup (map fst l) -> In k (map fst l) ->
  nset (map (fun t => (fst t, F t)) l) k v = map (fun t => (fst t, if fst t =? k then v else F t)) l.
Proof.
  induction l as [|[k0 a] l IH]; intros ND HI; [destruct HI|]. cbn [map fst In] in *. inversion ND; subst.
  unfold nset in *. cbn [mset]. destruct (N.eqb_spec k0 k) as [E|E].
  - subst k0. f_equal. apply map_ext_in. intros [k1 b] Hb. cbn [fst]. 
    replace (k1 =? k) with false; auto. symmetry. apply N.eqb_neq. intros ->. apply H1. now apply (in_map fst) in Hb.
  - f_equal. apply IH; auto. now destruct HI.
Qed.

Lemma nget_map {A V} (F : N * A -> V) (l : list (N * A)) k :
  nget (map (fun t => (fst t, F t)) l) k = option_map (fun a => F (k, a)) (nget l k).
Proof.
  induction l as [|[k0 a] l IH]; [reflexivity|]. cbn [map fst]. rewrite !nget_cons.
  destruct (N.eqb_spec k0 k) as [E|E]; auto. now subst k0.
Qed.

Lemma nget_in {V} (l : list (N * V)) k : In k (map fst l) -> exists v, nget l k = Some v.
Proof.
  induction l as [|[k0 a] l IH]; intros H; [destruct H|]. rewrite nget_cons. cbn [map fst In] in H.
  destruct (N.eqb_spec k0 k); eauto. destruct H; [congruence|auto].
Qed.

Lemma bset_insert {V} (m : list (N * V)) k v : bset m k v = insert_by_id k v m.
Proof.
  induction m as [|[k0 v0] m IH]; [reflexivity|]. cbn [bset insert_by_id]. rewrite IH.
  destruct (N.compare_spec k k0).
  - subst. now rewrite N.eqb_refl.
  - replace (k =? k0) with false by lia. now replace (k <? k0) with true by lia.
  - replace (k =? k0) with false by lia. now replace (k <? k0) with false by lia.
Qed.

Lemma nget_insert {V} (m : list (N * V)) k v : nget (insert_by_id k v m) k = Some v.
Proof.
  induction m as [|[k0 v0] m IH]; cbn [insert_by_id]; rewrite ?nget_cons, ?N.eqb_refl; auto.
  destruct (N.compare_spec k k0); rewrite ?nget_cons, ?N.eqb_refl; auto. now replace (k0 =? k) with false by lia.
Qed.

Lemma insert_insert {V} (m : list (N * V)) k v w : insert_by_id k w (insert_by_id k v m) = insert_by_id k w m.
Proof.
  induction m as [|[k0 v0] m IH]; cbn [insert_by_id].
  - now rewrite N.compare_refl.
  - destruct (k ?= k0) eqn:E; cbn [insert_by_id]; rewrite ?N.compare_refl; auto. rewrite E. now rewrite IH.
Qed.

Ltac run := cbn [flat_map app run_events event_chunks run_chunks event_path stream_path text_ev fst snd].

(** * Tables *)

Definition mk_tables (G : N -> list (N * field)) (l : list (N * list N)) : list (N * table) :=
  map (fun t => (fst t, mkTable (snd t) [] [] (G (fst t)) false)) l.

Lemma keys_tables G l : map fst (mk_tables G l) = map fst l.
Proof. unfold mk_tables. rewrite map_map. reflexivity. Qed.

Lemma with_file_file s f : d_file (with_file s f) = f.
Proof. reflexivity. Qed.
Lemma with_file_twice s f g : with_file (with_file s f) g = with_file s g.
Proof. reflexivity. Qed.
Lemma with_same s : with_file s (d_file s) = s.
Proof. destruct s; reflexivity. Qed.

Lemma run_tables l : forall s done,
  NoDup (map fst (done ++ l)) -> Forall (fun t => fst t < 128) done -> Forall (fun t => fst t < 128 /\ short_text (snd t)) l ->
  f_tables (d_file s) = mk_tables (fun _ => []) done ->
  run_events (flat_map ev_table l) [3; 16; 5] s =
  Ok (with_file s (set_tables (d_file s) (mk_tables (fun _ => []) (done ++ l)))) /\
  stream_path (flat_map ev_table l) [3; 16; 5] = [3; 16; 5].
Proof.
  induction l as [|[id n] l IH]; intros s done ND Hd Hl E.
  - rewrite app_nil_r, <- E. split; [|reflexivity]. cbn. f_equal. destruct s as [f g h]. destruct f; reflexivity.
  - inversion Hl as [|? ? [Hi Hn] Hl']; subst. cbn [fst snd] in *.
    assert (FR : ~ In id (map fst done)).
    { rewrite map_app in ND. cbn [map fst] in ND. apply NoDup_remove_2 in ND. intro H. apply ND, in_or_app. auto. }
    assert (FK : ~ In id (map fst (f_tables (d_file s)))) by now rewrite E, keys_tables.
    assert (F128 : ~ In (128 + id) (map fst (f_tables (d_file s)))).
    { rewrite E, keys_tables. intros H. apply in_map_iff in H as ([k x] & Hk & Hx). cbn [fst] in Hk.
      rewrite Forall_forall in Hd. apply Hd in Hx. cbn [fst] in Hx. lia. }
    cbn [flat_map]. unfold ev_table at 1 3. run. rewrite shown_id by lia.
    change (removelast [3; 16; 5; 128 + id]) with [3; 16; 5].
    change (dispatch [3; 16; 5; 128 + id]) with (arm_table (128 + id)).
    change (dispatch [3; 16; 5]) with (fun (_ : chunk) (x : dstate) => Ok x). cbv beta.
    unfold arm_table at 1. cbn [ctype chunk_type_eqb]. rewrite nhas_fresh by auto.
    replace (subU (128 + id) 128) with (Ok id) by (symmetry; apply subU_ok; lia). cbn [bind].
    unfold arm_table at 1. cbn [ctype chunk_type_eqb cref bind]. cbv beta iota.
    unfold arm_table at 1. cbn [ctype chunk_type_eqb cref cdata bind]. cbv beta iota.
    replace (subU (128 + id) 128) with (Ok id) by (symmetry; apply subU_ok; lia). cbn [bind with_file d_file set_tables f_tables].
    rewrite nset_fresh, nget_last by auto. cbn [unwrap bind].
    rewrite nset_last by auto. rewrite text_back by auto.
    match goal with |- run_events _ _ ?s2 = _ /\ _ => set (s1 := s2) end.
    destruct (IH s1 (done ++ [(id, n)])) as [I1 I2].
    + rewrite <- app_assoc. exact ND.
    + apply Forall_app. split; auto.
    + auto.
    + unfold s1, mk_tables. cbn. rewrite E, map_app. reflexivity.
    + rewrite I1, I2. rewrite <- app_assoc. split; reflexivity.
Qed.

(** * Fields *)

Lemma dispatch_field x y ch s : 128 <= x -> dispatch [x; 3; 5; y] ch s = arm_field x y ch s.
Proof.
  intros H. destruct x as [|p]; [lia|]. do 6 (destruct p as [p|p|]; try lia; try reflexivity).
Qed.

Lemma still_field x : 128 <= x -> still [x] /\ still [x; 3] /\ still [x; 3; 5].
Proof.
  intros H. repeat split; intros ch s _ _ _; (destruct x as [|p]; [lia|]); do 6 (destruct p as [p|p|]; try lia; try reflexivity).
Qed.

Definition add_fields (l : list (N * qfield)) (m : list (N * field)) : list (N * field) :=
  fold_left (fun acc e => insert_by_id (fst e) (snd e) acc) (map (fun e => (fst e, back_field (snd e))) l) m.

Definition with_fields (tb : table) (m : list (N * field)) : table :=
  mkTable (tb_name tb) (tb_account tb) (tb_user tb) m (tb_init tb).

Lemma nset_id {V} (m : list (N * V)) k v : nget m k = Some v -> nset m k v = m.
Proof.
  induction m as [|[k0 v0] m IH]; intros H; [discriminate|]. rewrite nget_cons in H. unfold nset in *. cbn [mset].
  destruct (N.eqb_spec k0 k); [congruence|]. now rewrite IH.
Qed.

Lemma mod_field_ok f t y g tb fl : nget (f_tables f) t = Some tb -> nget (tb_fields tb) y = Some fl ->
  mod_field f t y g = Ok (set_tables f (nset (f_tables f) t (with_fields tb (insert_by_id y (g fl) (tb_fields tb))))).
Proof. intros H1 H2. unfold mod_field. rewrite H1. cbn [unwrap bind]. rewrite H2. cbn [unwrap bind]. now rewrite bset_insert. Qed.

Lemma set_tables_twice f a b : set_tables (set_tables f a) b = set_tables f b.
Proof. reflexivity. Qed.

(** One key/value of a field. *)
Lemma field_put t y k v s tb fl g :
  t < 128 -> y < 384 -> In (k, g) 
    [(2, fun (x : list N) fl => mkField (fl_data_type fl) (fl_description fl) (fl_name fl) x (fl_account fl) (fl_user fl));
     (3, fun x fl => mkField (fl_data_type fl) x (fl_name fl) (fl_type fl) (fl_account fl) (fl_user fl));
     (16, fun x fl => mkField (fl_data_type fl) (fl_description fl) x (fl_type fl) (fl_account fl) (fl_user fl));
     (129, fun x fl => mkField (fl_data_type fl) (fl_description fl) (fl_name fl) (fl_type fl) x (fl_user fl));
     (130, fun x fl => mkField (fl_data_type fl) (fl_description fl) (fl_name fl) (fl_type fl) (fl_account fl) x)] ->
  nget (f_tables (d_file s)) t = Some tb -> nget (tb_fields tb) y = Some fl -> short_text v ->
  forall c p, dispatch [128 + t; 3; 5; y] (mkChunk RefSimple c (Some (fm_string_encrypt v)) None p None (Some k)) s =
  Ok (with_file s (set_tables (d_file s) (nset (f_tables (d_file s)) t (with_fields tb (insert_by_id y (g v fl) (tb_fields tb)))))).
Proof.
  intros Ht Hy HI E1 E2 Hv c p. rewrite dispatch_field by lia. unfold arm_field.
  replace (128 <=? 128 + t) with true by lia. cbv zeta. cbn [ctype chunk_type_eqb cref cdata].
  replace (128 + t - 128) with t by lia. unfold as_u16. rewrite N.mod_small by lia. rewrite text_back by auto.
  cbn [In] in HI. repeat destruct HI as [HI|HI]; try contradiction; injection HI as <- <-; cbv beta iota;
    rewrite (mod_field_ok _ _ _ _ tb fl) by auto; reflexivity.
Qed.

Lemma nset_same_key {V} (m : list (N * V)) t a b : nset (nset m t a) t b = nset m t b.
Proof. apply nset_nset. Qed.

Lemma run_fields t l : forall s tb,
  t < 128 ->
  Forall (fun f => fst f < 384 /\
        Forall short_text [qf_type (snd f); qf_description (snd f); qf_name (snd f); qf_account (snd f); qf_user (snd f)]) l ->
  nget (f_tables (d_file s)) t = Some tb ->
  run_events (flat_map ev_field l) [128 + t; 3; 5] s =
  Ok (with_file s (set_tables (d_file s) (nset (f_tables (d_file s)) t (with_fields tb (add_fields l (tb_fields tb)))))) /\
  stream_path (flat_map ev_field l) [128 + t; 3; 5] = [128 + t; 3; 5].
Proof.
  induction l as [|[y q] l IH]; intros s tb Ht Hl E.
  - split; [|reflexivity]. cbn [flat_map run_events add_fields map fold_left]. f_equal.
    rewrite nset_id by (rewrite E; destruct tb; reflexivity). destruct s as [[] ? ?]; reflexivity.
  - inversion Hl as [|? ? [Hy HT] Hl']; subst. cbn [fst snd] in *.
    inversion HT as [|? ? T1 HT1]; subst. inversion HT1 as [|? ? T2 HT2]; subst. inversion HT2 as [|? ? T3 HT3]; subst.
    inversion HT3 as [|? ? T4 HT4]; subst. inversion HT4 as [|? ? T5 _]; subst. clear HT HT1 HT2 HT3 HT4.
    cbn [flat_map]. unfold ev_field at 1 3. run. rewrite shown_id by lia.
    change (removelast [128 + t; 3; 5; y]) with [128 + t; 3; 5].
    assert (PUSH : forall c d p, dispatch [128 + t; 3; 5; y] (mkChunk PathPush c d None p None None) s =
       Ok (with_file s (set_tables (d_file s) (nset (f_tables (d_file s)) t (with_fields tb (insert_by_id y field_new (tb_fields tb))))))).
    { intros. rewrite dispatch_field by lia. unfold arm_field. replace (128 <=? 128 + t) with true by lia. cbv zeta.
      cbn [ctype chunk_type_eqb]. replace (128 + t - 128) with t by lia. unfold as_u16. rewrite N.mod_small by lia.
      assert (nhas (f_tables (d_file s)) t = true) as -> by (unfold nhas, mhas, nget in *; now rewrite E).
      rewrite E. cbn [unwrap bind]. now rewrite bset_insert. }
    rewrite PUSH. cbn [bind]. clear PUSH.
    match goal with |- context [bind (dispatch _ _ ?s2)] => set (s1 := s2) end.
    assert (NOOP : forall c p, dispatch [128 + t; 3; 5; y] (mkChunk Noop c None None p None None) s1 = Ok s1).
    { intros. rewrite dispatch_field by lia. unfold arm_field. destruct (_ <=? _); reflexivity. }
    rewrite NOOP. cbn [bind]. clear NOOP.
    assert (X1 : nget (f_tables (d_file s1)) t = Some (with_fields tb (insert_by_id y field_new (tb_fields tb)))).
    { unfold s1. cbn. now rewrite nget_nset, N.eqb_refl. }
    erewrite (field_put t y 2 (qf_type q) s1 _ field_new) by (first [lia | eassumption | solve [cbn; auto 6] | apply nget_insert]).
    cbn [bind]. match goal with |- context [bind (dispatch _ _ ?s2)] => set (s3 := s2) end.
    erewrite (field_put t y 3 (qf_description q) s3)
      by (first [lia | eassumption | solve [cbn; auto 6] | unfold s3; cbn; rewrite nget_nset, N.eqb_refl; reflexivity | apply nget_insert]).
    cbn [bind]. match goal with |- context [bind (dispatch _ _ ?s2)] => set (s4 := s2) end.
    erewrite (field_put t y 16 (qf_name q) s4)
      by (first [lia | eassumption | solve [cbn; auto 6] | unfold s4; cbn; rewrite nget_nset, N.eqb_refl; reflexivity | apply nget_insert]).
    cbn [bind]. match goal with |- context [bind (dispatch _ _ ?s2)] => set (s5 := s2) end.
    erewrite (field_put t y 129 (qf_account q) s5)
      by (first [lia | eassumption | solve [cbn; auto 6] | unfold s5; cbn; rewrite nget_nset, N.eqb_refl; reflexivity | apply nget_insert]).
    cbn [bind]. match goal with |- context [bind (dispatch _ _ ?s2)] => set (s6 := s2) end.
    erewrite (field_put t y 130 (qf_user q) s6)
      by (first [lia | eassumption | solve [cbn; auto 6] | unfold s6; cbn; rewrite nget_nset, N.eqb_refl; reflexivity | apply nget_insert]).
    cbn [bind]. match goal with |- context [bind (dispatch _ _ ?s2)] => set (s7 := s2) end.
    rewrite (proj2 (proj2 (still_field (128 + t) ltac:(lia)))) by (cbn; auto). cbn [bind].
    assert (E7 : s7 = with_file s (set_tables (d_file s) (nset (f_tables (d_file s)) t
                   (with_fields tb (insert_by_id y (back_field q) (tb_fields tb)))))).
    { unfold s7, s6, s5, s4, s3, s1, with_file, set_tables, with_fields, back_field.
      cbn [d_file d_segments d_names f_name f_tables f_relationships f_layouts f_value_lists f_scripts f_occurrences f_sources f_tests
           tb_name tb_account tb_user tb_fields tb_init fl_data_type fl_description fl_name fl_type fl_account fl_user].
      rewrite !nset_nset, !insert_insert. reflexivity. }
    rewrite E7.
    match goal with |- run_events _ _ ?s8 = _ /\ _ =>
      destruct (IH s8 (with_fields tb (insert_by_id y (back_field q) (tb_fields tb))) Ht Hl') as [I1 I2] end.
    { cbn. now rewrite nget_nset, N.eqb_refl. }
    rewrite I1, I2. split; [|reflexivity]. unfold with_file, set_tables, with_fields.
    cbn [d_file d_segments d_names f_name f_tables f_relationships f_layouts f_value_lists f_scripts f_occurrences f_sources f_tests
         tb_name tb_account tb_user tb_fields tb_init]. rewrite nset_nset. reflexivity.
Qed.
