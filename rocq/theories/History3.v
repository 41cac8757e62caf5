(** Decompiling an arbitrary file: tables, and all together. *)
From Coq Require Import NArith Arith List Bool Lia.
From Verif Require Import Prelude PreludeFacts Utf8 EncodingModel EncodingSpec CharConvModel ChunkModel InstrModel ComponentModel DecompModel DecompSpec
  DecompScriptSpec DecompScript DecompChain HistorySpec History History2.
Import ListNotations.
Local Open Scope N_scope.

(** ** Tables *)
Lemma since_snoc t h e : since_announced t (h ++ [e]) = if enters e && table_here t e then [] else since_announced t h ++ [e].
Proof. unfold since_announced. rewrite after_last_snoc. destruct (enters e && table_here t e); [reflexivity|]. destruct (after_last _ h); reflexivity. Qed.

Lemma table_name_snoc t h e : table_name_of t (h ++ [e]) =
  if table_here t e then if enters e then [] else if has_key 16 e then text_of e else table_name_of t h else table_name_of t h.
Proof.
  unfold table_name_of. rewrite since_snoc. destruct (table_here t e) eqn:T, (enters e) eqn:E; cbn [andb]; try reflexivity;
    rewrite last_of_snoc, T, E; cbn [negb andb when]; try reflexivity. destruct (has_key 16 e); reflexivity.
Qed.

Definition field_upd (t y : N) (e : entry) (f : field) : field :=
  let g k old := if field_here t y e && has_key k e then text_of e else old in
  mkField (fl_data_type f) (g 3 (fl_description f)) (g 16 (fl_name f)) (g 2 (fl_type f)) (g 129 (fl_account f)) (g 130 (fl_user f)).

Lemma field_of_snoc t y h e : field_of t y (h ++ [e]) =
  if enters e && table_here t e then None
  else if enters e && field_here t y e then Some (mkField [] [] [] [] [] [])
  else option_map (field_upd t y e) (field_of t y h).
Proof.
  unfold field_of. rewrite since_snoc. destruct (enters e && table_here t e); [reflexivity|]. rewrite after_last_snoc.
  destruct (enters e && field_here t y e); [reflexivity|]. destruct (after_last _ _) as [r|]; [|reflexivity]. cbn [option_map].
  unfold field_text, field_upd. cbn [fl_data_type fl_description fl_name fl_type fl_account fl_user]. rewrite !last_of_snoc.
  unfold when. repeat match goal with |- context [if ?c then _ else _] => destruct c end; reflexivity.
Qed.

Lemma announced_snoc t h e : announced t (h ++ [e]) = announced t h || announces t e.
Proof. apply existsb_snoc. Qed.

Lemma field_fields t y e : fields_here t e = false -> field_here t y e = false.
Proof. unfold fields_here, field_here. destruct (at_place e); try reflexivity. intros ->. reflexivity. Qed.
Lemma field_upd_none t y e f : field_here t y e = false -> field_upd t y e f = f.
Proof. intros H. unfold field_upd. cbv zeta. rewrite H. destruct f; reflexivity. Qed.
Lemma field_upd_none_map t y e o : field_here t y e = false -> option_map (field_upd t y e) o = o.
Proof. intros H. destruct o; [|reflexivity]. cbn [option_map]. now rewrite field_upd_none. Qed.

(** What is known of table [t]. *)
Definition known (h : history) (t : N) (o : option table) : Prop :=
  match o with
  | None => announced t h = false /\ table_name_of t h = [] /\ forall y, field_of t y h = None
  | Some tb => announced t h = true /\ tb_name tb = table_name_of t h /\ (forall y, nget (tb_fields tb) y = field_of t y h) /\
               tb_account tb = [] /\ tb_user tb = [] /\ tb_init tb = false
  end.

Lemma known_quiet h t o e : table_here t e = false -> fields_here t e = false -> known h t o -> known (h ++ [e]) t o.
Proof.
  intros T F K. assert (Hn : announces t e = false) by (unfold announces; rewrite T, F; apply andb_false_r).
  unfold known in *. destruct o as [tb|]; rewrite announced_snoc, Hn, orb_false_r, table_name_snoc, T.
  - destruct K as (A & N & FL & R). repeat (split; [solve [auto]|]). split; [|exact R].
    intros y. rewrite field_of_snoc, T, (field_fields t y e F), !andb_false_r, field_upd_none_map; auto. now apply field_fields.
  - destruct K as (A & N & FL). split; [exact A|]. split; [exact N|]. intros y.
    rewrite field_of_snoc, T, (field_fields t y e F), !andb_false_r, FL. reflexivity.
Qed.

Definition sorted_fields (s : dstate) : Prop := forall t tb, nget (tab s) t = Some tb -> increasing (keys (tb_fields tb)).
Definition tables_known (h : history) (s : dstate) : Prop :=
  (forall t, nget (tab s) t <> None -> announced t h = true) /\ sorted_fields s /\
  forall t, announced (t + 128) h = false -> known h t (nget (tab s) t).

Lemma nhas_get {V} (m : list (N * V)) k : nhas m k = match nget m k with Some _ => true | None => false end.
Proof. reflexivity. Qed.

(** A table is set to [tb]. *)
Lemma tables_set h s s' e t tb : tables_known h s -> tab s' = nset (tab s) t tb ->
  (forall t', t' <> t -> table_here t' e = false /\ fields_here t' e = false) ->
  increasing (keys (tb_fields tb)) -> announced t (h ++ [e]) = true ->
  (announced (t + 128) h = false -> known (h ++ [e]) t (Some tb)) -> tables_known (h ++ [e]) s'.
Proof.
  intros (A & S & K) E O I AN KN. split; [|split].
  - intros t'. rewrite E, nget_nset. destruct (N.eqb_spec t t') as [<-|]; [auto|]. intros H. rewrite announced_snoc, (A _ H). reflexivity.
  - intros t' tb'. rewrite E, nget_nset. destruct (N.eqb_spec t t') as [<-|]; [intros [= <-]; exact I|]. apply S.
  - intros t' H. rewrite announced_snoc in H. apply orb_false_iff in H as [H _]. rewrite E, nget_nset. destruct (N.eqb_spec t t') as [<-|Ht]; [auto|].
    destruct (O t') as [O1 O2]; [congruence|]. apply known_quiet; auto.
Qed.

Lemma tables_same h s s' e : tables_known h s -> tab s' = tab s ->
  (forall t, announced (t + 128) h = false -> known h t (nget (tab s) t) -> known (h ++ [e]) t (nget (tab s) t)) -> tables_known (h ++ [e]) s'.
Proof.
  intros (A & S & K) E Q. split; [|split].
  - intros t. rewrite E. intros H. rewrite announced_snoc, (A _ H). reflexivity.
  - intros t tb. rewrite E. apply S.
  - intros t H. rewrite announced_snoc in H. apply orb_false_iff in H as [H _]. rewrite E. auto.
Qed.

Lemma table_step h s path ch s' : dispatch path ch s = Ok s' -> tables_known h s -> tables_known (h ++ [(path, ch)]) s'.
Proof.
  intros D I. apply frame_tab in D.
  destruct (place_of path) as [| | | |x y|x| | | |] eqn:P;
    try (apply (tables_same h s); auto; intros t _; apply known_quiet; [unfold table_here|unfold fields_here]; unfold at_place; cbn [fst]; now rewrite P).
  - (* fields *)
    assert (TH : forall t, table_here t (path, ch) = false) by (intros; unfold table_here, at_place; cbn [fst]; now rewrite P).
    assert (FS : forall t, fields_here t (path, ch) = (x =? 128 + t)) by (intros; unfold fields_here, at_place; cbn [fst]; now rewrite P).
    assert (FH : forall t k, field_here t k (path, ch) = (x =? 128 + t) && (y mod 65536 =? k)) by (intros; unfold field_here, at_place; cbn [fst]; now rewrite P).
    unfold arm_field in D. destruct (N.leb_spec 128 x) as [Hx|Hx].
    2: { apply (tables_same h s); [exact I|now injection D as <-|]. intros t _. apply known_quiet; [apply TH|]. rewrite FS. apply N.eqb_neq. lia. }
    set (t := x - 128) in *. cbv zeta in D. assert (Ex : x = 128 + t) by (unfold t; lia). 
    assert (O : forall t', t' <> t -> table_here t' (path, ch) = false /\ fields_here t' (path, ch) = false).
    { intros t' Ht. split; [apply TH|]. rewrite FS. apply N.eqb_neq. lia. }
    assert (FS' : fields_here t (path, ch) = true) by (rewrite FS; apply N.eqb_eq; exact Ex).
    assert (FH' : forall k, field_here t k (path, ch) = (y mod 65536 =? k)) by (intros; rewrite FH; rewrite Ex, N.eqb_refl; reflexivity).
    rewrite type_eqb_push in D. fold (enters (path, ch)) in D. change (match ctype ch with PathPush => true | _ => false end) with (enters (path, ch)) in D.
    destruct I as (A & S & K). destruct (enters (path, ch)) eqn:EN.
    + (* entering *)
      assert (AN : announced t (h ++ [(path, ch)]) = true) by (rewrite announced_snoc; unfold announces; rewrite EN, FS', orb_true_r; apply orb_true_r).
      change (f_tables (d_file s)) with (tab s) in D. rewrite nhas_get in D. unfold as_u16 in D.
      destruct (nget (tab s) t) as [tb|] eqn:G.
      * rewrite G in D. cbn [unwrap bind] in D. injection D as <-.
        eapply tables_set with (t := t); [exact (conj A (conj S K))|reflexivity|exact O| |exact AN|].
        -- cbn [tb_fields]. apply bset_increasing. eapply S; eauto.
        -- intros H. specialize (K t H). rewrite G in K. destruct K as (K1 & K2 & K3 & K4 & K5 & K6). unfold known. cbn [tb_name tb_fields tb_account tb_user tb_init].
           split; [exact AN|]. split; [now rewrite table_name_snoc, TH|]. split; [|auto].
           intros k. rewrite bget_bset by (eapply S; eauto). rewrite field_of_snoc, TH, andb_false_r, EN, FH'. cbn [andb].
           destruct (y mod 65536 =? k) eqn:Ek; [reflexivity|]. rewrite field_upd_none_map by (rewrite FH'; exact Ek). apply K3.
      * rewrite nget_nset, N.eqb_refl in D. cbn [unwrap bind] in D. injection D as <-.
        eapply tables_set with (t := t) (s := s); [exact (conj A (conj S K))| |exact O| |exact AN|].
        -- unfold tab at 1. cbn [d_file with_file f_tables set_tables]. rewrite nset_nset. reflexivity.
        -- repeat constructor.
        -- intros H. specialize (K t H). rewrite G in K. destruct K as (K1 & K2 & K3). unfold known. cbn [tb_name tb_fields tb_account tb_user tb_init table_new].
           split; [exact AN|]. split; [now rewrite table_name_snoc, TH, K2|]. split; [|auto].
           intros k. match goal with |- nget ?m k = _ => change m with [(y mod 65536, field_new)] end. rewrite nget_cons. rewrite field_of_snoc, TH, andb_false_r, EN, FH'. cbn [andb].
           destruct (y mod 65536 =? k) eqn:Ek; [reflexivity|]. rewrite K3. reflexivity.
    + (* a record *)
      assert (NA : announces t (path, ch) = false) by (unfold announces; now rewrite EN).
      set (r := match cref ch with Some k => k | None => 0 end) in D.
      set (text := fm_string_decrypt match cdata ch with Some d => d | None => [0] end) in D.
      assert (M : forall g, (forall fl, fl_data_type fl = [] -> g fl = field_upd t (y mod 65536) (path, ch) fl) ->
        (f <- mod_field (d_file s) t (as_u16 y) g ;; Ok (with_file s f)) = Ok s' -> tables_known (h ++ [(path, ch)]) s').
      { intros g Hg E. unfold mod_field in E. change (f_tables (d_file s)) with (tab s) in E. destruct (nget (tab s) t) as [tb|] eqn:G; [|discriminate]. cbn [unwrap bind] in E.
        unfold as_u16 in E. destruct (nget (tb_fields tb) (y mod 65536)) as [fl|] eqn:GF; [|discriminate]. cbn [unwrap bind] in E. injection E as <-.
        eapply tables_set with (t := t) (s := s); [exact (conj A (conj S K))|reflexivity|exact O| | |].
        - cbn [tb_fields]. apply bset_increasing. eapply S; eauto.
        - rewrite announced_snoc, A by (rewrite G; discriminate). reflexivity.
        - intros H. specialize (K t H). rewrite G in K. destruct K as (K1 & K2 & K3 & K4 & K5 & K6). unfold known. cbn [tb_name tb_fields tb_account tb_user tb_init].
          split; [now rewrite announced_snoc, K1|]. split; [now rewrite table_name_snoc, TH|]. split; [|auto].
          intros k. rewrite bget_bset by (eapply S; eauto). rewrite field_of_snoc, EN. cbn [andb].
          destruct (N.eqb_spec (y mod 65536) k) as [<-|Hk].
          + rewrite <- K3, GF. cbn [option_map]. f_equal. apply Hg. rewrite K3 in GF. unfold field_of in GF. destruct (after_last _ _); [|discriminate]. injection GF as <-. reflexivity.
          + rewrite field_upd_none_map by (rewrite FH'; now apply N.eqb_neq). apply K3. }
      assert (HKr : forall k, 0 < k -> has_key k (path, ch) = (r =? k)).
      { intros k Hk. unfold has_key, r. cbn [snd]. destruct (cref ch); [reflexivity|]. symmetry. apply N.eqb_neq. lia. }
      assert (UP : forall fl, field_upd t (y mod 65536) (path, ch) fl =
        mkField (fl_data_type fl) (if r =? 3 then text else fl_description fl) (if r =? 16 then text else fl_name fl) (if r =? 2 then text else fl_type fl)
          (if r =? 129 then text else fl_account fl) (if r =? 130 then text else fl_user fl)).
      { intros fl. unfold field_upd. cbv zeta. rewrite FH', N.eqb_refl, !HKr by lia. reflexivity. }
      destruct (N.eq_dec r 2) as [R|R2]; [rewrite R in D; eapply M; [|exact D]; intros; rewrite UP, R; reflexivity|].
      destruct (N.eq_dec r 3) as [R|R3]; [rewrite R in D; eapply M; [|exact D]; intros; rewrite UP, R; reflexivity|].
      destruct (N.eq_dec r 16) as [R|R16]; [rewrite R in D; eapply M; [|exact D]; intros; rewrite UP, R; reflexivity|].
      destruct (N.eq_dec r 129) as [R|R129]; [rewrite R in D; eapply M; [|exact D]; intros; rewrite UP, R; reflexivity|].
      destruct (N.eq_dec r 130) as [R|R130]; [rewrite R in D; eapply M; [|exact D]; intros; rewrite UP, R; reflexivity|].
      assert (E : s' = s).
      { clearbody r. repeat match type of D with match ?x with _ => _ end = _ => destruct x end; try congruence; exfalso; congruence. }
      subst s'. apply (tables_same h s); [exact (conj A (conj S K))|reflexivity|]. intros t' Ht'. 
      destruct (N.eq_dec t' t) as [->|Hn]; [|destruct (O t' Hn); now apply known_quiet].
      assert (NU : forall k o, option_map (field_upd t k (path, ch)) o = o).
      { intros k [fl|]; [|reflexivity]. cbn [option_map]. f_equal. unfold field_upd. cbv zeta. rewrite !HKr by lia.
        repeat match goal with |- context [r =? ?n] => destruct (N.eqb_spec r n); [contradiction|] end. rewrite !andb_false_r. destruct fl; reflexivity. }
      unfold known. destruct (nget (tab s) t) as [tb|].
      * intros (K1 & K2 & K3 & K4). split; [now rewrite announced_snoc, K1|]. split; [now rewrite table_name_snoc, TH|]. split; [|exact K4].
        intros k. rewrite field_of_snoc, EN, NU. apply K3.
      * intros (K1 & K2 & K3). split; [now rewrite announced_snoc, K1, NA|]. split; [now rewrite table_name_snoc, TH|].
        intros k. rewrite field_of_snoc, EN, NU. apply K3.
  - (* tables *)
    assert (TH : forall t, table_here t (path, ch) = (x =? 128 + t)) by (intros; unfold table_here, at_place; cbn [fst]; now rewrite P).
    assert (FS : forall t, fields_here t (path, ch) = false) by (intros; unfold fields_here, at_place; cbn [fst]; now rewrite P).
    unfold arm_table in D. cbv zeta in D. rewrite type_eqb_push in D. change (match ctype ch with PathPush => true | _ => false end) with (enters (path, ch)) in D.
    destruct I as (A & S & K). change (f_tables (d_file s)) with (tab s) in D.
    destruct (enters (path, ch)) eqn:EN.
    + rewrite nhas_get in D. destruct (nget (tab s) x) as [tx|] eqn:GX.
      * injection D as <-. apply (tables_same h s); [exact (conj A (conj S K))|reflexivity|]. intros t Ht. apply known_quiet; [|apply FS].
        rewrite TH. apply N.eqb_neq. intros ->. rewrite (N.add_comm 128) in GX. rewrite A in Ht; [discriminate|]. rewrite GX. discriminate.
      * unfold subU in D. destruct (N.leb_spec 128 x) as [Hx|]; [|discriminate]. cbn [bind] in D. injection D as <-.
        set (t := x - 128) in *. assert (Ex : x = 128 + t) by (unfold t; lia).
        assert (TT : table_here t (path, ch) = true) by (rewrite TH; apply N.eqb_eq; exact Ex).
        assert (AN : announced t (h ++ [(path, ch)]) = true) by (rewrite announced_snoc; unfold announces; rewrite EN, TT; apply orb_true_r).
        eapply tables_set with (t := t) (s := s); [exact (conj A (conj S K))|reflexivity| | |exact AN|].
        -- intros t' Ht. split; [|apply FS]. rewrite TH. apply N.eqb_neq. lia.
        -- constructor.
        -- intros _. unfold known. cbn [tb_name tb_fields tb_account tb_user tb_init table_new]. split; [exact AN|]. split; [now rewrite table_name_snoc, TT, EN|]. split; [|auto].
           intros k. rewrite field_of_snoc, EN, TT. reflexivity.
    + set (r := match cref ch with Some k => k | None => 0 end) in D.
      assert (HKr : has_key 16 (path, ch) = (r =? 16)).
      { unfold has_key, r. cbn [snd]. destruct (cref ch); reflexivity. }
      destruct (N.eq_dec r 16) as [R|R].
      * rewrite R in D, HKr. unfold subU in D. destruct (N.leb_spec 128 x) as [Hx|]; [|discriminate]. cbn [bind] in D.
        set (t := x - 128) in *. assert (Ex : x = 128 + t) by (unfold t; lia).
        assert (TT : table_here t (path, ch) = true) by (rewrite TH; apply N.eqb_eq; exact Ex).
        destruct (nget (tab s) t) as [tb|] eqn:G; [|discriminate]. cbn [unwrap bind] in D. injection D as <-.
        eapply tables_set with (t := t) (s := s); [exact (conj A (conj S K))|reflexivity| | | |].
        -- intros t' Ht. split; [|apply FS]. rewrite TH. apply N.eqb_neq. lia.
        -- cbn [tb_fields]. eapply S; eauto.
        -- rewrite announced_snoc, A by (rewrite G; discriminate). reflexivity.
        -- intros H. specialize (K t H). rewrite G in K. destruct K as (K1 & K2 & K3 & K4 & K5 & K6). unfold known. cbn [tb_name tb_fields tb_account tb_user tb_init].
           split; [now rewrite announced_snoc, K1|]. split; [now rewrite table_name_snoc, TT, EN, HKr|]. split; [|auto].
           intros k. rewrite field_of_snoc, EN, field_upd_none_map by now apply field_fields. apply K3.
      * assert (E : s' = s).
        { clearbody r. repeat match type of D with match ?x with _ => _ end = _ => destruct x end; try congruence; exfalso; congruence. }
        subst s'. apply (tables_same h s); [exact (conj A (conj S K))|reflexivity|]. intros t Ht.
        assert (NA : announces t (path, ch) = false) by (unfold announces; now rewrite EN).
        assert (HF : has_key 16 (path, ch) = false) by (rewrite HKr; now apply N.eqb_neq).
        assert (TN : table_name_of t (h ++ [(path, ch)]) = table_name_of t h) by (rewrite table_name_snoc, EN, HF; destruct (table_here t (path, ch)); reflexivity).
        assert (FO : forall k, field_of t k (h ++ [(path, ch)]) = field_of t k h).
        { intros k. rewrite field_of_snoc, EN. cbn [andb]. apply field_upd_none_map. now apply field_fields. }
        assert (AS : announced t (h ++ [(path, ch)]) = announced t h) by (rewrite announced_snoc, NA; apply orb_false_r).
        unfold known. destruct (nget (tab s) t) as [tb|].
        -- intros (K1 & K2 & K3 & K4). split; [exact (eq_trans AS K1)|]. split; [exact (eq_trans K2 (eq_sym TN))|]. split; [|exact K4]. intros k. rewrite FO. apply K3.
        -- intros (K1 & K2 & K3). split; [exact (eq_trans AS K1)|]. split; [exact (eq_trans TN K2)|]. intros k. exact (eq_trans (FO k) (K3 k)).
Qed.

(** ** All together *)
Definition all_known (h : history) (s : dstate) : Prop :=
  (forall k, nget (lay s) k = layout_of k h) /\ tables_known h s /\ occ s = numbered 1 (occs h) /\ rls s = rels 1 (joins 0 [] h) /\
  (forall k, option_map sc_name (nget (nam s) k) = script_name_of k h) /\
  (forall k, nget (fst (src s)) k = source_of k h) /\ snd (src s) = left_over [] h.

Lemma known_step h s path ch s' : dispatch path ch s = Ok s' -> all_known h s -> all_known (h ++ [(path, ch)]) s'.
Proof.
  intros D (I1 & I2 & I3 & I4 & I5 & I6 & I7). destruct (source_step h s path ch s' D I6 I7) as [S1 S2].
  split; [exact (layout_step h s path ch s' D I1)|]. split; [exact (table_step h s path ch s' D I2)|].
  split; [exact (occurrence_step h s path ch s' D I3)|]. split; [exact (relation_step h s path ch s' D I3 I4)|].
  split; [exact (script_step h s path ch s' D I5)|]. split; assumption.
Qed.

Lemma known_run h : forall h0 s s', run_history h s = Ok s' -> all_known h0 s -> all_known (h0 ++ h) s'.
Proof.
  induction h as [|[p ch] h IH]; intros h0 s s' R I; cbn [run_history] in R.
  - injection R as <-. now rewrite app_nil_r.
  - destruct (dispatch p ch s) as [s1| |] eqn:D; try discriminate. cbn [bind] in R.
    change ((p, ch) :: h) with ([(p, ch)] ++ h). rewrite app_assoc. eapply IH; eauto. eapply known_step; eauto.
Qed.

Lemma known_start : all_known [] (mkD fmpfile_new [] []).
Proof.
  split; [reflexivity|]. split; [|split; [reflexivity|split; [reflexivity|split; [reflexivity|split; reflexivity]]]].
  split; [intros t H; now contradiction H|]. split; [intros t tb; discriminate|]. intros t _. repeat split; reflexivity.
Qed.

Lemma all_recovered h s f : all_known h s -> f_layouts f = lay s -> f_tables f = tab s -> f_occurrences f = occ s -> f_relationships f = rls s ->
  (forall k, option_map sc_name (nget (f_scripts f) k) = option_map sc_name (nget (nam s) k)) -> f_sources f = fst (src s) -> recovered h f.
Proof.
  intros (I1 & (T1 & T2 & T3) & I3 & I4 & I5 & I6 & I7) E1 E2 E3 E4 E5 E6. split.
  - intros k. rewrite E1. apply I1.
  - intros t. rewrite E2. apply T1.
  - intros t H. rewrite E2. specialize (T3 t H). unfold known in T3. destruct (nget (tab s) t); [exact T3|]. apply T3.
  - intros k. rewrite E3, I3, numbered_get. unfold occurrence_of, occs. rewrite nth_error_map.
    destruct (N.ltb_spec k 1), (N.eqb_spec k 0); try lia; reflexivity.
  - intros k. rewrite E4, I4, rels_get. unfold relation_of. destruct (N.ltb_spec k 1), (N.eqb_spec k 0); try lia; reflexivity.
  - intros k. rewrite E5. apply I5.
  - intros k. rewrite E6. apply I6.
Qed.

(** ** From the file to its history *)
Lemma chunk_loop_history fuel : forall buf off bound start path s s', chunk_loop fuel buf off bound start path s = Ok s' ->
  exists h, reads buf bound start off path h /\ run_history h s = Ok s'.
Proof.
  induction fuel as [|fuel IH]; intros buf off bound start path s s' H; [discriminate|]. cbn [chunk_loop] in H.
  destruct (N.ltb_spec off bound) as [L|L].
  - destruct (get_chunk buf off path start) as [r| |] eqn:G; try discriminate. cbn [bind] in H.
    destruct r as [[[ch off'] path']|]; [|discriminate].
    destruct (dispatch path' ch s) as [s1| |] eqn:D; try discriminate. cbn [bind] in H.
    destruct (IH _ _ _ _ _ _ _ H) as (h & R & E). exists ((path', ch) :: h). split; [econstructor; eauto|]. cbn [run_history]. rewrite D. exact E.
  - injection H as <-. exists []. split; [now constructor|reflexivity].
Qed.

Lemma sector_loop_history fuel : forall buf n i s s', bytes buf -> sector_loop fuel buf n i s = Ok s' ->
  exists h, file_history buf i h /\ run_history h s = Ok s'.
Proof.
  induction fuel as [|fuel IH]; intros buf n i s s' HB H; [discriminate|]. cbn [sector_loop] in H. fold chunk_loop in H.
  destruct (N.eqb_spec i 0) as [->|Hi]; [injection H as <-; exists []; split; [constructor|reflexivity]|].
  destruct (slice buf (i * 4096) (lenN buf)) as [rest| |] eqn:E; try discriminate. cbn [bind] in H.
  destruct (get_sector rest) as [sec| |] eqn:G; try discriminate. cbn [bind] in H. destruct (i <? n); try discriminate.
  match type of H with bind ?x _ = _ => destruct x as [s1| |] eqn:C; try discriminate end. cbn [bind] in H.
  change (chunk_loop (S fuel) buf (i * 4096 + 20) (i * 4096 + 4096) (i * 4096) [] s = Ok s1) in C.
  apply chunk_loop_history in C as (h & R & E1). destruct (IH _ _ _ _ _ HB H) as (h' & R' & E2).
  exists (h ++ h'). split; [econstructor; eauto; eapply sector_succ; eauto|]. rewrite run_app, E1. exact E2.
Qed.

Lemma reads_det buf bound start : forall off path h, reads buf bound start off path h -> forall h', reads buf bound start off path h' -> h = h'.
Proof.
  induction 1 as [off path L|off path ch off' path' h L G R IH]; intros h' H'; inversion H'; subst; try reflexivity; try lia.
  match goal with G2 : get_chunk buf off path start = _ |- _ => rewrite G in G2; injection G2 as <- <- <- end. f_equal. now apply IH.
Qed.
Lemma history_det buf : forall i h, file_history buf i h -> forall h', file_history buf i h' -> h = h'.
Proof.
  induction 1 as [|i n h h1 Hi S R F IH]; intros h' H'; inversion H' as [|? n' g g' Hi' S' R' F']; subst; try reflexivity; try contradiction.
  rewrite (succ_det _ _ _ _ S' S) in F'. rewrite (reads_det _ _ _ _ _ _ R _ R'). f_equal. now apply IH.
Qed.

Lemma build_keeps {B} (c : dstate -> B) l : (forall s v, c (with_file s (set_scripts (d_file s) v)) = c s) -> forall s, keeps c s (build_scripts l s).
Proof.
  intros Hc. induction l as [|[sid segs] l IH]; intros s s' H; cbn [build_scripts] in H; [now injection H as <-|].
  destruct (build_script sid segs s) as [s1| |] eqn:E; try discriminate. cbn [bind] in H. rewrite (IH s1 s' H).
  unfold build_script in E. exact (keeps_steps c _ Hc _ _ _ s s1 E).
Qed.

Theorem decompile_history order fuel buf f : bytes buf -> decompile order fuel buf = Ok f ->
  exists h, file_history buf 2 h /\ recovered h f.
Proof.
  intros HB H. unfold decompile in H.
  destruct (slice buf 4096 (lenN buf)) as [rest| |]; try discriminate. cbn [bind] in H.
  destruct (get_sector rest) as [first| |]; try discriminate. cbn [bind] in H.
  destruct (sector_loop _ _ _ _ _) as [s| |] eqn:L; try discriminate. cbn [bind] in H.
  destruct (build_scripts _ s) as [s1| |] eqn:B; try discriminate. cbn [bind] in H. injection H as <-.
  apply sector_loop_history in L as (h & F & R); [|exact HB]. exists h. split; [exact F|].
  assert (K : all_known h s) by (apply (known_run h [] _ _ R known_start)).
  apply (all_recovered h s); [exact K|..].
  - exact (build_keeps lay _ (fun _ _ => eq_refl) _ _ B).
  - exact (build_keeps tab _ (fun _ _ => eq_refl) _ _ B).
  - exact (build_keeps occ _ (fun _ _ => eq_refl) _ _ B).
  - exact (build_keeps rls _ (fun _ _ => eq_refl) _ _ B).
  - exact (nk_build _ _ _ B).
  - exact (f_equal fst (build_keeps src _ (fun _ _ => eq_refl) _ _ B)).
Qed.

(** ** Only the own directories matter *)
Lemma after_last_filter p q h : (forall e, p e = true -> q e = true) ->
  after_last p (filter q h) = option_map (filter q) (after_last p h).
Proof.
  intros H. induction h as [|e h IH]; [reflexivity|]. cbn [filter after_last]. destruct (q e) eqn:Q.
  - cbn [after_last]. rewrite IH. destruct (after_last p h); [reflexivity|]. destruct (p e); reflexivity.
  - rewrite IH. destruct (after_last p h); [reflexivity|]. destruct (p e) eqn:P; [apply H in P; congruence|reflexivity].
Qed.
Lemma last_of_filter {A} (g : entry -> option A) q h : (forall e, q e = false -> g e = None) -> forall d, last_of g d (filter q h) = last_of g d h.
Proof.
  intros H. induction h as [|e h IH]; intros d; [reflexivity|]. cbn [filter last_of]. destruct (q e) eqn:Q; [cbn [last_of]; apply IH|].
  rewrite (H e Q). apply IH.
Qed.
Lemma existsb_filter p q (h : history) : (forall e, p e = true -> q e = true) -> existsb p (filter q h) = existsb p h.
Proof.
  intros H. induction h as [|e h IH]; [reflexivity|]. cbn [filter existsb]. destruct (q e) eqn:Q; cbn [existsb]; rewrite IH; [reflexivity|].
  destruct (p e) eqn:P; [apply H in P; congruence|reflexivity].
Qed.

Lemma layout_local k h : layout_of k (filter (layout_here k) h) = layout_of k h.
Proof.
  unfold layout_of. rewrite after_last_filter by (intros e H; now apply andb_true_iff in H as [H _]).
  destruct (after_last _ h) as [r|]; [|reflexivity]. cbn [option_map]. rewrite !last_of_filter; [reflexivity|..]; intros e ->; reflexivity.
Qed.
Lemma names_here k e : names_script k e = true -> match at_place e with PScript k' => k' =? k | _ => false end = true.
Proof. unfold names_script. destruct (at_place e); try discriminate. intros H. apply andb_true_iff in H as [H _]. now apply andb_true_iff in H as [H _]. Qed.
Lemma script_local k h : script_name_of k (filter (names_script k) h) = script_name_of k h.
Proof.
  unfold script_name_of. rewrite existsb_filter by auto. rewrite last_of_filter by (intros e ->; reflexivity). reflexivity.
Qed.

Lemma announced_local t h : announced t (filter (own t) h) = announced t h.
Proof. unfold announced. apply existsb_filter. unfold announces, own. intros e H. now apply andb_true_iff in H as [_ H]. Qed.
Lemma since_local t h : since_announced t (filter (own t) h) = filter (own t) (since_announced t h).
Proof.
  unfold since_announced. rewrite after_last_filter.
  - destruct (after_last _ h); reflexivity.
  - intros e H. unfold own. apply andb_true_iff in H as [_ ->]. reflexivity.
Qed.
Lemma table_name_local t h : table_name_of t (filter (own t) h) = table_name_of t h.
Proof.
  unfold table_name_of. rewrite since_local. apply last_of_filter. intros e H. unfold own in H. apply orb_false_iff in H as [-> _]. rewrite andb_false_r. reflexivity.
Qed.
Lemma field_local t y h : field_of t y (filter (own t) h) = field_of t y h.
Proof.
  assert (F : forall e, own t e = false -> field_here t y e = false) by (intros e H; unfold own in H; apply orb_false_iff in H as [_ H]; now apply field_fields).
  unfold field_of. rewrite since_local, after_last_filter.
  - destruct (after_last _ _) as [r|]; [|reflexivity]. cbn [option_map]. unfold field_text.
    rewrite !last_of_filter; [reflexivity|..]; intros e H; rewrite (F e H); reflexivity.
  - intros e H. apply andb_true_iff in H as [_ H]. destruct (own t e) eqn:O; [reflexivity|]. rewrite (F e O) in H. discriminate.
Qed.

Theorem own_directories order fuel buf f order' fuel' buf' f' h h' : bytes buf -> bytes buf' ->
  decompile order fuel buf = Ok f -> decompile order' fuel' buf' = Ok f' -> file_history buf 2 h -> file_history buf' 2 h' ->
  (forall k, filter (layout_here k) h = filter (layout_here k) h' -> nget (f_layouts f) k = nget (f_layouts f') k) /\
  (forall k, filter (names_script k) h = filter (names_script k) h' -> option_map sc_name (nget (f_scripts f) k) = option_map sc_name (nget (f_scripts f') k)) /\
  (forall t, announced (t + 128) h = false -> announced (t + 128) h' = false -> filter (own t) h = filter (own t) h' ->
     match nget (f_tables f) t, nget (f_tables f') t with
     | Some tb, Some tb' => tb_name tb = tb_name tb' /\ forall y, nget (tb_fields tb) y = nget (tb_fields tb') y
     | None, None => True
     | _, _ => False
     end).
Proof.
  intros HB HB' D D' H H'. destruct (decompile_history _ _ _ _ HB D) as (h0 & F & R). destruct (decompile_history _ _ _ _ HB' D') as (h0' & F' & R').
  rewrite (history_det _ _ _ H _ F) in *. rewrite (history_det _ _ _ H' _ F') in *. split; [|split].
  - intros k E. rewrite (rec_layouts _ _ R), (rec_layouts _ _ R'), <- layout_local, E, layout_local. reflexivity.
  - intros k E. rewrite (rec_scripts _ _ R), (rec_scripts _ _ R'), <- script_local, E, script_local. reflexivity.
  - intros t A A' E. pose proof (rec_tables _ _ R t A) as T. pose proof (rec_tables _ _ R' t A') as T'.
    assert (EA : announced t h0 = announced t h0') by (rewrite <- announced_local, E; apply announced_local).
    destruct (nget (f_tables f) t), (nget (f_tables f') t); auto; try (destruct T'; congruence); try (destruct T; congruence).
    destruct T as (_ & N & FL & _), T' as (_ & N' & FL' & _). split.
    + rewrite N, N', <- table_name_local, E. apply table_name_local.
    + intros y. rewrite FL, FL', <- field_local, E. apply field_local.
Qed.
