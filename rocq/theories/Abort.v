(** The tables of any file. *)
From Coq Require Import NArith Arith List Bool Lia.
From Verif Require Import Prelude PreludeFacts Utf8 EncodingModel EncodingSpec CharConvModel ChunkModel InstrModel ComponentModel DecompModel DecompSpec
  DecompScriptSpec DecompScript DecompChain HistorySpec History History2 History3 StepsSpec AbortSpec.
Import ListNotations.
Local Open Scope N_scope.

Definition restarted (t : N) (h : history) (e : entry) : bool := enters e && table_here t e && negb (table_there (t + 128) h).

Lemma there_snoc t h e : table_there t (h ++ [e]) =
  table_there t h || enters e && (fields_here t e || table_here t e && negb (table_there (t + 128) h)).
Proof. unfold table_there. rewrite rev_app_distr. reflexivity. Qed.
Lemma name_in_snoc t h e : table_name_in t (h ++ [e]) =
  if restarted t h e then [] else if negb (enters e) && table_here t e && has_key 16 e then text_of e else table_name_in t h.
Proof. unfold table_name_in. rewrite rev_app_distr. reflexivity. Qed.
Lemma field_in_snoc t y h e : field_in t y (h ++ [e]) =
  if restarted t h e then None
  else if enters e && field_here t y e then Some (mkField [] [] [] [] [] [])
  else option_map (field_told t y e) (field_in t y h).
Proof. unfold field_in. rewrite rev_app_distr. reflexivity. Qed.

Lemma field_in_bare t y h f : field_in t y h = Some f -> fl_data_type f = [].
Proof.
  induction h as [|e h IH] using rev_ind; [discriminate|]. rewrite field_in_snoc. destruct (restarted t h e); [discriminate|].
  destruct (enters e && field_here t y e); [intros [= <-]; reflexivity|]. destruct (field_in t y h); [|discriminate]. cbn [option_map]. intros [= <-]. reflexivity.
Qed.
Lemma told_none t y e h : field_here t y e = false -> option_map (field_told t y e) (field_in t y h) = field_in t y h.
Proof.
  intros H. destruct (field_in t y h) as [f|] eqn:E; [|reflexivity]. apply field_in_bare in E. cbn [option_map]. f_equal. unfold field_told. cbv zeta. rewrite H.
  destruct f; cbn in *; subst; reflexivity.
Qed.
Lemma told_keys t y e h : field_key e = false -> option_map (field_told t y e) (field_in t y h) = field_in t y h.
Proof.
  intros H. destruct (field_in t y h) as [f|] eqn:E; [|reflexivity]. apply field_in_bare in E. cbn [option_map]. f_equal. unfold field_told. cbv zeta.
  unfold field_key in H. cbn [existsb] in H. repeat (apply orb_false_iff in H as [? H]).
  repeat match goal with K : has_key _ e = false |- _ => rewrite K; clear K end. rewrite !andb_false_r. destruct f; cbn in *; subst; reflexivity.
Qed.

Definition table_known (h : history) (t : N) (o : option table) : Prop :=
  match o with
  | None => table_there t h = false /\ table_name_in t h = [] /\ forall y, field_in t y h = None
  | Some tb => table_there t h = true /\ tb_name tb = table_name_in t h /\ (forall y, nget (tb_fields tb) y = field_in t y h) /\
               tb_account tb = [] /\ tb_user tb = [] /\ tb_init tb = false
  end.
Definition exact_tables (h : history) (s : dstate) : Prop := sorted_fields s /\ forall t, table_known h t (nget (tab s) t).

Lemma known_there h s t : exact_tables h s -> table_there t h = nhas (tab s) t.
Proof. intros [_ K]. specialize (K t). rewrite nhas_get. destruct (nget (tab s) t); apply K. Qed.

(** A record that says nothing about table [t]. *)
Lemma silent h t o e : restarted t h e = false -> enters e && fields_here t e = false -> negb (enters e) && table_here t e && has_key 16 e = false ->
  (forall y, option_map (field_told t y e) (field_in t y h) = field_in t y h) -> table_known h t o -> table_known (h ++ [e]) t o.
Proof.
  intros R F N Q K.
  assert (E1 : table_there t (h ++ [e]) = table_there t h).
  { rewrite there_snoc. unfold restarted in R. rewrite andb_orb_distrib_r, F, andb_assoc, R. apply orb_false_r. }
  assert (E2 : table_name_in t (h ++ [e]) = table_name_in t h) by (rewrite name_in_snoc, R, N; reflexivity).
  assert (E3 : forall y, field_in t y (h ++ [e]) = field_in t y h).
  { intros y. rewrite field_in_snoc, R. assert (FH : enters e && field_here t y e = false).
    { destruct (enters e); [|reflexivity]. cbn [andb] in *. now apply field_fields. } rewrite FH. apply Q. }
  unfold table_known in *. destruct o as [tb|]; rewrite E1, E2.
  - destruct K as (A & B & C & D). split; [exact A|]. split; [exact B|]. split; [|exact D]. intros y. rewrite E3. apply C.
  - destruct K as (A & B & C). split; [exact A|]. split; [exact B|]. intros y. rewrite E3. apply C.
Qed.
Lemma silent_elsewhere h t o e : table_here t e = false -> fields_here t e = false -> table_known h t o -> table_known (h ++ [e]) t o.
Proof.
  intros T F. apply silent; [unfold restarted; now rewrite T, andb_false_r|now rewrite F, andb_false_r|now rewrite T, andb_false_r|].
  intros y. apply told_none. now apply field_fields.
Qed.

Lemma exact_set h s s' e t tb : exact_tables h s -> tab s' = nset (tab s) t tb ->
  (forall t', t' <> t -> table_here t' e = false /\ fields_here t' e = false) ->
  increasing (keys (tb_fields tb)) -> table_known (h ++ [e]) t (Some tb) -> exact_tables (h ++ [e]) s'.
Proof.
  intros (S & K) E O I KN. split.
  - intros t' tb'. rewrite E, nget_nset. destruct (N.eqb_spec t t') as [<-|]; [intros [= <-]; exact I|]. apply S.
  - intros t'. rewrite E, nget_nset. destruct (N.eqb_spec t t') as [<-|Ht]; [auto|].
    destruct (O t') as [O1 O2]; [congruence|]. apply silent_elsewhere; auto.
Qed.
Lemma exact_same h s s' e : exact_tables h s -> tab s' = tab s ->
  (forall t, table_known h t (nget (tab s) t) -> table_known (h ++ [e]) t (nget (tab s) t)) -> exact_tables (h ++ [e]) s'.
Proof.
  intros (S & K) E Q. split.
  - intros t tb. rewrite E. apply S.
  - intros t. rewrite E. auto.
Qed.

Lemma exact_step h s path ch s' : dispatch path ch s = Ok s' -> exact_tables h s -> exact_tables (h ++ [(path, ch)]) s'.
Proof.
  intros D I. apply frame_tab in D.
  destruct (place_of path) as [| | | |x y|x| | | |] eqn:P;
    try (apply (exact_same h s); auto; intros t; apply silent_elsewhere; [unfold table_here|unfold fields_here]; unfold at_place; cbn [fst]; now rewrite P).
  - (* fields *)
    assert (TH : forall t, table_here t (path, ch) = false) by (intros; unfold table_here, at_place; cbn [fst]; now rewrite P).
    assert (RS : forall t, restarted t h (path, ch) = false) by (intros; unfold restarted; now rewrite TH, andb_false_r).
    assert (FS : forall t, fields_here t (path, ch) = (x =? 128 + t)) by (intros; unfold fields_here, at_place; cbn [fst]; now rewrite P).
    assert (FH : forall t k, field_here t k (path, ch) = (x =? 128 + t) && (y mod 65536 =? k)) by (intros; unfold field_here, at_place; cbn [fst]; now rewrite P).
    unfold arm_field in D. destruct (N.leb_spec 128 x) as [Hx|Hx].
    2: { apply (exact_same h s); [exact I|now injection D as <-|]. intros t. apply silent_elsewhere; [apply TH|]. rewrite FS. apply N.eqb_neq. lia. }
    set (t := x - 128) in *. cbv zeta in D. assert (Ex : x = 128 + t) by (unfold t; lia).
    assert (O : forall t', t' <> t -> table_here t' (path, ch) = false /\ fields_here t' (path, ch) = false).
    { intros t' Ht. split; [apply TH|]. rewrite FS. apply N.eqb_neq. lia. }
    assert (FS' : fields_here t (path, ch) = true) by (rewrite FS; apply N.eqb_eq; exact Ex).
    assert (FH' : forall k, field_here t k (path, ch) = (y mod 65536 =? k)) by (intros; rewrite FH; rewrite Ex, N.eqb_refl; reflexivity).
    assert (NM : forall e, e = (path, ch) -> table_name_in t (h ++ [e]) = table_name_in t h) by (intros e ->; rewrite name_in_snoc, RS, TH, andb_false_r; reflexivity).
    rewrite type_eqb_push in D. change (match ctype ch with PathPush => true | _ => false end) with (enters (path, ch)) in D.
    pose proof I as [S K]. specialize (K t). destruct (enters (path, ch)) eqn:EN.
    + (* entering *)
      assert (AN : table_there t (h ++ [(path, ch)]) = true) by (rewrite there_snoc, EN, FS', orb_true_l; apply orb_true_r).
      change (f_tables (d_file s)) with (tab s) in D. rewrite nhas_get in D. unfold as_u16 in D.
      destruct (nget (tab s) t) as [tb|] eqn:G.
      * rewrite G in D. cbn [unwrap bind] in D. injection D as <-.
        eapply exact_set with (t := t); [exact I|reflexivity|exact O| |].
        -- cbn [tb_fields]. apply bset_increasing. eapply S; eauto.
        -- destruct K as (K1 & K2 & K3 & K4 & K5 & K6). unfold table_known. cbn [tb_name tb_fields tb_account tb_user tb_init].
           split; [exact AN|]. split; [now rewrite NM by reflexivity|]. split; [|auto].
           intros k. rewrite bget_bset by (eapply S; eauto). rewrite field_in_snoc, RS, EN, FH'. cbn [andb].
           destruct (y mod 65536 =? k) eqn:Ek; [reflexivity|]. rewrite told_none by (rewrite FH'; exact Ek). apply K3.
      * rewrite nget_nset, N.eqb_refl in D. cbn [unwrap bind] in D. injection D as <-.
        eapply exact_set with (t := t) (s := s); [exact I| |exact O| |].
        -- unfold tab at 1. cbn [d_file with_file f_tables set_tables]. rewrite nset_nset. reflexivity.
        -- repeat constructor.
        -- destruct K as (K1 & K2 & K3). unfold table_known. cbn [tb_name tb_fields tb_account tb_user tb_init table_new].
           split; [exact AN|]. split; [now rewrite NM, K2 by reflexivity|]. split; [|auto].
           intros k. match goal with |- nget ?m k = _ => change m with [(y mod 65536, field_new)] end. rewrite nget_cons. rewrite field_in_snoc, RS, EN, FH'. cbn [andb].
           destruct (y mod 65536 =? k) eqn:Ek; [reflexivity|]. rewrite K3. reflexivity.
    + (* a record *)
      set (r := match cref ch with Some k => k | None => 0 end) in D.
      set (text := fm_string_decrypt match cdata ch with Some d => d | None => [0] end) in D.
      assert (HKr : forall k, 0 < k -> has_key k (path, ch) = (r =? k)).
      { intros k Hk. unfold has_key, r. cbn [snd]. destruct (cref ch); [reflexivity|]. symmetry. apply N.eqb_neq. lia. }
      assert (M : forall g, (forall fl, fl_data_type fl = [] -> g fl = field_told t (y mod 65536) (path, ch) fl) ->
        (f <- mod_field (d_file s) t (as_u16 y) g ;; Ok (with_file s f)) = Ok s' -> exact_tables (h ++ [(path, ch)]) s').
      { intros g Hg E. unfold mod_field in E. change (f_tables (d_file s)) with (tab s) in E. destruct (nget (tab s) t) as [tb|] eqn:G; [|discriminate]. cbn [unwrap bind] in E.
        unfold as_u16 in E. destruct (nget (tb_fields tb) (y mod 65536)) as [fl|] eqn:GF; [|discriminate]. cbn [unwrap bind] in E. injection E as <-.
        eapply exact_set with (t := t) (s := s); [exact I|reflexivity|exact O| |].
        - cbn [tb_fields]. apply bset_increasing. eapply S; eauto.
        - destruct K as (K1 & K2 & K3 & K4 & K5 & K6). unfold table_known. cbn [tb_name tb_fields tb_account tb_user tb_init].
          split; [now rewrite there_snoc, K1|]. split; [now rewrite NM by reflexivity|]. split; [|auto].
          intros k. rewrite bget_bset by (eapply S; eauto). rewrite field_in_snoc, RS, EN. cbn [andb].
          destruct (N.eqb_spec (y mod 65536) k) as [<-|Hk].
          + rewrite <- K3, GF. cbn [option_map]. f_equal. apply Hg. rewrite K3 in GF. eapply field_in_bare; eauto.
          + rewrite told_none by (rewrite FH'; now apply N.eqb_neq). apply K3. }
      assert (UP : forall fl, fl_data_type fl = [] -> field_told t (y mod 65536) (path, ch) fl =
        mkField (fl_data_type fl) (if r =? 3 then text else fl_description fl) (if r =? 16 then text else fl_name fl) (if r =? 2 then text else fl_type fl)
          (if r =? 129 then text else fl_account fl) (if r =? 130 then text else fl_user fl)).
      { intros fl DT. unfold field_told. cbv zeta. rewrite FH', N.eqb_refl, !HKr by lia. rewrite DT. reflexivity. }
      destruct (N.eq_dec r 2) as [R|R2]; [rewrite R in D; eapply M; [|exact D]; intros; rewrite UP, R by assumption; reflexivity|].
      destruct (N.eq_dec r 3) as [R|R3]; [rewrite R in D; eapply M; [|exact D]; intros; rewrite UP, R by assumption; reflexivity|].
      destruct (N.eq_dec r 16) as [R|R16]; [rewrite R in D; eapply M; [|exact D]; intros; rewrite UP, R by assumption; reflexivity|].
      destruct (N.eq_dec r 129) as [R|R129]; [rewrite R in D; eapply M; [|exact D]; intros; rewrite UP, R by assumption; reflexivity|].
      destruct (N.eq_dec r 130) as [R|R130]; [rewrite R in D; eapply M; [|exact D]; intros; rewrite UP, R by assumption; reflexivity|].
      assert (E : s' = s).
      { clearbody r. repeat match type of D with match ?x with _ => _ end = _ => destruct x end; try congruence; exfalso; congruence. }
      subst s'. apply (exact_same h s); [exact I|reflexivity|]. intros t'.
      assert (FK : field_key (path, ch) = false).
      { unfold field_key. cbn [existsb]. rewrite !HKr by lia. repeat match goal with |- context [r =? ?n] => destruct (N.eqb_spec r n); [contradiction|] end. reflexivity. }
      apply silent; [apply RS|now rewrite EN|now rewrite TH, andb_false_r|]. intros k. now apply told_keys.
  - (* tables *)
    assert (TH : forall t, table_here t (path, ch) = (x =? 128 + t)) by (intros; unfold table_here, at_place; cbn [fst]; now rewrite P).
    assert (FS : forall t, fields_here t (path, ch) = false) by (intros; unfold fields_here, at_place; cbn [fst]; now rewrite P).
    unfold arm_table in D. cbv zeta in D. rewrite type_eqb_push in D. change (match ctype ch with PathPush => true | _ => false end) with (enters (path, ch)) in D.
    change (f_tables (d_file s)) with (tab s) in D.
    destruct (enters (path, ch)) eqn:EN.
    + rewrite <- (known_there h) in D by exact I. destruct (table_there x h) eqn:TX.
      * injection D as <-. apply (exact_same h s); [exact I|reflexivity|]. intros t. apply silent; [|now rewrite FS, andb_false_r|now rewrite EN|].
        -- unfold restarted. rewrite EN, TH. destruct (N.eqb_spec x (128 + t)) as [->|]; [|reflexivity]. rewrite (N.add_comm t), TX. reflexivity.
        -- intros k. apply told_none. now apply field_fields.
      * unfold subU in D. destruct (N.leb_spec 128 x) as [Hx|]; [|discriminate]. cbn [bind] in D. injection D as <-.
        set (t := x - 128) in *. assert (Ex : x = 128 + t) by (unfold t; lia).
        assert (TT : table_here t (path, ch) = true) by (rewrite TH; apply N.eqb_eq; exact Ex).
        assert (R : restarted t h (path, ch) = true) by (unfold restarted; rewrite EN, TT, (N.add_comm t), <- Ex, TX; reflexivity).
        eapply exact_set with (t := t) (s := s); [exact I|reflexivity| | |].
        -- intros t' Ht. split; [|apply FS]. rewrite TH. apply N.eqb_neq. lia.
        -- constructor.
        -- unfold table_known. cbn [tb_name tb_fields tb_account tb_user tb_init table_new].
           split; [rewrite there_snoc; unfold restarted in R; rewrite FS, orb_false_l, andb_assoc, R; apply orb_true_r|].
           split; [now rewrite name_in_snoc, R|]. split; [|auto]. intros k. rewrite field_in_snoc, R. reflexivity.
    + assert (RS : forall t, restarted t h (path, ch) = false) by (intros; unfold restarted; now rewrite EN).
      set (r := match cref ch with Some k => k | None => 0 end) in D.
      assert (HKr : has_key 16 (path, ch) = (r =? 16)).
      { unfold has_key, r. cbn [snd]. destruct (cref ch); reflexivity. }
      assert (TN : forall t k, option_map (field_told t k (path, ch)) (field_in t k h) = field_in t k h) by (intros; apply told_none; now apply field_fields).
      destruct (N.eq_dec r 16) as [R|R].
      * rewrite R in D, HKr. unfold subU in D. destruct (N.leb_spec 128 x) as [Hx|]; [|discriminate]. cbn [bind] in D.
        set (t := x - 128) in *. assert (Ex : x = 128 + t) by (unfold t; lia).
        assert (TT : table_here t (path, ch) = true) by (rewrite TH; apply N.eqb_eq; exact Ex).
        pose proof I as [S K]. specialize (K t).
        destruct (nget (tab s) t) as [tb|] eqn:G; [|discriminate]. cbn [unwrap bind] in D. injection D as <-.
        eapply exact_set with (t := t) (s := s); [exact I|reflexivity| | |].
        -- intros t' Ht. split; [|apply FS]. rewrite TH. apply N.eqb_neq. lia.
        -- cbn [tb_fields]. eapply S; eauto.
        -- destruct K as (K1 & K2 & K3 & K4 & K5 & K6). unfold table_known. cbn [tb_name tb_fields tb_account tb_user tb_init].
           split; [now rewrite there_snoc, K1|]. split; [now rewrite name_in_snoc, RS, EN, TT, HKr|]. split; [|auto].
           intros k. rewrite field_in_snoc, RS, EN, TN. apply K3.
      * assert (E : s' = s).
        { clearbody r. repeat match type of D with match ?x with _ => _ end = _ => destruct x end; try congruence; exfalso; congruence. }
        subst s'. apply (exact_same h s); [exact I|reflexivity|]. intros t. apply silent; [apply RS|now rewrite EN| |apply TN].
        rewrite HKr, (proj2 (N.eqb_neq r 16) R). apply andb_false_r.
Qed.

Lemma exact_start : exact_tables [] (mkD fmpfile_new [] []).
Proof. split; [intros t tb; discriminate|]. intros t. repeat split; reflexivity. Qed.
