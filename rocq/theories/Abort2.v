(** Which records about the schema stop the decompiler. *)
From Coq Require Import NArith Arith List Bool Lia.
From Verif Require Import Prelude PreludeFacts Utf8 EncodingModel EncodingSpec CharConvModel CharConvSpec CharConvProofs ChunkModel InstrModel ComponentModel DecompModel DecompSpec
  DecompCalcSpec DecompCalc DecompScriptSpec DecompScript DecompChain HistorySpec History History2 History3 StepsSpec AbortSpec Abort.
Import ListNotations.
Local Open Scope N_scope.

Definition good {A} (x : outcome A) : Prop := exists a, x = Ok a.
Lemma good_ok {A} (a : A) : good (Ok a).
Proof. now exists a. Qed.
Lemma good_panic {A} : ~ good (@Panic A).
Proof. intros (a & H). discriminate. Qed.
Lemma good_ok_iff {A} (a : A) (P : Prop) : P -> (good (Ok a) <-> P).
Proof. intros H. split; intros _; [exact H|apply good_ok]. Qed.
Lemma good_panic_iff {A} (P : Prop) : ~ P -> (good (@Panic A) <-> P).
Proof. intros H. split; [intros G; now apply good_panic in G|contradiction]. Qed.

Lemma existsb_counted h : existsb starts_occurrence h = true <-> counted h <> 0.
Proof.
  induction h as [|e h IH]; [split; [discriminate|intros H; now contradiction H]|]. cbn [existsb]. rewrite counted_cons.
  destruct (starts_occurrence e); cbn [orb]; [split; [lia|reflexivity]|]. now rewrite N.add_0_l.
Qed.

Lemma nth_some {A} (l : list A) i : nthN l i <> None <-> i < lenN l.
Proof.
  unfold nthN. destruct (N.ltb_spec i (lenN l)) as [H|H].
  - split; [auto|]. intros _. apply nth_error_Some. unfold lenN in H. lia.
  - split; [congruence|lia].
Qed.

Ltac place P := unfold schema_ok, at_place; cbn [fst]; rewrite P.

(** Data of bytes. *)
Definition of_bytes (e : entry) : Prop := forall d, cdata (snd e) = Some d -> bytes d.

Lemma join_ok path ch s : good (arm_relation ch s) <-> (simple (path, ch) = true -> byte_of (path, ch) 2 <> None).
Proof.
  unfold arm_relation. rewrite type_eqb_simple. unfold simple, byte_of. cbn [snd]. destruct (ctype ch); try (apply good_ok_iff; discriminate).
  cbv zeta. destruct (cdata ch) as [d|]; [|cbn [unwrap bind]; apply good_panic_iff; intros H; now apply H].
  cbn [unwrap bind]. unfold at_. destruct (nthN d 2); cbn [unwrap bind].
  - match goal with |- good (if ?c then _ else _) <-> _ => destruct c end; apply good_ok_iff; intros _; discriminate.
  - apply good_panic_iff. intros H. now apply H.
Qed.

Lemma occurrence_ok h path ch s : occ s = numbered 1 (occs h) -> (good (arm_occurrence ch s) <->
  (has_key 2 (path, ch) = true -> byte_of (path, ch) 6 <> None) /\ (has_key 16 (path, ch) = true -> existsb starts_occurrence h = true)).
Proof.
  intros I.
  assert (CN : lenN (f_occurrences (d_file s)) = counted h).
  { fold (occ s). rewrite I, numbered_len. unfold occs, counted. unfold lenN at 1. rewrite map_length. apply sections_count. }
  unfold arm_occurrence. cbv zeta. destruct (key_cases (cref ch) 2) as [K|K]; [|destruct (key_cases (cref ch) 16) as [K'|K']].
  - rewrite K, !(has_key_is 2) by exact K. unfold byte_of. cbn [snd N.eqb Pos.eqb].
    destruct (cdata ch) as [d|]; [|cbn [unwrap bind]; apply good_panic_iff; intros [H _]; now apply H].
    cbn [unwrap bind]. unfold at_. destruct (nthN d 6) eqn:E; cbn [unwrap bind].
    + destruct (nthN d 2) eqn:E2; [cbn [unwrap bind]; apply good_ok_iff; split; discriminate|]. exfalso.
      assert (H : nthN d 6 <> None) by congruence. apply nth_some in H. assert (H2 : nthN d 2 <> None) by (apply nth_some; lia). now apply H2.
    + apply good_panic_iff. intros [H _]. now apply H.
  - rewrite K', !(has_key_is 16) by exact K'. cbn [N.eqb Pos.eqb].
    change (f_occurrences (d_file s)) with (occ s) in *. rewrite CN, I, numbered_get.
    assert (LO : length (occs h) = N.to_nat (counted h)).
    { rewrite <- CN, I, numbered_len. unfold lenN. lia. }
    destruct (N.eq_dec (counted h) 0) as [Z|Z].
    + rewrite Z. cbn. apply good_panic_iff. intros [_ H]. specialize (H eq_refl). apply existsb_counted in H. contradiction.
    + destruct (N.ltb_spec (counted h) 1); [lia|]. destruct (nth_error (occs h) (N.to_nat (counted h - 1))) eqn:E.
      * cbn [unwrap bind]. apply good_ok_iff. split; [discriminate|]. intros _. now apply existsb_counted.
      * apply nth_error_None in E. lia.
  - rewrite !has_key_other by assumption.
    assert (E : forall (X Y : outcome dstate), match cref ch with Some 2 => X | Some 16 => Y | _ => Ok s end = Ok s).
    { intros. destruct (cref ch) as [n|]; [|reflexivity]. assert (n <> 2) by congruence. assert (n <> 16) by congruence.
      repeat match goal with |- context [match ?x with _ => _ end] => is_var x; destruct x end; try reflexivity; contradiction. }
    rewrite E. apply good_ok_iff. split; discriminate.
Qed.

Lemma condition_arm_ok k path ch s : good (arm_relation_fields k ch s) <-> (has_key 1 (path, ch) = true -> condition_ok (path, ch)).
Proof.
  unfold arm_relation_fields. destruct (key_cases (cref ch) 1) as [K|K].
  - rewrite K, (has_key_is 1) by exact K. cbn [N.eqb Pos.eqb]. cbv zeta. unfold condition_ok. cbn [snd]. split.
    + intros (s' & D) _. destruct (cdata ch) as [d|] eqn:CDA; [|discriminate]. cbn [unwrap bind] in D.
      unfold at_ in D. destruct (nthN d 0) as [b|] eqn:NB; [|discriminate]. cbn [unwrap bind] in D.
      destruct (slice d 2 4) as [x1| |] eqn:S1; try discriminate. cbn [bind] in D. destruct (subU (get_path_int x1) 128) as [f1| |] eqn:U1; try discriminate. cbn [bind] in D.
      destruct (slice d 5 7) as [x2| |] eqn:S2; try discriminate. cbn [bind] in D. destruct (subU (get_path_int x2) 128) as [f2| |] eqn:U2; try discriminate.
      apply slice_is in S1 as [S1 _]. apply slice_is in S2 as [S2 L2].
      destruct d as [|c [|x [|a1 [|a2 [|y [|b1 [|b2 rest]]]]]]]; try (unfold lenN in L2; cbn [length] in L2; lia).
      change (x1 = [a1; a2]) in S1. change (x2 = [b1; b2]) in S2. subst x1 x2. unfold subU in U1, U2.
      destruct (N.leb_spec 128 (get_path_int [a1; a2])); [|discriminate]. destruct (N.leb_spec 128 (get_path_int [b1; b2])); [|discriminate].
      exists c, x, a1, a2, y, b1, b2, rest. auto.
    + intros H. destruct (H eq_refl) as (c & x & a1 & a2 & y & b1 & b2 & rest & E & G1 & G2). rewrite E. cbn [unwrap bind].
      set (d := c :: x :: a1 :: a2 :: y :: b1 :: b2 :: rest) in *.
      assert (L : 7 <= lenN d) by (unfold lenN, d; cbn [length]; lia).
      assert (A : at_ d 0 = Ok c) by reflexivity.
      assert (S1 : slice d 2 4 = Ok [a1; a2]).
      { unfold slice. destruct (N.leb_spec 4 (lenN d)); [|lia]. reflexivity. }
      assert (S2 : slice d 5 7 = Ok [b1; b2]).
      { unfold slice. destruct (N.leb_spec 7 (lenN d)); [|lia]. reflexivity. }
      rewrite A. cbn [bind]. rewrite S1. cbn [bind]. unfold subU. apply N.leb_le in G1, G2. rewrite G1. cbn [bind]. rewrite S2. cbn [bind]. rewrite G2. cbn [bind].
      destruct (nget _ k); apply good_ok.
  - rewrite has_key_other by exact K.
    assert (E : forall X : outcome dstate, match cref ch with Some 1 => X | _ => Ok s end = Ok s).
    { intros. destruct (cref ch) as [n|]; [|reflexivity]. assert (n <> 1) by congruence.
      repeat match goal with |- context [match ?x with _ => _ end] => is_var x; destruct x end; try reflexivity; contradiction. }
    rewrite E. apply good_ok_iff. discriminate.
Qed.

Lemma layout_ok h k path ch s : (forall k, nget (lay s) k = layout_of k h) -> (good (arm_layout k ch s) <->
  (enters (path, ch) = false -> layout_of k h <> None ->
      (has_key 2 (path, ch) = true -> exists b, byte_of (path, ch) 1 = Some b /\ 128 <= b) /\ (has_key 16 (path, ch) = true -> has_data (path, ch)))).
Proof.
  intros I. unfold arm_layout. cbv zeta. rewrite type_eqb_push. change (match ctype ch with PathPush => true | _ => false end) with (enters (path, ch)).
  destruct (enters (path, ch)); [apply good_ok_iff; discriminate|]. change (f_layouts (d_file s)) with (lay s). rewrite I.
  destruct (key_cases (cref ch) 2) as [K|K]; [|destruct (key_cases (cref ch) 16) as [K'|K']].
  - rewrite K, !(has_key_is 2) by exact K. cbn [N.eqb Pos.eqb]. unfold byte_of. cbn [snd].
    destruct (layout_of k h) as [l|]; [|apply good_ok_iff; intros _ H; now contradiction H].
    destruct (cdata ch) as [d|]; cbn [unwrap bind].
    + unfold at_. destruct (nthN d 1) as [b|]; cbn [unwrap bind].
      * unfold subU. destruct (N.leb_spec 128 b) as [L|L]; cbn [bind].
        -- apply good_ok_iff. intros _ _. split; [eauto|discriminate].
        -- apply good_panic_iff. intros H. destruct (H eq_refl) as [H1 _]; [discriminate|]. destruct (H1 eq_refl) as (b' & E & L'). injection E as <-. lia.
      * apply good_panic_iff. intros H. destruct (H eq_refl) as [H1 _]; [discriminate|]. destruct (H1 eq_refl) as (b' & E & L'). discriminate.
    + apply good_panic_iff. intros H. destruct (H eq_refl) as [H1 _]; [discriminate|]. destruct (H1 eq_refl) as (b' & E & L'). discriminate.
  - rewrite K', !(has_key_is 16) by exact K'. cbn [N.eqb Pos.eqb]. unfold has_data. cbn [snd].
    destruct (layout_of k h) as [l|]; [|apply good_ok_iff; intros _ H; now contradiction H].
    destruct (cdata ch) as [d|]; cbn [unwrap bind].
    + apply good_ok_iff. intros _ _. split; [discriminate|]. intros _. discriminate.
    + apply good_panic_iff. intros H. destruct (H eq_refl) as [_ H1]; [discriminate|]. now apply H1.
  - rewrite !has_key_other by assumption.
    assert (E : forall (X Y : outcome dstate), match cref ch with Some 2 => X | Some 16 => Y | _ => Ok s end = Ok s).
    { intros. destruct (cref ch) as [n|]; [|reflexivity]. assert (n <> 2) by congruence. assert (n <> 16) by congruence.
      repeat match goal with |- context [match ?x with _ => _ end] => is_var x; destruct x end; try reflexivity; contradiction. }
    rewrite E. apply good_ok_iff. intros _ _. split; discriminate.
Qed.

Lemma mod_field_ok h s t y g : exact_tables h s -> good (f <- mod_field (d_file s) t y g ;; Ok (with_file s f)) <-> field_in t y h <> None.
Proof.
  intros [_ K]. specialize (K t). unfold mod_field. change (f_tables (d_file s)) with (tab s). destruct (nget (tab s) t) as [tb|]; cbn [unwrap bind].
  - destruct K as (_ & _ & K & _). rewrite <- K. destruct (nget (tb_fields tb) y); cbn [unwrap bind].
    + apply good_ok_iff. discriminate.
    + apply good_panic_iff. congruence.
  - destruct K as (_ & _ & K). rewrite K. apply good_panic_iff. congruence.
Qed.

Lemma field_ok h x y path ch s : exact_tables h s -> (good (arm_field x y ch s) <->
  (enters (path, ch) = false -> 128 <= x -> field_key (path, ch) = true -> field_in (x - 128) (y mod 65536) h <> None)).
Proof.
  intros I. unfold arm_field. destruct (N.leb_spec 128 x) as [Hx|Hx]; [|apply good_ok_iff; intros; lia]. cbv zeta.
  rewrite type_eqb_push. change (match ctype ch with PathPush => true | _ => false end) with (enters (path, ch)).
  destruct (enters (path, ch)) eqn:EN.
  - assert (G : good (unwrap (nget (if nhas (f_tables (d_file s)) (x - 128) then f_tables (d_file s) else nset (f_tables (d_file s)) (x - 128) table_new) (x - 128)))).
    { rewrite nhas_get. destruct (nget (f_tables (d_file s)) (x - 128)) as [tb|] eqn:E; [rewrite E; apply good_ok|]. rewrite nget_nset, N.eqb_refl. apply good_ok. }
    destruct G as (tb & ->). cbn [bind]. apply good_ok_iff. discriminate.
  - set (r := match cref ch with Some k => k | None => 0 end).
    assert (HKr : forall k, 0 < k -> has_key k (path, ch) = (r =? k)).
    { intros k Hk. unfold has_key, r. cbn [snd]. destruct (cref ch); [reflexivity|]. symmetry. apply N.eqb_neq. lia. }
    unfold as_u16.
    assert (Y : forall g, field_key (path, ch) = true -> good (f <- mod_field (d_file s) (x - 128) (y mod 65536) g ;; Ok (with_file s f)) <->
      (false = false -> 128 <= x -> field_key (path, ch) = true -> field_in (x - 128) (y mod 65536) h <> None)).
    { intros g FK. rewrite (mod_field_ok h) by exact I. tauto. }
    assert (FK : field_key (path, ch) = (r =? 2) || ((r =? 3) || ((r =? 16) || ((r =? 129) || ((r =? 130) || false))))).
    { unfold field_key. cbn [existsb]. rewrite !HKr by lia. reflexivity. }
    destruct (N.eq_dec r 2) as [R|R2]; [rewrite R in *; now apply Y|].
    destruct (N.eq_dec r 3) as [R|R3]; [rewrite R in *; now apply Y|].
    destruct (N.eq_dec r 16) as [R|R16]; [rewrite R in *; now apply Y|].
    destruct (N.eq_dec r 129) as [R|R129]; [rewrite R in *; now apply Y|].
    destruct (N.eq_dec r 130) as [R|R130]; [rewrite R in *; now apply Y|].
    assert (FK' : field_key (path, ch) = false).
    { rewrite FK. repeat match goal with |- context [r =? ?n] => destruct (N.eqb_spec r n); [contradiction|] end. reflexivity. }
    assert (E : forall X2 X3 X16 X129 X130 : outcome dstate, match r with 2 => X2 | 3 => X3 | 16 => X16 | 129 => X129 | 130 => X130 | _ => Ok s end = Ok s).
    { intros. clearbody r. repeat match goal with |- context [match ?x with _ => _ end] => is_var x; destruct x end; try reflexivity; contradiction. }
    rewrite E, FK'. apply good_ok_iff. discriminate.
Qed.

Lemma table_ok h x path ch s : exact_tables h s -> (good (arm_table x ch s) <->
  if enters (path, ch) then table_there x h = true \/ 128 <= x
  else has_key 16 (path, ch) = true -> 128 <= x /\ table_there (x - 128) h = true).
Proof.
  intros I. unfold arm_table. cbv zeta. rewrite type_eqb_push. change (match ctype ch with PathPush => true | _ => false end) with (enters (path, ch)).
  change (f_tables (d_file s)) with (tab s). rewrite <- (known_there h) by exact I.
  destruct (enters (path, ch)).
  - destruct (table_there x h); [apply good_ok_iff; auto|]. unfold subU. destruct (N.leb_spec 128 x); cbn [bind]; [apply good_ok_iff; auto|].
    apply good_panic_iff. intros [H'|H']; [discriminate|lia].
  - set (r := match cref ch with Some k => k | None => 0 end).
    assert (HKr : has_key 16 (path, ch) = (r =? 16)).
    { unfold has_key, r. cbn [snd]. destruct (cref ch); reflexivity. }
    rewrite HKr. destruct (N.eqb_spec r 16) as [R|R].
    + rewrite R. unfold subU. destruct (N.leb_spec 128 x) as [L|L]; cbn [bind]; [|apply good_panic_iff; intros H'; destruct (H' eq_refl); lia].
      rewrite (known_there h s (x - 128) I), nhas_get. destruct (nget (tab s) (x - 128)); cbn [unwrap bind]; [apply good_ok_iff; auto|].
      apply good_panic_iff. intros H'. destruct (H' eq_refl). discriminate.
    + assert (E : forall X : outcome dstate, match r with 16 => X | _ => Ok s end = Ok s).
      { intros. clearbody r. repeat match goal with |- context [match ?x with _ => _ end] => is_var x; destruct x end; try reflexivity; contradiction. }
      rewrite E. apply good_ok_iff. discriminate.
Qed.

Lemma script_ok h k path ch s : place_of path = PScript k -> (forall k, option_map sc_name (nget (nam s) k) = script_name_of k h) -> (good (arm_script_name k ch s) <->
  (names_script k (path, ch) = true -> script_name_of k h = None -> has_data (path, ch))).
Proof.
  intros P I. unfold names_script, at_place. cbn [fst]. rewrite P, N.eqb_refl. cbn [andb]. unfold keyed, has_data. cbn [snd]. rewrite <- I. unfold arm_script_name.
  destruct (ctype ch); try (apply good_ok_iff; discriminate). cbn [andb]. destruct (key_cases (cref ch) 16) as [K|K].
  - rewrite K, (has_key_is 16) by exact K. cbv zeta. change (f_scripts (d_file s)) with (nam s). destruct (nget (nam s) k); cbn [option_map].
    + apply good_ok_iff. discriminate.
    + destruct (cdata ch); cbn [unwrap bind]; [apply good_ok_iff; discriminate|]. apply good_panic_iff. intros H. now apply H.
  - rewrite has_key_other by exact K.
    assert (E : forall X : outcome dstate, match cref ch with Some 16 => X | _ => Ok s end = Ok s).
    { intros. destruct (cref ch) as [n|]; [|reflexivity]. assert (n <> 16) by congruence.
      repeat match goal with |- context [match ?x with _ => _ end] => is_var x; destruct x end; try reflexivity; contradiction. }
    cbv zeta. rewrite E. apply good_ok_iff. discriminate.
Qed.

Lemma source_name_ok path ch s : of_bytes (path, ch) -> (good (arm_source_name ch s) <->
  (simple (path, ch) = true -> exists d t, cdata ch = Some d /\ stand_for d (t ++ [0]))).
Proof.
  intros B. unfold arm_source_name, simple. cbn [snd]. destruct (ctype ch); try (apply good_ok_iff; discriminate).
  destruct (cdata ch) as [d|] eqn:E; cbn [unwrap bind]; [|apply good_panic_iff; intros H; destruct (H eq_refl) as (d & t & E' & _); discriminate].
  specialize (B d E). split.
  - intros (s' & H) _. destruct (decode_bytes d) as [t| |] eqn:D; try discriminate. exists d, t. split; [reflexivity|].
    apply strip_nul_iff in D. rewrite <- D. eapply decode_stands; eauto.
  - intros H. destruct (H eq_refl) as (d' & t & E' & S). injection E' as <-. apply stands_unique in S; [|exact B].
    assert (D : decode_bytes d = Ok t) by (apply strip_nul_iff; auto). rewrite D. apply good_ok.
Qed.

Lemma source_ok k path ch s : good (arm_source k ch s) <->
  ((enters (path, ch) = true -> has_data (path, ch)) /\
   (keyed (path, ch) = true -> cref ch <> None) /\
   (keyed (path, ch) = true -> has_key 130 (path, ch) = true ->
         exists d, cdata ch = Some d /\ (ccode ch = 6 -> exists loc, located d loc))).
Proof.
  unfold arm_source, enters, keyed, has_data. cbv zeta. cbn [snd]. destruct (ctype ch); try (apply good_ok_iff; repeat split; discriminate).
  - destruct (key_cases (cref ch) 130) as [K|K].
    + rewrite (has_key_is 130) by exact K. rewrite K. cbn [unwrap bind].
      destruct (cdata ch) as [d|]; cbn [unwrap bind].
      * destruct (N.eqb_spec (ccode ch) 6) as [C|C].
        -- destruct (location_from_bytes d) as [loc| |] eqn:L; cbn [bind].
           ++ apply location_inv in L. assert (G : forall o, good (match o with None => Ok s | Some o => Ok (with_file s (set_sources (d_file s) (nset (f_sources (d_file s)) k (mkSource (ds_name o) loc (ds_account o) (ds_user o))))) end)) by (intros [o|]; apply good_ok).
              split; [|intros _; apply G]. intros _. split; [discriminate|]. split; [discriminate|]. intros _ _. eauto.
           ++ apply good_panic_iff. intros (_ & _ & H). destruct (H eq_refl eq_refl) as (d' & E & H'). injection E as <-. destruct (H' C) as (loc & H2). apply location_found in H2. congruence.
           ++ now apply nf_location in L.
        -- assert (G : forall o, good (match o with None => Ok s | Some o => Ok (with_file s (set_sources (d_file s) (nset (f_sources (d_file s)) k (mkSource (ds_name o) (ds_location o) (ds_account o) (fm_string_decrypt d))))) end)) by (intros [o|]; apply good_ok).
           split; [|intros _; apply G]. intros _. split; [discriminate|]. split; [discriminate|]. intros _ _. exists d. split; [reflexivity|contradiction].
      * apply good_panic_iff. intros (_ & _ & H). destruct (H eq_refl eq_refl) as (d' & E & H'). discriminate.
    + rewrite has_key_other by exact K. destruct (cref ch) as [n|]; cbn [unwrap bind].
      * assert (E : forall X : outcome dstate, match n with 130 => X | _ => Ok s end = Ok s).
        { intros. assert (n <> 130) by congruence. repeat match goal with |- context [match ?x with _ => _ end] => is_var x; destruct x end; try reflexivity; contradiction. }
        rewrite E. apply good_ok_iff. repeat split; discriminate.
      * apply good_panic_iff. intros (_ & H & _). now apply H.
  - destruct (cdata ch) as [d|]; cbn [unwrap bind].
    + assert (G : forall l, good (match l with [] => Ok s | n :: rest => Ok (mkD (set_sources (d_file s) (nset (f_sources (d_file s)) (get_int d) (mkSource n location_new [] []))) (d_segments s) rest) end)) by (intros [|? ?]; apply good_ok).
      split; [intros _; repeat split; discriminate|intros _; apply G].
    + apply good_panic_iff. intros (H & _). now apply H.
Qed.

Lemma schema_arm h path ch s : all_known h s -> exact_tables h s -> of_bytes (path, ch) -> place_of path <> PElsewhere ->
  (good (dispatch path ch s) <-> schema_ok h (path, ch)).
Proof.
  intros (I1 & I2 & I3 & I4 & I5 & I6 & I7) T B NE. rewrite <- dispatch_place. unfold schema_ok, at_place. cbn [fst].
  destruct (place_of path) eqn:P; cbn [at_arm].
  - apply join_ok.
  - now apply occurrence_ok.
  - apply condition_arm_ok.
  - now apply layout_ok.
  - now apply field_ok.
  - now apply table_ok.
  - now apply script_ok.
  - now apply source_name_ok.
  - apply source_ok.
  - contradiction.
Qed.
