(** The assembled file is the image of the schema. *)
From Coq Require Import Ascii String NArith ZArith List Bool Lia.
From Verif Require Import Prelude PreludeFacts Utf8 Utf8Facts EncodingModel EncodingSpec EncodingProofs CharConvModel CharConvProofs
  InstrModel ComponentModel HeaderModel AsmModel AsmSpec AsmFacts.
Import ListNotations.
Local Open Scope N_scope.

Lemma bind_ext {A B} (x : outcome A) (f g : A -> outcome B) : (forall a, f a = g a) -> bind x f = bind x g.
Proof. intros H. destruct x; cbn; auto. Qed.

Lemma bind_panic {A B} (x : outcome A) (f : A -> outcome B) : x <> NoFuel -> (forall a, f a = Panic) -> bind x f = Panic.
Proof. destruct x; cbn; auto; congruence. Qed.

Definition big (n : N) : bool := 2 ^ 24 <=? n.

Lemma put_int_be n : n < 2 ^ 24 -> put_int Debug n = Ok (be4 n).
Proof.
  intros H. rewrite put_int_small by auto. change (2 ^ 24) with 16777216 in H. apply Ok4; lia.
Qed.

Lemma put_int_big n : big n = true -> put_int Debug n = Panic.
Proof.
  unfold big. intros H. change (2 ^ 24) with 16777216 in H. unfold put_int.
  rewrite loop3. replace (n =? 0) with false by lia.
  rewrite loop2. replace (n / 256 =? 0) with false by lia.
  rewrite loop1. replace (n / 256 / 256 =? 0) with false by lia.
  rewrite loop0_debug. replace (n / 256 / 256 / 256 =? 0) with false by lia. reflexivity.
Qed.

Lemma to_be_small n : n < 2 ^ 24 -> to_be_bytes (n mod 2 ^ 32) = be4 n.
Proof.
  intros H. unfold to_be_bytes, be4. rewrite (N.mod_small n) by lia. f_equal.
  change (2 ^ 24) with 16777216 in *. lia.
Qed.

Lemma for_each_nf {A} (l : list A) f s : (forall x a, f x a <> NoFuel) -> for_each l f s <> NoFuel.
Proof.
  intros H. revert s. induction l; intros s; cbn [for_each]; [discriminate|]. now apply bind_nf.
Qed.

Ltac walk := repeat (cbn [app emit_all emit]; first [reflexivity | apply bind_ext; intros ?]).

Definition ids_big {A} (l : list (N * A)) : bool := existsb (fun t => big (fst t)) l.

Lemma ids_big_false {A} (l : list (N * A)) : ids_big l = false <-> Forall (fun t => fst t < 2 ^ 24) l.
Proof.
  unfold ids_big, big. rewrite Forall_forall. split.
  - intros H x Hx. destruct (N.ltb_spec (fst x) (2 ^ 24)); auto. exfalso.
    assert (existsb (fun t : N * A => 2 ^ 24 <=? fst t) l = true).
    { apply existsb_exists. exists x. split; auto. lia. } congruence.
  - intros H. destruct (existsb _ l) eqn:E; auto. apply existsb_exists in E. destruct E as (x & Hx & E).
    apply H in Hx. lia.
Qed.

Lemma init_blobs_events s : emit_init_blobs s = emit_all blob_events s.
Proof. unfold emit_init_blobs, blob_events. walk. now rewrite bind_ret. Qed.

Definition tables_big (f : fmpfile) : bool := ids_big (f_tables f) || big (lenN (f_tables f)).

Lemma encode_cat s : encode_text s ++ [0] ++ [0] ++ [0] = encode_text s ++ [0; 0; 0].
Proof. reflexivity. Qed.

Lemma map_flat {A} (f : A -> event) l : map f l = flat_map (fun x => [f x]) l.
Proof. induction l; cbn; congruence. Qed.

Lemma hello_bytes : fm_string_encrypt (lit "hello") = [50; 63; 54; 54; 53].
Proof. reflexivity. Qed.

Lemma big_false n : big n = false -> n < 2 ^ 24.
Proof. unfold big. lia. Qed.

Lemma be4_len n : lenN (be4 n) = 4.
Proof. reflexivity. Qed.

(** Run the events of a block of single emitters followed by the rest. *)
Ltac step_ev := apply bind_ext; intros ?.

Lemma emit_single e a : emit_all [e] a = emit e a.
Proof. cbn [emit_all]. apply bind_ret. Qed.

Lemma table_events_run f s :
  emit_table_metadata f s = if tables_big f then Panic else emit_all (table_events f) s.
Proof.
  unfold emit_table_metadata, table_events, tables_big.
  assert (L1 : forall s, for_each (f_tables f) (fun t s =>
         emit_long_kv (encode_text (tb_name (snd t)) ++ [0] ++ [0] ++ [0]) [2; 128; as_u8 (fst t)] s) s
      = emit_all (map (fun t => PutLong (encode_text (tb_name (snd t)) ++ [0; 0; 0]) [2; 128; fst t mod 256]) (f_tables f)) s).
  { intros s0. rewrite map_flat, <- for_each_emit. apply for_each_ext. intros x a _. rewrite emit_single. reflexivity. }
  assert (L2 : forall s, for_each (f_tables f) (fun t s =>
         key <- put_int Debug (fst t) ;; emit_long_kv key (to_be_bytes (fst t mod 2 ^ 32)) s) s
      = if ids_big (f_tables f) then Panic else
        emit_all (map (fun t => PutLong (be4 (fst t)) (be4 (fst t))) (f_tables f)) s).
  { intros s0. rewrite map_flat. apply for_each_panic.
    - intros x a B. now rewrite put_int_big.
    - intros x a _ B. apply big_false in B. rewrite put_int_be, to_be_small, emit_single by auto. reflexivity. }
  assert (L3 : ids_big (f_tables f) = false -> forall s, for_each (f_tables f) (fun t s =>
         d <- add_128_u32 (fst t) ;; s <- push_directory d s ;; pop_directory s) s
      = emit_all (flat_map (fun t => [Enter (128 + fst t); Leave]) (f_tables f)) s).
  { intros B s0. rewrite <- for_each_emit. apply for_each_ext. intros x a Hx.
    apply ids_big_false in B. rewrite Forall_forall in B. apply B in Hx.
    unfold add_128_u32. rewrite N.mod_small by lia. replace (128 + fst x <? 2 ^ 32) with true by lia.
    cbn [bind emit_all emit]. apply bind_ext. intros c. now rewrite bind_ret. }
  destruct (ids_big (f_tables f)) eqn:B; cbn [orb]; [|destruct (big (lenN (f_tables f))) eqn:Bl].
  - do 4 (apply bind_panic; [apply (emit_nf (Enter _))|intros ?]).
    apply bind_panic; [rewrite L1; apply emit_all_nf|intros ?].
    apply bind_panic; [apply (emit_nf Leave)|intros ?].
    apply bind_panic; [apply (emit_nf (Enter _))|intros ?].
    rewrite L2. reflexivity.
  - do 4 (apply bind_panic; [apply (emit_nf (Enter _))|intros ?]).
    apply bind_panic; [rewrite L1; apply emit_all_nf|intros ?].
    apply bind_panic; [apply (emit_nf Leave)|intros ?].
    apply bind_panic; [apply (emit_nf (Enter _))|intros ?].
    apply bind_panic; [rewrite L2; apply emit_all_nf|intros ?].
    apply bind_panic; [apply (emit_nf Leave)|intros ?].
    rewrite put_int_big by auto. reflexivity.
  - cbn [app emit_all emit]. do 4 step_ev.
    rewrite L1, emit_all_app. step_ev. cbn [app emit_all emit].
    do 2 step_ev. rewrite L2, emit_all_app. step_ev.
    cbn [app emit_all emit]. step_ev. rewrite put_int_be by now apply big_false. cbn [bind]. rewrite hello_bytes. do 5 step_ev. rewrite L3, emit_all_app by auto. step_ev.
    cbn [app emit_all emit]. do 2 step_ev. now rewrite bind_ret.
Qed.

Lemma occ_name_bytes n : encode_text (n ++ [0; 0]) = encode_text n ++ [0; 0; 0; 0].
Proof. unfold encode_text. rewrite flat_map_app. reflexivity. Qed.

Lemma relation_events_run f s :
  emit_relationship_data f s = if ids_big (f_occurrences f) then Panic else emit_all (relation_events f) s.
Proof.
  unfold emit_relationship_data, relation_events.
  assert (L1 : forall s, for_each (f_occurrences f) (fun t s =>
         emit_simple_data_1b (encode_text (oc_name (snd t) ++ [0; 0])) s) s
      = emit_all (map (fun t => Item (encode_text (oc_name (snd t)) ++ [0; 0; 0; 0])) (f_occurrences f)) s).
  { intros s0. rewrite map_flat, <- for_each_emit. apply for_each_ext. intros x a _.
    rewrite emit_single, occ_name_bytes. reflexivity. }
  assert (L2 : forall s, for_each (f_occurrences f) (fun t s =>
         d <- put_int Debug (fst t) ;; emit_simple_data_1b d s) s
      = if ids_big (f_occurrences f) then Panic else
        emit_all (map (fun t => Item (be4 (fst t))) (f_occurrences f)) s).
  { intros s0. rewrite map_flat. apply for_each_panic.
    - intros x a B. now rewrite put_int_big.
    - intros x a _ B. apply big_false in B. rewrite put_int_be, emit_single by auto. reflexivity. }
  destruct (ids_big (f_occurrences f)) eqn:B.
  - do 2 (apply bind_panic; [apply (emit_nf (Enter _))|intros ?]).
    apply bind_panic; [apply (emit_nf (Put _ _))|intros ?].
    apply bind_panic; [apply (emit_nf (Enter _))|intros ?].
    apply bind_panic; [rewrite L1; apply emit_all_nf|intros ?].
    apply bind_panic; [apply (emit_nf Leave)|intros ?].
    apply bind_panic; [apply (emit_nf (Enter _))|intros ?].
    rewrite L2. reflexivity.
  - cbn [app emit_all emit]. do 4 step_ev.
    rewrite L1, emit_all_app. step_ev. cbn [app emit_all emit].
    do 2 step_ev. rewrite L2, emit_all_app. step_ev.
    cbn [app emit_all emit]. do 5 step_ev. now rewrite bind_ret.
Qed.

Lemma for_each_id {A} (l : list A) g s : @for_each A l (fun t s => emit_simple_data (g t) s) s = Ok s.
Proof. induction l; cbn [for_each]; auto. Qed.

Lemma tail_events_run f s :
  (s <- emit_layout_data f s ;; s <- emit_theme_data s ;; s <- emit_script_data f s ;;
   s <- emit_security_data s ;; s <- emit_theme_data s ;; s <- emit_font_data s ;; emit_toolbar_data s)
  = emit_all (tail_events f) s.
Proof.
  unfold tail_events.
  change [Enter 4; Enter 1; Put 0 [1; lenN (f_layouts f) mod 256]; Enter 5; Leave; Leave; Leave; Enter 6; Leave; Enter 17;
          Enter 1; Put 0 [1; lenN (f_scripts f) mod 256]; Enter 1; Leave; Leave; Leave; Enter 23; Leave; Enter 6; Leave;
          Enter 25; Leave; Enter 65; Leave]
    with ([Enter 4; Enter 1; Put 0 [1; lenN (f_layouts f) mod 256]; Enter 5; Leave; Leave; Leave] ++ [Enter 6; Leave] ++
          [Enter 17; Enter 1; Put 0 [1; lenN (f_scripts f) mod 256]; Enter 1; Leave; Leave; Leave] ++ [Enter 23; Leave] ++
          [Enter 6; Leave] ++ [Enter 25; Leave] ++ [Enter 65; Leave]).
  rewrite !emit_all_app.
  assert (T : forall d s, emit_all [Enter d; Leave] s = (s <- push_directory d s ;; pop_directory s)).
  { intros d s0. cbn [emit_all emit]. apply bind_ext. intros. now rewrite bind_ret. }
  assert (L : emit_layout_data f s = emit_all [Enter 4; Enter 1; Put 0 [1; lenN (f_layouts f) mod 256]; Enter 5; Leave; Leave; Leave] s).
  { unfold emit_layout_data. cbn [emit_all emit]. do 6 step_ev. now rewrite bind_ret. }
  rewrite L. step_ev.
  rewrite emit_all_app, T. unfold emit_theme_data. step_ev. rewrite emit_all_app.
  assert (L' : emit_script_data f a0 = emit_all [Enter 17; Enter 1; Put 0 [1; lenN (f_scripts f) mod 256]; Enter 1; Leave; Leave; Leave] a0).
  { unfold emit_script_data. cbn [emit_all emit]. do 4 step_ev. rewrite for_each_id. cbn [bind]. do 2 step_ev. now rewrite bind_ret. }
  rewrite L'. step_ev. rewrite emit_all_app, T. step_ev. rewrite emit_all_app, T. step_ev. rewrite emit_all_app, T. step_ev.
  rewrite T. reflexivity.
Qed.

Lemma schema_events_run f s :
  (s <- emit_init_blobs s ;; s <- emit_table_metadata f s ;; s <- emit_relationship_data f s ;;
   s <- emit_layout_data f s ;; s <- emit_theme_data s ;; s <- emit_script_data f s ;;
   s <- emit_security_data s ;; s <- emit_theme_data s ;; s <- emit_font_data s ;; emit_toolbar_data s)
  = if tables_big f || ids_big (f_occurrences f) then Panic else emit_all (schema_events f) s.
Proof.
  rewrite init_blobs_events.
  transitivity (s <- emit_all blob_events s ;; s <- emit_table_metadata f s ;; s <- emit_relationship_data f s ;;
                emit_all (tail_events f) s).
  { do 3 step_ev. apply tail_events_run. }
  destruct (tables_big f) eqn:B1; cbn [orb].
  { apply bind_panic; [apply emit_all_nf|]. intros a. now rewrite table_events_run, B1. }
  destruct (ids_big (f_occurrences f)) eqn:B2.
  { apply bind_panic; [apply emit_all_nf|]. intros a. rewrite table_events_run, B1.
    apply bind_panic; [apply emit_all_nf|]. intros b. now rewrite relation_events_run, B2. }
  unfold schema_events. rewrite !emit_all_app. step_ev. rewrite table_events_run, B1, emit_all_app.
  step_ev. rewrite relation_events_run, B2, emit_all_app. reflexivity.
Qed.

Definition soundb (e : event) : bool :=
  match e with
  | Put k v => forced k || existsb (N.eqb (lenN v)) [1; 2; 4; 6; 8] || ((10 <=? lenN v) && (lenN v <? 256))
  | _ => true
  end.

Lemma soundb_sound es : forallb soundb es = true -> Forall sound es.
Proof.
  rewrite forallb_forall, Forall_forall. intros H e He. apply H in He. destruct e; try exact I.
  cbn [sound soundb] in *. destruct (forced k); auto. apply orb_true_iff in He. destruct He as [He|He].
  - left. apply existsb_exists in He. destruct He as (x & Hx & E). apply N.eqb_eq in E. now rewrite E.
  - right. lia.
Qed.

Lemma sound_schema f : Forall sound (schema_events f).
Proof.
  unfold schema_events, table_events, relation_events. repeat (apply Forall_app; split).
  all: try (apply Forall_forall; intros e He; apply in_map_iff in He; destruct He as (x & <- & _); exact I).
  all: try (apply soundb_sound; reflexivity).
  apply Forall_forall. intros e He. apply in_flat_map in He. destruct He as (x & _ & [<-|[<-|[]]]); exact I.
Qed.

Lemma schema_ends f : exists es, schema_events f = es ++ [Leave].
Proof.
  unfold schema_events, tail_events. eexists. 
  rewrite !app_assoc. 
  match goal with |- ?p ++ [?a;?b;?c;?d;?e;?g;?h;?i;?j;?k;?l;?m;?n;?o;?q;?r;?s;?t;?u;?v;?w;?x;?y;?z] = _ =>
    change (p ++ [a;b;c;d;e;g;h;i;j;k;l;m;n;o;q;r;s;t;u;v;w;x;y;z])
      with (p ++ ([a;b;c;d;e;g;h;i;j;k;l;m;n;o;q;r;s;t;u;v;w;x;y] ++ [z])) end.
  rewrite app_assoc. reflexivity.
Qed.
