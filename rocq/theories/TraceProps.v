(** C98: what the assembler prints. *)
From Coq Require Import Ascii String NArith ZArith List Bool Lia.
From Verif Require Import Prelude PreludeFacts Utf8 EncodingModel CharConvModel InstrModel ComponentModel HeaderModel AsmModel AsmSpec AsmFacts AsmProofs AsmMain AsmLemmas AsmProps TraceModel TraceSpec TraceRoom.
Import ListNotations.
Local Open Scope N_scope.

(** Without the lines these are the functions of AsmModel.v. *)
Lemma and_snd {A B} (x : noted A) (k : A -> noted B) : snd (and_note x k) = bind (snd x) (fun a => snd (k a)).
Proof. unfold and_note. destruct (snd x); reflexivity. Qed.
Lemma bind_same {A B} (x y : outcome A) (f g : A -> outcome B) : x = y -> (forall a, f a = g a) -> bind x f = bind y g.
Proof. intros -> H. destruct y; cbn; auto. Qed.
Ltac snds := repeat (rewrite and_snd; apply bind_same; [first [reflexivity|auto]|intros ?]); cbn [still snd notes].
Lemma kv_e_snd k v s : snd (kv_e_noted k v s) = emit_simple_kv_e k v s.
Proof. unfold kv_e_noted, emit_simple_kv_e. rewrite and_snd. apply bind_same; [reflexivity|intros a]. rewrite and_snd. cbn [notes snd bind]. snds. reflexivity. Qed.
Lemma kv_snd k v s : snd (kv_noted k v s) = emit_simple_kv k v s.
Proof.
  unfold kv_noted, emit_simple_kv. set (ins := if k =? 16 then _ else _). rewrite and_snd. apply bind_same; [reflexivity|intros a].
  destruct ((1 <=? ins) && (ins <=? 5)); [snds; reflexivity|]. destruct (ins =? 6); [|reflexivity].
  rewrite and_snd. apply bind_same; [reflexivity|intros b]. rewrite and_snd. cbn [notes snd bind]. snds. reflexivity.
Qed.
Lemma push_snd d s : snd (push_noted d s) = push_directory d s.
Proof. unfold push_noted, push_directory. rewrite and_snd. cbn [notes snd bind]. snds. reflexivity. Qed.
Lemma pop_snd s : snd (pop_noted s) = pop_directory s.
Proof. reflexivity. Qed.
Lemma each_snd {A} (l : list A) b c : (forall x s, snd (b x s) = c x s) -> forall s, snd (each_noted l b s) = for_each l c s.
Proof. intros H. induction l as [|x l IH]; intros s; [reflexivity|]. cbn [each_noted for_each]. rewrite and_snd. apply bind_same; auto. Qed.
Ltac parts := repeat (rewrite and_snd; apply bind_same; [first [apply push_snd|apply pop_snd|apply kv_snd|apply kv_e_snd|reflexivity|apply each_snd; intros ? ?]|intros ?]);
  first [apply pop_snd|reflexivity|idtac].
Lemma blobs_snd s : snd (init_blobs_noted s) = emit_init_blobs s.
Proof. unfold init_blobs_noted, emit_init_blobs. parts. Qed.
Lemma tables_snd f s : snd (table_metadata_noted f s) = emit_table_metadata f s.
Proof.
  unfold table_metadata_noted, emit_table_metadata. parts.
Qed.
Lemma relations_snd f s : snd (relationship_data_noted f s) = emit_relationship_data f s.
Proof. unfold relationship_data_noted, emit_relationship_data. parts. Qed.
Lemma layouts_snd f s : snd (layout_data_noted f s) = emit_layout_data f s.
Proof. unfold layout_data_noted, emit_layout_data. parts. Qed.
Lemma scripts_snd f s : snd (script_data_noted f s) = emit_script_data f s.
Proof. unfold script_data_noted, emit_script_data. parts. Qed.
Lemma empty_snd d s : snd (empty_noted d s) = (s <- push_directory d s ;; pop_directory s).
Proof. unfold empty_noted. parts. Qed.
Lemma assoc_ret {A B} (x : outcome A) (f : A -> outcome B) : bind x f = bind x (fun a => f a).
Proof. reflexivity. Qed.
Lemma assemble_snd f : snd (assemble_noted f) = assemble f.
Proof.
  unfold assemble_noted, assemble, assemble_fmp12.
  repeat (rewrite and_snd; rewrite ?assoc2; apply bind_same; [first [reflexivity|apply blobs_snd|apply tables_snd|apply relations_snd|apply layouts_snd|apply scripts_snd|apply empty_snd]|intros ?]).
  reflexivity.
Qed.

(** [keeps x l]: [l] if there is a result, and a beginning of [l] otherwise. *)
Definition keeps {A} (x : noted A) (l : list note) : Prop := (exists more, l = fst x ++ more) /\ (forall a, snd x = Ok a -> fst x = l).
Lemma keeps_and {A B} (x : noted A) (k : A -> noted B) l m : keeps x l -> (forall a, snd x = Ok a -> keeps (k a) m) -> keeps (and_note x k) (l ++ m).
Proof.
  intros [(r & P) E] K. unfold keeps, and_note. destruct (snd x) as [a| |] eqn:Q; cbn [fst snd].
  - destruct (K a eq_refl) as [(r' & P') E']. rewrite (E a eq_refl). split; [exists r'; rewrite P'; now rewrite app_assoc|]. intros b Hb. now rewrite (E' b Hb).
  - split; [exists (r ++ m); rewrite P; now rewrite app_assoc|discriminate].
  - split; [exists (r ++ m); rewrite P; now rewrite app_assoc|discriminate].
Qed.
Lemma keeps_still {A} (x : outcome A) : keeps (still x) [].
Proof. split; [now exists []|reflexivity]. Qed.
Lemma keeps_panic {A} (x : noted A) l : x = ([], Panic) -> keeps x l.
Proof. intros ->. split; [now exists l|discriminate]. Qed.
Lemma keeps_notes l : keeps (notes l) l.
Proof. split; [exists []; now rewrite app_nil_r|reflexivity]. Qed.
Lemma keeps_as {A} (x : noted A) l m : keeps x l -> l = m -> keeps x m.
Proof. now intros H ->. Qed.
Ltac one := eapply keeps_and; [first [apply keeps_still|apply keeps_notes]|intros ? _].

Lemma kv_e_keeps k v s : keeps (kv_e_noted k v s) [NKey (number k)].
Proof. unfold kv_e_noted. rewrite number_put. eapply keeps_as; [do 4 one; apply keeps_still|reflexivity]. Qed.
Lemma kv_keeps k v s : (if k =? 16 then 6 else if k =? 216 then 6 else calc_small_kv_ins v) = (if forced k then 6 else short_code (lenN v)) -> keeps (kv_noted k v s) (event_line (Put k v)).
Proof.
  intros E. unfold kv_noted. rewrite E. cbn [event_line]. pose proof (short_code_range (lenN v)) as R. destruct (forced k); cbn [orb].
  - change ((1 <=? 6) && (6 <=? 5)) with false. change (6 =? 6) with true. cbn iota. eapply keeps_as; [do 4 one; apply keeps_still|reflexivity].
  - destruct (N.eqb_spec (short_code (lenN v)) 6) as [->|Q].
    + change ((1 <=? 6) && (6 <=? 5)) with false. cbn iota. eapply keeps_as; [do 4 one; apply keeps_still|reflexivity].
    + replace ((1 <=? short_code (lenN v)) && (short_code (lenN v) <=? 5)) with true by lia. eapply keeps_as; [do 2 one; apply keeps_still|reflexivity].
Qed.
Lemma push_keeps d s : keeps (push_noted d s) [NDirectory (if d <? 128 then 0x20 else 0x28) (number d)].
Proof.
  unfold push_noted. rewrite number_put. cbv zeta. eapply keeps_as; [do 3 one; apply keeps_still|]. unfold number. destruct (d <? 128); reflexivity.
Qed.
Lemma pop_keeps s : keeps (pop_noted s) [].
Proof. apply keeps_still. Qed.
Lemma each_keeps {A} (l : list A) b m : (forall x s, In x l -> keeps (b x s) (m x)) -> forall s, keeps (each_noted l b s) (flat_map m l).
Proof.
  induction l as [|x l IH]; intros H s; [apply keeps_still|]. cbn [each_noted flat_map]. apply keeps_and; [apply H; now left|]. intros a _. apply IH. intros y t I. apply H. now right.
Qed.
Ltac two := eapply keeps_and; [first [apply push_keeps|apply pop_keeps|apply kv_e_keeps|apply keeps_still|apply kv_keeps; reflexivity]|intros ? ?].
Lemma blobs_keeps s : keeps (init_blobs_noted s) (flat_map event_line blob_events).
Proof.
  unfold init_blobs_noted. eapply keeps_as; [repeat two; apply pop_keeps|]. unfold blob_events. cbn [flat_map event_line]. reflexivity.
Qed.
Lemma flat_none {A} (l : list A) : flat_map (fun _ => @nil note) l = [].
Proof. induction l; auto. Qed.
Lemma flat_one {A} (m : A -> note) l : flat_map (fun x => [m x]) l = map m l.
Proof. induction l as [|x l IH]; cbn; [|rewrite IH]; auto. Qed.
Lemma each_ids (l : list (N * table)) s s' : snd (each_noted l (fun t s =>
         and_note (still (put_int Debug (fst t))) (fun key => and_note (notes [NTable (to_be_bytes (fst t mod 2 ^ 32))]) (fun _ => still (emit_long_kv key (to_be_bytes (fst t mod 2 ^ 32)) s)))) s) = Ok s' ->
  Forall (fun t => fst t < 2 ^ 24) l.
Proof.
  revert s. induction l as [|t l IH]; intros s H; constructor.
  - destruct (big (fst t)) eqn:B; [|now apply big_false]. cbn [each_noted] in H. rewrite and_snd, and_snd in H. cbn [still snd] in H. rewrite (put_int_big _ B) in H. discriminate.
  - cbn [each_noted] in H. rewrite and_snd in H. destruct (snd (and_note _ _)) as [a| |] in H; try discriminate. eapply IH. exact H.
Qed.
Lemma keeps_ok {A B} (a : A) (k : A -> noted B) m : keeps (k a) m -> keeps (and_note (still (Ok a)) k) m.
Proof. intros H. unfold and_note. cbn [still fst snd app]. destruct (k a). exact H. Qed.
Lemma wide_keeps d s : 128 <= d -> keeps (and_note (push_noted d s) pop_noted) [NDirectory 0x28 (number d)].
Proof.
  intros H. eapply keeps_as; [eapply keeps_and; [apply push_keeps|intros ? _; apply pop_keeps]|]. rewrite app_nil_r. now rewrite (proj2 (N.ltb_ge d 128) H).
Qed.
Lemma subdir_keeps i s : i < 2 ^ 24 -> keeps (and_note (still (add_128_u32 i)) (fun d => and_note (push_noted d s) (fun s => pop_noted s))) [NDirectory 0x28 (number (128 + i))].
Proof.
  intros H. change (2 ^ 24) with 16777216 in H. unfold add_128_u32. rewrite N.mod_small by lia. replace (128 + i <? 2 ^ 32) with true by lia. apply keeps_ok. apply wide_keeps. lia.
Qed.
Lemma table_keeps f s : keeps (table_metadata_noted f s) (table_lines f).
Proof.
  unfold table_metadata_noted. eapply keeps_as.
  - do 4 two. eapply keeps_and; [apply each_keeps with (m := fun _ => []); intros; apply keeps_still|intros ? _]. do 2 two.
    eapply keeps_and; [apply each_keeps with (m := fun t => [NTable (be4 (fst t))])|].
    { intros t s0 _. destruct (big (fst t)) eqn:B; [apply keeps_panic; unfold and_note; cbn [still snd fst]; now rewrite (put_int_big _ B)|].
      apply big_false in B. rewrite to_be_small by auto. eapply keeps_as; [do 2 one; apply keeps_still|reflexivity]. }
    intros s1 Hs. apply each_ids in Hs. two. eapply keeps_and; [apply keeps_still|intros n Hn]. cbn [still snd] in Hn.
    assert (Q : lenN n = 4). { destruct (big (lenN (f_tables f))) eqn:B; [rewrite (put_int_big _ B) in Hn; discriminate|]. rewrite put_int_be in Hn by now apply big_false. now inversion Hn. }
    eapply keeps_and; [apply (keeps_as _ (event_line (Put 4 n)) []); [|cbn [event_line]; rewrite Q; reflexivity]; apply kv_keeps; change (forced 4) with false; change (4 =? 16) with false; change (4 =? 216) with false; cbn iota; unfold calc_small_kv_ins; rewrite Q; reflexivity|intros ? _].
    rewrite hello_bytes. do 4 two.
    eapply keeps_and; [apply each_keeps with (m := fun t => [NDirectory 0x28 (number (128 + fst t))])|].
    { intros t s0 I. rewrite Forall_forall in Hs. apply subdir_keeps. exact (Hs t I). }
    intros ? _. do 2 two. apply pop_keeps.
  - unfold table_lines. rewrite flat_none, !flat_one. cbn [flat_map event_line app]. rewrite ?app_nil_r. reflexivity.
Qed.

Lemma relation_keeps f s : keeps (relationship_data_noted f s) (flat_map event_line (relation_events f)).
Proof.
  unfold relationship_data_noted. eapply keeps_as.
  - do 4 two. eapply keeps_and; [apply each_keeps with (m := fun _ => []); intros; apply keeps_still|intros ? _]. do 2 two.
    eapply keeps_and; [apply each_keeps with (m := fun _ => []); intros; eapply keeps_as; [one; apply keeps_still|reflexivity]|intros ? _]. do 5 two. apply pop_keeps.
  - rewrite !flat_none. unfold relation_events. rewrite !flat_map_app, !flat_map_concat_map, !map_map. cbn [event_line].
    assert (Z : forall l : list (N * occurrence), concat (map (fun _ => @nil note) l) = []) by (intros l; rewrite <- flat_map_concat_map; apply flat_none). rewrite !Z. reflexivity.
Qed.
Lemma empty_keeps d s : keeps (empty_noted d s) (flat_map event_line [Enter d; Leave]).
Proof. unfold empty_noted. eapply keeps_as; [two; apply pop_keeps|reflexivity]. Qed.
Lemma layout_keeps f s : keeps (layout_data_noted f s) (flat_map event_line [Enter 4; Enter 1; Put 0 [1; lenN (f_layouts f) mod 256]; Enter 5; Leave; Leave; Leave]).
Proof. unfold layout_data_noted. eapply keeps_as; [repeat two; apply pop_keeps|reflexivity]. Qed.
Lemma script_keeps f s : keeps (script_data_noted f s) (flat_map event_line [Enter 17; Enter 1; Put 0 [1; lenN (f_scripts f) mod 256]; Enter 1; Leave; Leave; Leave]).
Proof.
  unfold script_data_noted. eapply keeps_as.
  - do 4 two. eapply keeps_and; [apply each_keeps with (m := fun _ => []); intros; apply keeps_still|intros ? _]. do 2 two. apply pop_keeps.
  - rewrite flat_none. reflexivity.
Qed.
Lemma assemble_keeps f : keeps (assemble_noted f) (all_lines f).
Proof.
  unfold assemble_noted. eapply keeps_as.
  - do 7 one. eapply keeps_and; [apply blobs_keeps|intros ? _]. eapply keeps_and; [apply table_keeps|intros ? _]. eapply keeps_and; [apply relation_keeps|intros ? _].
    eapply keeps_and; [apply layout_keeps|intros ? _]. eapply keeps_and; [apply empty_keeps|intros ? _]. eapply keeps_and; [apply script_keeps|intros ? _].
    do 4 (eapply keeps_and; [apply empty_keeps|intros ? _]). do 5 one. apply keeps_still.
  - cbn [app]. rewrite app_nil_r. unfold all_lines. do 3 f_equal.
Qed.

(** C98: if a schema is assembled, the lines are exactly those of its records, in their order. *)
Theorem C98_lines : forall f l img, assemble_noted f = (l, Ok img) <-> fits f /\ img = image f /\ l = all_lines f.
Proof.
  intros f l img. pose proof (assemble_snd f) as S. destruct (assemble_keeps f) as [_ K]. split.
  - intros H. rewrite H in S, K. cbn [fst snd] in *. symmetry in S. apply assemble_inv in S as [F ->]. split; [exact F|]. split; [reflexivity|exact (K _ eq_refl)].
  - intros (F & -> & ->). rewrite (proj1 (assemble_image f) F) in S. specialize (K _ S). destruct (assemble_noted f). cbn [fst snd] in *. now subst.
Qed.
Print Assumptions C98_lines.
Example C98_lines_ex : fits demo_file /\ length (all_lines demo_file) = 35%nat /\ In (NTable [0; 0; 0; 1]) (all_lines demo_file) /\ In (NDirectory 0x28 [252; 1]) (all_lines demo_file).
Proof. split; [exact demo_fits|]. vm_compute. split; [reflexivity|]. split; repeat first [left; reflexivity|right]. Qed.

(** C98: if assembling breaks off, the lines are the first of these. *)
Theorem C98_begins : forall f, exists more, all_lines f = fst (assemble_noted f) ++ more.
Proof. intros f. apply assemble_keeps. Qed.
Print Assumptions C98_begins.
Definition wide_file : fmpfile := mkFile (lit "w") [(1, mkTable (lit "A") [] [] [] false); (16777216, mkTable (lit "B") [] [] [] false); (3, mkTable (lit "C") [] [] [] false)] [] [] [] [] [] [] [].
Example C98_begins_ex : snd (assemble_noted wide_file) = Panic /\ length (fst (assemble_noted wide_file)) = 12%nat /\ last (fst (assemble_noted wide_file)) (NKey []) = NTable [0; 0; 0; 1].
Proof. vm_compute. repeat split; reflexivity. Qed.

(** C98: how far the assembler comes: it breaks off at the first thing that cannot be done, and the lines are those printed before it. *)
Theorem C98_breaks : forall f l, assemble_noted f = (l, Panic) <-> breaks_off 4075 (all_acts f) l.
Proof. exact assemble_breaks. Qed.
Print Assumptions C98_breaks.
Definition long_file : fmpfile := mkFile (lit "w") [(1, mkTable (lit "A") [] [] [] false)] [] [] [] [] [(1, mkOcc (repeat 97 (N.to_nat 2000)) 1 [] [] [])] [] [].
Example C98_breaks_ex : assemble_noted wide_file = (fst (assemble_noted wide_file), Panic) /\ breaks_off 4075 (all_acts wide_file) (fst (assemble_noted wide_file)) /\
  assemble_noted long_file = (fst (assemble_noted long_file), Panic) /\ breaks_off 4075 (all_acts long_file) (fst (assemble_noted long_file)) /\ length (fst (assemble_noted long_file)) = 20%nat.
Proof.
  assert (W : assemble_noted wide_file = (fst (assemble_noted wide_file), Panic)) by (vm_compute; reflexivity).
  assert (L : assemble_noted long_file = (fst (assemble_noted long_file), Panic)) by (vm_compute; reflexivity).
  split; [exact W|]. split; [now apply C98_breaks|]. split; [exact L|]. split; [now apply C98_breaks|]. vm_compute. reflexivity.
Qed.

(** C98: printing changes nothing. *)
Theorem C98_same : forall f, snd (assemble_noted f) = assemble f.
Proof. exact assemble_snd. Qed.
Print Assumptions C98_same.
Example C98_same_ex : snd (assemble_noted demo_file) = Ok (image demo_file).
Proof. rewrite assemble_snd. apply assemble_image. exact demo_fits. Qed.

(** C98: nothing but the numbers of the tables is shown of a schema: no name, layout, script or occurrence changes a line. *)
Theorem C98_only_numbers : forall f g, map fst (f_tables f) = map fst (f_tables g) -> all_lines f = all_lines g.
Proof.
  intros f g H. unfold all_lines. f_equal. f_equal; [|f_equal].
  - unfold table_lines. rewrite <- (map_map fst (fun i => NTable (be4 i))), <- (map_map fst (fun i => NDirectory 0x28 (number (128 + i)))), H, !map_map. reflexivity.
  - unfold relation_events. rewrite !flat_map_app, !flat_map_concat_map, !map_map. cbn [event_line].
    assert (Z : forall l : list (N * occurrence), concat (map (fun _ => @nil note) l) = []) by (intros l; rewrite <- flat_map_concat_map; apply flat_none). now rewrite !Z.
Qed.
Print Assumptions C98_only_numbers.
Definition demo_other : fmpfile :=
  mkFile (lit "other") [(1, mkTable (lit "Man") [] [] [] false); (2, mkTable [] [] [] [] false)] [] [] [] [(1, mkScript (lit "f") [] [] [] [])] [] [] [].
Example C98_only_numbers_ex : map fst (f_tables demo_file) = map fst (f_tables demo_other) /\ all_lines demo_file = all_lines demo_other.
Proof. split; [reflexivity|]. now apply C98_only_numbers. Qed.

(** C98: each table has its line with the number, in the order of the tables, and no other line is one of these. *)
Definition table_number (n : note) : list (list N) := match n with NTable b => [b] | _ => [] end.
Lemma no_number es : flat_map table_number (flat_map event_line es) = [].
Proof. induction es as [|[d| |k v|k v|k v|v] es IH]; cbn [flat_map event_line]; auto. rewrite flat_map_app, IH. destruct (_ || _); reflexivity. Qed.
Lemma dirs_number (l : list (N * table)) : flat_map table_number (map (fun t => NDirectory 0x28 (number (128 + fst t))) l) = [].
Proof. induction l; auto. Qed.
Lemma all_numbers (l : list (N * table)) : flat_map table_number (map (fun t => NTable (be4 (fst t))) l) = map (fun t => be4 (fst t)) l.
Proof. induction l as [|t l IH]; cbn; [|f_equal]; auto. Qed.
Theorem C98_tables : forall f l img, assemble_noted f = (l, Ok img) -> flat_map table_number l = map (fun t => be4 (fst t)) (f_tables f).
Proof.
  intros f l img H. apply C98_lines in H as (_ & _ & ->). unfold all_lines, table_lines. rewrite !flat_map_app, !no_number, dirs_number, all_numbers. cbn [app]. now rewrite !app_nil_r.
Qed.
Print Assumptions C98_tables.
Example C98_tables_ex : exists l img, assemble_noted demo_file = (l, Ok img) /\ flat_map table_number l = [[0; 0; 0; 1]; [0; 0; 0; 2]].
Proof. exists (all_lines demo_file), (image demo_file). split; [apply C98_lines; split; [exact demo_fits|auto]|]. vm_compute. reflexivity. Qed.

(** C98: not every record has a line: the line for the count of the tables is missing. *)
Theorem C98_every_value_refuted : exists f k v, In (Put k v) (schema_events f) /\ fits f /\ forall n, In n (all_lines f) -> forall i w, n <> NValue i k v w.
Proof.
  exists demo_file, 4, [0; 0; 0; 2]. split; [apply in_or_app; right; apply in_or_app; left; vm_compute; do 11 right; left; reflexivity|]. split; [exact demo_fits|].
  intros n I i w ->. vm_compute in I. repeat destruct I as [I|I]; try discriminate. contradiction.
Qed.
Print Assumptions C98_every_value_refuted.
