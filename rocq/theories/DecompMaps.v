(** The maps of a decompiled file. *)
From Coq Require Import Ascii String NArith List Bool Lia Arith Sorted.
From Verif Require Import Prelude PreludeFacts Utf8 EncodingModel CharConvModel ChunkModel InstrModel ComponentModel DecompModel DecompSpec DecompScriptSpec DecompScript DbGenSpec SchemaParse MainSpec.
Import ListNotations.
Local Open Scope N_scope.

Definition ens {A} (P : A -> Prop) (x : outcome A) : Prop := match x with Ok a => P a | _ => True end.
Lemma ens_bind {A B} (P : B -> Prop) (x : outcome A) (k : A -> outcome B) : (forall a, x = Ok a -> ens P (k a)) -> ens P (bind x k).
Proof. destruct x; cbn; auto. Qed.
Lemma ens_then {A B} (Q : A -> Prop) (P : B -> Prop) (x : outcome A) (k : A -> outcome B) : ens Q x -> (forall a, Q a -> ens P (k a)) -> ens P (bind x k).
Proof. destruct x; cbn; auto. Qed.

Lemma numbered_new {V} (m : list (N * V)) v : numbered m -> numbered (nset m (lenN m + 1) v).
Proof.
  intros [N1 H]. split; [now apply nodup_nset|]. intros k. assert (Q : nhas m (lenN m + 1) = false).
  { destruct (nhas m (lenN m + 1)) eqn:Q; auto. apply nhas_in in Q. apply H in Q. lia. }
  rewrite keys_nset, len_nset, Q, in_app_iff. cbn. rewrite H. lia.
Qed.
Lemma numbered_old {V} (m : list (N * V)) k v w : numbered m -> nget m k = Some w -> numbered (nset m k v).
Proof.
  intros [N1 H] G. split; [now apply nodup_nset|]. intros i. assert (Q : nhas m k = true) by (unfold nhas, mhas; unfold nget in G; now rewrite G).
  rewrite keys_nset, len_nset, Q. apply H.
Qed.
Definition dfine (s : dstate) : Prop := fine (d_file s).

Lemma fine_relationships f m : fine f -> numbered m -> fine (set_relationships f m).
Proof. intros (H1 & H2 & H3 & H4 & H5 & H6 & H7 & H8 & H9 & H10) H. unfold fine; cbn; auto 12. Qed.
Lemma fine_occurrences f m : fine f -> numbered m -> fine (set_occurrences f m).
Proof. intros (H1 & H2 & H3 & H4 & H5 & H6 & H7 & H8 & H9 & H10) H. unfold fine; cbn; auto 12. Qed.
Lemma fine_layouts f k v : fine f -> fine (set_layouts f (nset (f_layouts f) k v)).
Proof. intros (H1 & H2 & H3 & H4 & H5 & H6 & H7 & H8 & H9 & H10). pose proof (nodup_nset (f_layouts f) k v H7). unfold fine; cbn; auto 12. Qed.
Lemma fine_scripts f k v : fine f -> fine (set_scripts f (nset (f_scripts f) k v)).
Proof. intros (H1 & H2 & H3 & H4 & H5 & H6 & H7 & H8 & H9 & H10). pose proof (nodup_nset (f_scripts f) k v H8). unfold fine; cbn; auto 12. Qed.
Lemma fine_sources f k v : fine f -> fine (set_sources f (nset (f_sources f) k v)).
Proof. intros (H1 & H2 & H3 & H4 & H5 & H6 & H7 & H8 & H9 & H10). pose proof (nodup_nset (f_sources f) k v H10). unfold fine; cbn; auto 12. Qed.
Lemma fields_nset (m : list (N * table)) k v : Forall (fun e => sorted_fields (snd e)) m -> sorted_fields v -> Forall (fun e => sorted_fields (snd e)) (nset m k v).
Proof.
  intros H Hv. unfold nset. induction H as [|[a b] m H F IH]; cbn [mset]; [repeat constructor; auto|]. destruct (a =? k); constructor; auto.
Qed.
Lemma fine_tables f m : fine f -> NoDup (keys m) -> Forall (fun e => sorted_fields (snd e)) m -> fine (set_tables f m).
Proof. intros (H1 & H2 & H3 & H4 & H5 & H6 & H7 & H8 & H9 & H10) A B. unfold fine; cbn; auto 12. Qed.
Lemma fine_table f k v : fine f -> sorted_fields v -> fine (set_tables f (nset (f_tables f) k v)).
Proof.
  intros H Hv. pose proof H as (H1 & H2 & H3 & H4 & H5 & H6 & H7 & H8 & H9 & H10). apply fine_tables; auto; [now apply nodup_nset|now apply fields_nset].
Qed.
Lemma get_sorted (m : list (N * table)) k t : Forall (fun e => sorted_fields (snd e)) m -> nget m k = Some t -> sorted_fields t.
Proof.
  unfold nget. induction 1 as [|[a b] m H F IH]; cbn [mget]; [discriminate|]. destruct (a =? k); auto. intros Q. now inversion Q; subst.
Qed.
Lemma unwrap_ok {A} (o : option A) a : unwrap o = Ok a -> o = Some a.
Proof. destruct o; cbn; congruence. Qed.
Lemma fine_mod_field f t y g : fine f -> ens fine (mod_field f t y g).
Proof.
  intros H. unfold mod_field. apply ens_bind. intros tb Q. apply unwrap_ok in Q. apply ens_bind. intros fl _. cbn [ens]. apply fine_table; auto.
  apply bset_increasing. destruct H as (_ & _ & _ & _ & H & _). apply (get_sorted _ _ _ H Q).
Qed.
Lemma fine_mod_steps s sid g : dfine s -> ens dfine (mod_steps s sid g).
Proof. intros H. unfold mod_steps. apply ens_bind. intros sc _. apply ens_bind. intros l _. cbn [ens]. unfold dfine. cbn [d_file with_file]. now apply fine_scripts. Qed.
Lemma fine_steps_loop l : forall m sid ins s, dfine s -> ens dfine (steps_loop l m sid ins s).
Proof.
  induction l as [|i l IH]; intros m sid ins s H; [exact H|]. cbn [steps_loop]. destruct (m <=? lenN i); auto. apply ens_bind. intros [st|] _; auto.
  eapply ens_then; [apply fine_mod_steps; auto|]. auto.
Qed.
Ltac ds := match goal with |- ens _ (match ?x with _ => _ end) => let Q := fresh "Q" in destruct x eqn:Q end.
Lemma fine_dispatch path ch s : dfine s -> ens dfine (dispatch path ch s).
Proof.
  intros H. assert (K : ens dfine (Ok s)) by exact H.
  assert (R1 : numbered (f_relationships (d_file s))) by apply H. assert (O1 : numbered (f_occurrences (d_file s))) by apply H.
  assert (T1 : Forall (fun e => sorted_fields (snd e)) (f_tables (d_file s))) by apply H. assert (T2 : NoDup (keys (f_tables (d_file s)))) by apply H.
  assert (A1 : ens dfine (arm_relation ch s)).
  { unfold arm_relation. ds; auto. cbv zeta. apply ens_bind. intros d _. apply ens_bind. intros b _. ds; auto. cbn [ens]. apply fine_relationships; auto. now apply numbered_new. }
  assert (A2 : ens dfine (arm_occurrence ch s)).
  { unfold arm_occurrence. cbv zeta. repeat (ds; auto).
    - apply ens_bind. intros o Qo. apply unwrap_ok in Qo. apply (fine_occurrences (d_file s)); auto. eapply numbered_old; eauto.
    - apply ens_bind. intros d _. apply ens_bind. intros t _. apply ens_bind. intros ? _. apply (fine_occurrences (d_file s)); auto. now apply numbered_new. }
  assert (A3 : forall x, ens dfine (arm_relation_fields x ch s)).
  { intros x. unfold arm_relation_fields. cbv zeta. repeat (ds; auto). do 6 (apply ens_bind; intros ? _). ds; auto. cbn [ens]. apply fine_relationships; auto. eapply numbered_old; eauto. }
  assert (A4 : forall x, ens dfine (arm_layout x ch s)).
  { intros x. unfold arm_layout. cbv zeta. ds; [now apply fine_layouts|]. repeat (ds; auto); repeat (apply ens_bind; intros ? _); now apply fine_layouts. }
  assert (A5 : forall x y, ens dfine (arm_field x y ch s)).
  { intros x y. unfold arm_field. ds; auto. cbv zeta. ds.
    - apply ens_bind. intros tb Qt. apply unwrap_ok in Qt. cbn [ens]. unfold dfine. cbn [d_file with_file].
      assert (S0 : sorted_fields table_new) by constructor.
      assert (G : NoDup (keys (if nhas (f_tables (d_file s)) (x - 128) then f_tables (d_file s) else nset (f_tables (d_file s)) (x - 128) table_new)) /\
        Forall (fun e => sorted_fields (snd e)) (if nhas (f_tables (d_file s)) (x - 128) then f_tables (d_file s) else nset (f_tables (d_file s)) (x - 128) table_new)).
      { destruct (nhas _ _); auto. split; [now apply nodup_nset|now apply fields_nset]. }
      destruct G as [G1 G2]. apply fine_tables; auto; [now apply nodup_nset|]. apply fields_nset; auto. apply bset_increasing. apply (get_sorted _ _ _ G2 Qt).
    - generalize (match cref ch with Some k => k | None => 0 end). intros k.
      repeat (ds; auto); (eapply ens_then; [apply fine_mod_field; exact H|]; intros f Hf; exact Hf). }
  assert (A6 : forall x, ens dfine (arm_table x ch s)).
  { intros x. unfold arm_table. cbv zeta. ds.
    - ds; auto. apply ens_bind. intros t _. cbn [ens]. apply fine_table; auto. constructor.
    - generalize (match cref ch with Some k => k | None => 0 end). intros k. repeat (ds; auto). apply ens_bind. intros t _. apply ens_bind. intros tb Qt. apply unwrap_ok in Qt. cbn [ens].
      apply fine_table; auto. apply (get_sorted _ _ _ T1 Qt). }
  assert (A7 : forall x, ens dfine (arm_segment x ch s)).
  { intros x. unfold arm_segment. repeat (ds; auto). do 3 (apply ens_bind; intros ? _). exact H. }
  assert (A8 : forall x y, ens dfine (arm_step_value x y ch s)).
  { intros x y. unfold arm_step_value. cbv zeta. generalize (match cref ch with Some k => k | None => 0 end). intros k. repeat (ds; auto). now apply fine_mod_steps. }
  assert (A9 : forall x y, ens dfine (arm_step_name x y ch s)).
  { intros x y. unfold arm_step_name. cbv zeta. generalize (match cref ch with Some k => k | None => 0 end). intros k. repeat (ds; auto). now apply fine_mod_steps. }
  assert (A10 : forall x y, ens dfine (arm_step_calc x y ch s)).
  { intros x y. unfold arm_step_calc. apply (ens_then dfine).
    - generalize (match cref ch with Some k => k | None => 0 end). intros k. repeat (ds; auto). do 2 (apply ens_bind; intros ? _). now apply fine_mod_steps.
    - intros s' H'. apply ens_bind. intros ? _. exact H'. }
  assert (A11 : forall x, ens dfine (arm_script x ch s)).
  { intros x. unfold arm_script. ds; auto; (ds; [apply ens_bind; intros d _; now apply fine_steps_loop|]); repeat (ds; auto); apply ens_bind; intros d _; now apply fine_steps_loop. }
  assert (A12 : forall y, ens dfine (arm_script_name y ch s)).
  { intros y. unfold arm_script_name. repeat (cbv zeta; ds; auto); try (apply ens_bind; intros d _); now apply (fine_scripts (d_file s)). }
  assert (A13 : ens dfine (arm_source_name ch s)).
  { unfold arm_source_name. ds; auto. do 2 (apply ens_bind; intros ? _). exact H. }
  assert (A14 : forall x, ens dfine (arm_source x ch s)).
  { intros x. unfold arm_source. cbv zeta. ds; auto.
    - apply ens_bind. intros k _. repeat (ds; auto). apply ens_bind. intros d _. ds; [apply ens_bind; intros loc _|]; (ds; auto); now apply (fine_sources (d_file s)).
    - apply ens_bind. intros d _. ds; auto. cbn [ens]. now apply (fine_sources (d_file s)). }
  set (d := dispatch path ch s). assert (D : dispatch path ch s = d) by reflexivity. clearbody d.
  unfold dispatch in D.
  repeat match type of D with
         | match ?x with _ => _ end = _ => destruct x
         | _ = _ => now rewrite <- D
         end.
Qed.
Lemma fine_chunk_loop fuel : forall buffer offset bound start path s, dfine s -> ens dfine (chunk_loop fuel buffer offset bound start path s).
Proof.
  induction fuel as [|fuel IH]; intros buffer offset bound start path s H; [exact I|]. cbn [chunk_loop]. destruct (offset <? bound); [|exact H]. apply ens_bind. intros [[[ch o'] p']|e] _; [|exact I].
  eapply ens_then; [apply fine_dispatch; auto|]. intros s' H'. now apply IH.
Qed.
Lemma fine_sector_loop fuel : forall buffer n idx s, dfine s -> ens dfine (sector_loop fuel buffer n idx s).
Proof.
  induction fuel as [|fuel IH]; intros buffer n idx s H; [exact I|]. cbn [sector_loop]. destruct (idx =? 0); [exact H|]. cbv zeta. apply ens_bind. intros rest _. apply ens_bind. intros sec _.
  destruct (idx <? n); [|exact I]. eapply ens_then; [apply fine_chunk_loop; auto|]. intros s' H'. now apply IH.
Qed.
Lemma fine_build l : forall s, dfine s -> ens dfine (build_scripts l s).
Proof.
  induction l as [|[sid segs] l IH]; intros s H; [exact H|]. cbn [build_scripts]. apply (ens_then dfine); [|intros s' H'; now apply IH]. unfold build_script. now apply fine_steps_loop.
Qed.
Theorem decompiled_fine order fuel buffer f : decompile order fuel buffer = Ok f -> fine f.
Proof.
  intros H. assert (G : ens fine (decompile order fuel buffer)); [|now rewrite H in G]. unfold decompile. apply ens_bind. intros rest _. apply ens_bind. intros first _.
  eapply (ens_then dfine).
  - apply fine_sector_loop. unfold dfine, fine, numbered. cbn. repeat split; try constructor; try contradiction; lia.
  - intros s Hs. eapply (ens_then dfine); [now apply fine_build|]. intros s' Hs'. exact Hs'.
Qed.
Lemma increasing_nodup l : increasing l -> NoDup l.
Proof.
  unfold increasing. induction 1 as [|a l H IH F]; constructor; auto. intros Hi. rewrite Forall_forall in F. specialize (F a Hi). lia.
Qed.
Lemma fine_keyed f : fine f -> keyed f /\ maps_ok f.
Proof.
  intros (H1 & H2 & H3 & H4 & H5 & (H6 & _) & H7 & H8 & (H9 & _) & H10). split.
  - unfold keyed. rewrite H2. repeat split; auto. constructor.
  - repeat split; auto. intros i t Hi. rewrite Forall_forall in H5. apply H5 in Hi. now apply increasing_nodup.
Qed.
