(** Proofs that compiled and decompiled files hold strings of characters. *)
From Coq Require Import Ascii String NArith List Bool Lia Permutation Sorted.
From Verif Require Import Prelude PreludeFacts Utf8 Utf8Facts EncodingModel EncodingProofs CharConvModel InstrModel ChunkModel ComponentModel CalcModel SchemaModel SchemaSpec JsonSpec Json PieceSpec Pieces
  MainModel MainSpec SessionSpec DecompCalcSpec DecompScriptSpec HistorySpec StepsSpec.
From Verif Require AbortSpec AbortProps Abort2 Abort4.
Import ListNotations.
Local Open Scope N_scope.

Lemma found_str code x : found_in code x -> is_str code -> is_str x.
Proof. intros (a & b & ->) H. apply Forall_app in H. destruct H as [_ H]. apply Forall_app in H. apply H. Qed.
Lemma nget_first {V} (m : list (N * V)) k v : NoDup (keys m) -> In (k, v) m -> nget m k = Some v.
Proof.
  unfold nget, keys. induction m as [| [k' v'] m IH]; [intros _ [] |]. cbn [map fst mget]. intros ND [H | H].
  - injection H as -> ->. rewrite N.eqb_refl. reflexivity.
  - apply NoDup_cons_iff in ND. destruct ND as [ND1 ND2]. destruct (N.eqb_spec k' k) as [-> | _]; [| auto].
    destruct ND1. apply (in_map fst _ (k, v)), H.
Qed.
Lemma each_value {V} (P : V -> Prop) (m : list (N * V)) : NoDup (keys m) -> (forall k v, nget m k = Some v -> P v) -> Forall (fun e => P (snd e)) m.
Proof. intros ND H. apply Forall_forall. intros [k v] He. apply (H k). apply nget_first; assumption. Qed.

(** ** Compiled *)
Lemma found_script code s : is_str code -> script_found code s -> unicode_script s.
Proof.
  intros U (H1 & H2 & H3 & H4 & H5). unfold unicode_script, str_all. rewrite H4, H5. split.
  - constructor; [eapply found_str; eassumption |]. constructor; [constructor |]. constructor; [constructor |]. apply Forall_forall. intros v Hv. eapply found_str; [apply H2; exact Hv | exact U].
  - apply Forall_forall. intros st Hs. apply Forall_forall. intros v Hv. eapply found_str; [eapply H3; eassumption | exact U].
Qed.
Lemma found_unicode E code f : is_str code -> (forall n, is_str (show64 E n)) -> file_found E code f ->
  NoDup (keys (f_tables f)) -> NoDup (keys (f_relationships f)) -> NoDup (keys (f_value_lists f)) -> NoDup (keys (f_scripts f)) -> NoDup (keys (f_occurrences f)) -> unicode_file f.
Proof.
  intros U SH [F1 F2 F3 F4 F5 F6 F7 F8 F9] N1 N2 N3 N4 N5. assert (S : forall x, found_in code x -> is_str x) by (intros x Hx; eapply found_str; eassumption).
  assert (S0 : is_str []) by constructor. unfold unicode_file, str_all. rewrite F1, F4, F8. split; [exact S0 |]. split; [| split; [| split; [constructor |]]].
  - apply (each_value (fun t => Forall is_str [tb_name t; tb_account t; tb_user t] /\ Forall (fun e => let x := snd e in Forall is_str [fl_data_type x; fl_description x; fl_name x; fl_type x; fl_account x; fl_user x]) (tb_fields t))); [exact N1 |].
    intros k t K. destruct (F2 k t K) as (G1 & G2 & G3 & G4). rewrite G2, G3, G4. split; [repeat constructor; auto | constructor].
  - apply (each_value (fun r => Forall is_str [rl_table1_name r; rl_table2_name r])); [exact N2 |]. intros k r K. destruct (F3 k r K) as (G1 & G2). constructor; [auto |]. constructor; [| constructor].
    destruct G2 as [G2 | (n & ->)]; auto.
  - split; [| split; [| split; [| split; [constructor |]]]].
    + apply (each_value (fun l => Forall is_str [vl_name l; vl_account l; vl_user l])); [exact N3 |]. intros k l K. destruct (F5 k l K) as (G1 & G2 & G3). rewrite G2, G3. repeat constructor; auto.
    + apply (each_value unicode_script); [exact N4 |]. intros k s K. eapply found_script; [exact U | eapply F6; exact K].
    + apply (each_value (fun o => Forall is_str [oc_name o; oc_table_name o; oc_account o; oc_user o])); [exact N5 |]. intros k o K. destruct (F7 k o K) as (G1 & G2 & G3 & G4). rewrite G3, G4.
      do 4 (constructor; [auto |]). constructor.
    + apply Forall_forall. intros t K. destruct (F9 t K) as (G1 & G2 & G3 & G4 & G5). rewrite G3, G4, G5. split; [| apply (found_script code); assumption]. constructor; [auto |]. constructor; [auto |]. constructor; [auto |]. constructor.
Qed.
Lemma text_unicode E code f : is_str code -> (forall n, is_str (show64 E n)) -> schema_text E code f -> unicode_file f.
Proof.
  intros U SH (ts & cs & R & P & H). eapply found_unicode; [exact U | exact SH | eapply schema_found; eassumption |..]; destruct H as (_ & _ & _ & (HT & _) & (HV & _) & (HS & _) & (HO & _) & (HR & _) & _); assumption.
Qed.

(** ** Collected *)
Lemma gathered_each {V} (P : V -> Prop) (part : fmpfile -> list (N * V)) fs g : gathered part fs g -> Forall (fun f => Forall (fun e => P (snd e)) (part f)) fs -> Forall (fun e => P (snd e)) (part g).
Proof.
  intros [ND G] F. apply each_value; [exact ND |]. intros k v K. apply G in K. destruct K as (before & f & after & -> & K & _). apply Forall_app in F. destruct F as [_ F].
  apply Forall_cons_iff in F. destruct F as [F _]. rewrite Forall_forall in F. apply mget_In in K; [| apply N.eqb_eq || apply N.eqb_spec]. apply (F (k, v) K).
Qed.
Lemma collected_unicode ts fs g : collected ts fs g -> is_str (f_name g) -> Forall unicode_file ts -> Forall unicode_file fs -> unicode_file g.
Proof.
  intros (G1 & G2 & G3 & G4 & G5 & G6 & GS & GT) N UT UF. unfold unicode_file. rewrite GS, GT. split; [exact N |].
  split; [apply (gathered_each (fun t => str_all [tb_name t; tb_account t; tb_user t] /\ Forall (fun e => let x := snd e in str_all [fl_data_type x; fl_description x; fl_name x; fl_type x; fl_account x; fl_user x]) (tb_fields t)) _ _ _ G1); eapply Forall_impl; [| exact UF]; intros f Hf; apply Hf |].
  split; [apply (gathered_each (fun r => str_all [rl_table1_name r; rl_table2_name r]) _ _ _ G2); eapply Forall_impl; [| exact UF]; intros f Hf; apply Hf |].
  split; [apply (gathered_each (fun l => str_all [ly_name l; ly_account l; ly_user l]) _ _ _ G3); eapply Forall_impl; [| exact UF]; intros f Hf; apply Hf |].
  split; [apply (gathered_each (fun l => str_all [vl_name l; vl_account l; vl_user l]) _ _ _ G4); eapply Forall_impl; [| exact UF]; intros f Hf; apply Hf |].
  split; [apply (gathered_each unicode_script _ _ _ G5); eapply Forall_impl; [| exact UF]; intros f Hf; apply Hf |].
  split; [apply (gathered_each (fun o => str_all [oc_name o; oc_table_name o; oc_account o; oc_user o]) _ _ _ G6); eapply Forall_impl; [| exact UF]; intros f Hf; apply Hf |].
  split; [constructor |]. apply Forall_app.
  assert (K : forall l, Forall unicode_file l -> Forall (fun t => str_all (te_name t :: te_account t :: te_user t :: te_assertions t) /\ unicode_script (te_script t)) (concat (map f_tests l))).
  { intros l. induction 1 as [| f l Hf _ IH]; [constructor |]. cbn [map concat]. apply Forall_app. split; [apply Hf | exact IH]. }
  split; apply K; assumption.
Qed.

(** ** Decompiled *)
Lemma decrypt_str bs : is_str (fm_string_decrypt bs).
Proof. destruct (decrypt_total bs) as [(s & S & _ & ->) | (_ & ->)]; [exact S | apply lit_str]. Qed.
Lemma text_of_str e : is_str (text_of e).
Proof. apply decrypt_str. Qed.
Lemma last_of_all {A} (P : A -> Prop) g h : (forall e v, g e = Some v -> P v) -> forall d, P d -> P (last_of g d h).
Proof. intros G. induction h as [| e h IH]; intros d D; [exact D |]. cbn [last_of]. apply IH. destruct (g e) as [v |] eqn:Ge; [eapply G; exact Ge | exact D]. Qed.
Lemma when_text b e v : when b (text_of e) = Some v -> is_str v.
Proof. unfold when. destruct b; [intros X; injection X as <-; apply text_of_str | discriminate]. Qed.
Lemma mapping_str h l : scalar (decode_char h l) = true.
Proof.
  unfold decode_char. destruct (find _ ENCODING_MAPPING) as [[[h' l'] c] |] eqn:F; [| reflexivity]. apply find_some in F. destruct F as [F _].
  assert (A : forallb (fun e => scalar (snd e)) ENCODING_MAPPING = true) by reflexivity. rewrite forallb_forall in A. apply (A _ F).
Qed.
Lemma pairs_str bs : is_str (decode_pairs bs).
Proof.
  assert (K : forall n bs, (length bs <= n)%nat -> is_str (decode_pairs bs)).
  { intros n. induction n as [| n IH]; intros [| b0 [| b1 r]] L; try constructor; cbn [length] in L; try lia; [apply mapping_str | apply IH; lia]. }
  apply (K (length bs)). lia.
Qed.
Lemma strip_str s : forall t, strip_nul s = Ok t -> is_str s -> is_str t.
Proof.
  induction s as [| c [| d s] IH]; intros t H U; [discriminate | |].
  - cbn [strip_nul] in H. destruct (c =? 0); [injection H as <-; constructor | discriminate].
  - change (strip_nul (c :: d :: s)) with (r <- strip_nul (d :: s) ;; Ok (c :: r)) in H. destruct (strip_nul (d :: s)) as [r | |]; cbn [bind] in H; try discriminate. injection H as <-.
    apply Forall_cons_iff in U. destruct U as [U1 U2]. constructor; [exact U1 | apply IH; [reflexivity | exact U2]].
Qed.
Lemma decoded_str d : is_str (decoded d).
Proof. unfold decoded. destruct d as [d |]; [| constructor]. destruct (decode_bytes d) as [t | |] eqn:D; try constructor. eapply strip_str; [exact D | apply pairs_str]. Qed.
Lemma location_str bs l : location_from_bytes bs = Ok l -> str_all [lo_type l; lo_path l; lo_filename l].
Proof.
  unfold location_from_bytes. intros H. repeat match type of H with bind ?x _ = Ok _ => destruct x; cbn [bind] in H; [cbv zeta in H | discriminate H | discriminate H] end.
  injection H as <-. repeat constructor; apply decrypt_str.
Qed.
Lemma table_str l : Forall (fun e => is_str (snd e)) l -> forall (b : N) t, In (b, t) l -> is_str t.
Proof. intros F b t H. rewrite Forall_forall in F. apply (F (b, t) H). Qed.
Lemma decimal_str n : n < 256 -> is_str (decimal n).
Proof.
  intros L. unfold decimal. assert (D : Forall (fun x => x < 10) [n / 100; (n / 10) mod 10; n mod 10]).
  { repeat constructor; [apply N.div_lt_upper_bound; lia | apply N.mod_lt; discriminate | apply N.mod_lt; discriminate]. }
  assert (K : forall l, Forall (fun x => x < 10) l -> Forall (fun x => x < 10) ((fix strip (l : list N) : list N := match l with 0 :: ((_ :: _) as l') => strip l' | _ => l end) l)).
  { induction 1 as [| x l Hx Hl IH]; [constructor |]. destruct x as [| p]; [| constructor; assumption]. destruct l as [| y l]; [repeat constructor; exact Hx | exact IH]. }
  apply K in D. cbv zeta. revert D. generalize ((fix strip (l : list N) : list N := match l with 0 :: ((_ :: _) as l') => strip l' | _ => l end) [n / 100; (n / 10) mod 10; n mod 10]).
  intros l D. unfold is_str. apply Forall_map. eapply Forall_impl; [| exact D]. intros x Hx. cbv beta in *. unfold scalar. replace (48 + x <? 0xD800) with true by (symmetry; apply N.ltb_lt; lia). reflexivity.
Qed.
Lemma calc_str d c : calc_says d c -> bytes d -> is_str c.
Proof.
  induction 1 as [| b t d c H _ IH | b d c _ _ IH | b t d c H _ IH | b d c _ _ IH | d c _ IH | b d c _ _ IH | before n after d c _ _ _ IH | raw d c _ IH | raw d c _ IH]; intros B.
  - constructor.
  - apply Forall_cons_iff in B. destruct B as [_ B]. apply is_str_app; [| auto]. eapply table_str; [| exact H]. unfold plain_tokens. repeat constructor.
  - apply Forall_cons_iff in B. destruct B as [_ B]. auto.
  - apply Forall_cons_iff in B. destruct B as [_ B]. apply Forall_cons_iff in B. destruct B as [_ B]. apply is_str_app; [| auto]. eapply table_str; [| exact H]. unfold get_args. repeat constructor.
  - apply Forall_cons_iff in B. destruct B as [_ B]. apply Forall_cons_iff in B. destruct B as [_ B]. auto.
  - apply Forall_cons_iff in B. destruct B as [_ B]. apply Forall_cons_iff in B. destruct B as [_ B]. apply is_str_app; [apply lit_str | auto].
  - apply Forall_cons_iff in B. destruct B as [_ B]. apply Forall_cons_iff in B. destruct B as [_ B]. auto.
  - apply Forall_cons_iff in B. destruct B as [_ B]. apply Forall_app in B. destruct B as [_ B]. apply Forall_cons_iff in B. destruct B as [B1 B]. apply Forall_app in B. destruct B as [_ B].
    apply is_str_app; [apply decimal_str; exact B1 | auto].
  - apply Forall_cons_iff in B. destruct B as [_ B]. apply Forall_cons_iff in B. destruct B as [_ B]. apply Forall_app in B. destruct B as [_ B].
    cbn [app]. apply is_str_cons; [lia |]. apply is_str_app; [apply decrypt_str |]. apply is_str_cons; [lia | auto].
  - apply Forall_cons_iff in B. destruct B as [_ B]. apply Forall_cons_iff in B. destruct B as [_ B]. apply Forall_app in B. destruct B as [_ B]. apply is_str_app; [apply decrypt_str | auto].
Qed.

Definition step_str (st : step) : Prop := str_all (switches st).
Definition names_str (names : N -> option (list N)) : Prop := forall k n, names k = Some n -> is_str n.
Lemma script_names_str h : names_str (fun j => script_name_of j h).
Proof.
  intros k n. unfold script_name_of. destruct (existsb (names_script k) h); [| discriminate]. intros X. injection X as <-. apply (last_of_all is_str); [intros e v; apply when_text | constructor].
Qed.
Lemma steps_in_str names m d sts : names_str names -> steps_in names m d sts -> Forall step_str sts.
Proof.
  intros NS (bs & os & _ & F & ->). induction F as [| b o bs' os R _ IH]; [constructor |]. destruct o as [st |]; cbn [present flat_map app]; [| exact IH].
  constructor; [| exact IH]. destruct R as (op & _ & _ & _ & R). unfold step_str. destruct (instr_eqb (opcode st) IPerformScript); [| rewrite R; constructor].
  destruct R as (k & n & _ & K & ->). constructor; [eapply NS; exact K | constructor].
Qed.
Lemma inserted_str sts l l' : inserted sts l l' -> Forall step_str sts -> Forall step_str l -> Forall step_str l'.
Proof.
  induction 1 as [l | st sts a b l _ _ IH]; intros F G; [exact G |]. apply Forall_cons_iff in F. destruct F as [F1 F2]. apply Forall_app in G. destruct G as [G1 G2]. apply IH; [exact F2 |].
  apply Forall_app. split; [exact G1 | constructor; assumption].
Qed.
Lemma given_str i adds l l' : given i adds l l' -> (forall op ts, adds op ts -> str_all ts) -> Forall step_str l -> Forall step_str l'.
Proof.
  intros (pre & st & post & ts & -> & _ & _ & A & ->) H F. apply Forall_app in F. destruct F as [F1 F2]. apply Forall_cons_iff in F2. destruct F2 as [F2 F3].
  apply Forall_app. split; [exact F1 |]. constructor; [| exact F3]. unfold step_str. cbn [switches]. apply Forall_app. split; [exact F2 | eapply H; exact A].
Qed.
Lemma adds_calc_str e ts : Abort2.of_bytes e -> adds_calc e ts -> str_all ts.
Proof. intros B (d & c & D & C & ->). constructor; [| constructor]. eapply calc_str; [exact C | apply B; exact D]. Qed.
Lemma contributes_str names k e l l' : names_str names -> Abort2.of_bytes e -> contributes names k e l l' -> Forall step_str l -> Forall step_str l'.
Proof.
  intros NS B C F. unfold contributes in C. destruct (step_here e) as [k' | k' i | k' i | k' i | k' |].
  - subst. exact F.
  - destruct ((k' =? k) && has_key 5 e); [| subst; exact F]. eapply given_str; [exact C | | exact F]. intros op ts. unfold adds_value.
    destruct (instr_eqb op ISetVariable); [intros ->; repeat constructor; apply text_of_str |]. destruct (instr_eqb op IExitScript); [apply adds_calc_str; exact B | intros ->; constructor].
  - destruct ((k' =? k) && has_key 1 e); [| subst; exact F]. eapply given_str; [exact C | | exact F]. intros op ts ->. destruct (instr_eqb op ISetVariable); repeat constructor. apply text_of_str.
  - destruct ((k' =? k) && has_key 5 e); [| subst; exact F]. eapply given_str; [exact C | | exact F]. intros op ts. apply adds_calc_str; exact B.
  - destruct ((k' =? k) && negb (moves_path e) && (segment_4 e || has_key 4 e)); [| subst; exact F]. destruct C as (d & sts & _ & S & C). apply steps_in_str in S; [| exact NS].
    destruct (segment_4 e); [eapply inserted_str; eassumption | subst; apply Forall_app; auto].
  - subst. exact F.
Qed.
Lemma in_place_str k h l : in_place k h l -> Forall Abort2.of_bytes h -> Forall step_str l.
Proof.
  induction 1 as [| h e l l' _ IH C]; intros B; [constructor |]. apply Forall_app in B. destruct B as [B1 B2]. apply Forall_cons_iff in B2. destruct B2 as [B2 _].
  eapply contributes_str; [apply script_names_str | exact B2 | exact C | auto].
Qed.
Lemma steps_of_str k h l : steps_of k h l -> Forall Abort2.of_bytes h -> Forall step_str l.
Proof. intros (l1 & d & l2 & P & _ & S & ->) B. apply Forall_app. split; [eapply in_place_str; eassumption | eapply steps_in_str; [apply script_names_str | exact S]]. Qed.

Lemma name_back_str t r : is_str (AbortSpec.name_back t r).
Proof.
  induction r as [| e r IH]; [constructor |]. cbn [AbortSpec.name_back]. destruct (AbortSpec.restarts t r e); [constructor |].
  destruct (negb (enters e) && table_here t e && has_key 16 e); [apply text_of_str | exact IH].
Qed.
Definition field_str (x : field) : Prop := str_all [fl_data_type x; fl_description x; fl_name x; fl_type x; fl_account x; fl_user x].
Lemma field_back_str t y r f : AbortSpec.field_back t y r = Some f -> field_str f.
Proof.
  revert f. induction r as [| e r IH]; intros f H; [discriminate |]. cbn [AbortSpec.field_back] in H. destruct (AbortSpec.restarts t r e); [discriminate |].
  destruct (enters e && field_here t y e); [injection H as <-; repeat constructor |]. destruct (AbortSpec.field_back t y r) as [g |]; [| discriminate]. cbn [option_map] in H. injection H as <-.
  specialize (IH g eq_refl). unfold field_str, str_all in *. do 6 (apply Forall_cons_iff in IH; destruct IH as [? IH]). unfold AbortSpec.field_told. cbv zeta. cbn [fl_data_type fl_description fl_name fl_type fl_account fl_user].
  constructor; [constructor |]. repeat constructor; match goal with |- is_str (if ?b then _ else _) => destruct b; [apply text_of_str | assumption] end.
Qed.
Lemma sources_str h : forall w, Forall is_str w -> Forall (fun x => is_str (fst (snd x))) (sources w h).
Proof.
  induction h as [| e h IH]; intros w W; [constructor |]. cbn [sources]. destruct (named_source e) as [t |] eqn:NE.
  - apply IH. apply Forall_app. split; [exact W |]. constructor; [| constructor]. unfold named_source in NE. destruct (at_place e); try discriminate. destruct (simple e); [injection NE as <-; apply decoded_str | discriminate].
  - destruct (enters_source e) as [k |]; [| apply IH; exact W]. destruct w as [| t rest]; [apply IH; exact W |]. apply Forall_cons_iff in W. destruct W as [W1 W2]. constructor; [exact W1 | apply IH; exact W2].
Qed.

Lemma stored_unicode buf f : bytes buf -> stored_file buf f -> unicode_file f.
Proof.
  intros HB ((L & _) & (F1 & F2 & F3 & F4 & FF & F5 & F6 & F7 & F8 & F9) & h & R & [R1 _ _ R4 R5 R6 R7] & RT & RS).
  assert (B : Forall Abort2.of_bytes h).
  { eapply Abort4.history_bytes; [exact HB | | apply AbortProps.C85_records; [exact HB | | exact R]]; lia. }
  assert (S0 : is_str []) by constructor. unfold unicode_file. rewrite F1, F2, F3. split; [exact S0 |].
  split; [| split; [| split; [| split; [constructor | split; [| split; [| split; [| constructor]]]]]]].
  - rewrite Forall_forall in FF. apply Forall_forall. intros [k t] He. specialize (FF _ He). cbn [snd] in FF |- *. apply nget_first in He; [| exact F4]. specialize (RT k). rewrite He in RT.
    destruct RT as (_ & T1 & T2 & T3 & T4 & _). rewrite T1, T3, T4. split; [constructor; [apply name_back_str | repeat constructor] |].
    apply (each_value field_str); [| intros y x Y; rewrite T2 in Y; eapply field_back_str; exact Y].
    revert FF. unfold sorted_fields, increasing. generalize (keys (tb_fields t)). intros l SL. induction SL as [| a l _ IH A]; constructor; [| exact IH]. rewrite Forall_forall in A. intros X. apply A in X. lia.
  - destruct F5 as [F5 _]. apply (each_value (fun r => str_all [rl_table1_name r; rl_table2_name r])); [exact F5 |]. intros k r K. rewrite R5 in K. unfold relation_of in K. destruct (k =? 0); [discriminate |].
    destruct (nth_error (joins 0 [] h) (N.to_nat (k - 1))) as [x |]; [| discriminate]. injection K as <-. repeat constructor.
  - apply (each_value (fun l => str_all [ly_name l; ly_account l; ly_user l])); [exact F6 |]. intros k l K. rewrite R1 in K. unfold layout_of in K. destruct (after_last _ h) as [r |]; [| discriminate]. injection K as <-.
    cbn [ly_name ly_account ly_user]. repeat constructor. apply (last_of_all is_str); [intros e v; apply when_text | exact S0].
  - apply (each_value unicode_script); [exact F7 |]. intros k s K. destruct (RS k s K) as (S1 & S2 & S3 & S4). specialize (R6 k). rewrite K in R6. cbn [option_map] in R6. symmetry in R6. apply script_names_str in R6.
    unfold unicode_script. rewrite S2, S3, S4. split; [repeat constructor; exact R6 | eapply steps_of_str; eassumption].
  - destruct F8 as [F8 _]. apply (each_value (fun o => str_all [oc_name o; oc_table_name o; oc_account o; oc_user o])); [exact F8 |]. intros k o K. rewrite R4 in K. unfold occurrence_of in K. destruct (k =? 0); [discriminate |].
    destruct (nth_error _ _) as [x |]; [| discriminate]. injection K as <-. cbn [occurrence_read oc_name oc_table_name oc_account oc_user]. constructor; [| repeat constructor]. apply (last_of_all is_str); [intros e v; apply when_text | exact S0].
  - apply (each_value (fun s => str_all [ds_name s; lo_type (ds_location s); lo_path (ds_location s); lo_filename (ds_location s); ds_account s; ds_user s])); [exact F9 |]. intros k s K. rewrite R7 in K. unfold source_of in K.
    destruct (find _ _) as [x |] eqn:FD; [| discriminate]. injection K as <-. apply find_some in FD. destruct FD as [FD _]. apply in_rev in FD.
    assert (SS := sources_str h [] ltac:(constructor)). rewrite Forall_forall in SS. specialize (SS _ FD). cbn [source_read ds_name ds_location ds_account ds_user].
    assert (SL : str_all [lo_type (last_of (source_place k) (mkLocation [] [] []) (snd (snd x))); lo_path (last_of (source_place k) (mkLocation [] [] []) (snd (snd x))); lo_filename (last_of (source_place k) (mkLocation [] [] []) (snd (snd x)))]).
    { apply (last_of_all (fun l => str_all [lo_type l; lo_path l; lo_filename l])); [| repeat constructor]. intros e v. unfold source_place. destruct (source_here k e && keyed e && has_key 130 e && (ccode (snd e) =? 6)); [| discriminate].
      destruct (cdata (snd e)) as [d |]; [| discriminate]. destruct (location_from_bytes d) as [l | |] eqn:LO; try discriminate. intros X. injection X as <-. eapply location_str; exact LO. }
    unfold str_all in SL. do 3 (apply Forall_cons_iff in SL; destruct SL as [? SL]). do 5 (constructor; [assumption |]). constructor; [| constructor].
    apply (last_of_all is_str); [intros e v; apply when_text | exact S0].
Qed.
