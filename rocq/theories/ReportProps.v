(** C99: what is printed while a file is decompiled. *)
From Coq Require Import Ascii String NArith List Bool Lia Permutation.
From Verif Require Import Prelude PreludeFacts Utf8 EncodingModel CharConvModel ChunkModel InstrModel ComponentModel AsmSpec DecompModel DecompSpec DecompCalcSpec
  DecompScriptSpec DecompChain DecompStream DecompRecoverSpec DecompRecover4 DecompProps DecompRecoverProps HistorySpec History History2 History3 HistoryProps
  AsmModel HeaderModel AsmLemmas AsmMain AsmProofs AsmRound AsmProps DecompImage StepsSpec Steps Steps2 Steps3 StepsProps AbortSpec Abort Abort2 Abort3 Abort4 AbortProps ReportModel ReportSpec Report Report2.
Import ListNotations.
Local Open Scope N_scope.

(** Two occurrences, a script with a step, two calculations of it; then records without a meaning up to the end of the sector. *)
Definition demo_lines : list AsmSpec.event :=
  within [3; 17; 5; 0] [Put 2 [0; 0; 9; 0; 0; 0; 130]; text_ev 16 (lit "T"); Put 2 [0; 0; 8; 0; 0; 0; 131]] ++ within [17; 1; 1] [Enter 1; text_ev 16 (lit "A"); Leave] ++
  within [17; 5; 1] [Put 4 (piece 1 0 141)] ++ within [17; 5; 1; 5; 1; 129; 5] [Put 5 [0xfb; 3; 0xfb; 7; 0x13; 1; 0x3b; 0xfb; 8]; Put 5 [0x9c; 0xfb; 4]] ++
  repeat (Item (repeat 0 250)) 15.
Definition demo_lines_file : fmpfile :=
  mkFile [] [] [] [] [] [(1, mkScript (lit "A") [] [] [] [mkStep ISetVariable 1 [lit "Char""a"""; lit "("]])] [(1, mkOcc (lit "T") 130 [] [] []); (2, mkOcc [] 131 [] [] [])] [] [].
Lemma demo_lines_runs : decompile_reported (fun l => l) (N.to_nat 500) (file_of [demo_lines]) = ([RByte 9; RByte 8; RFunction; RFunction], Ok demo_lines_file).
Proof. vm_compute. reflexivity. Qed.
Lemma demo_lines_bytes : bytes (file_of [demo_lines]).
Proof. by_bytes. Qed.
(** Code 0x34 is not one of the codes of C12; it comes after an occurrence. *)
Definition demo_unknown : list N :=
  zeros 4096 ++ AsmSpec.sector 2 [] ++ firstn 20 (AsmSpec.sector 0 []) ++ [0x20; 3; 0x20; 17; 0x20; 5; 0x20; 0; 6; 2; 7; 0; 0; 9; 0; 0; 0; 130; 0xF4] ++ zeros 4057.
Lemma demo_unknown_runs : decompile_reported (fun l => l) (N.to_nat 500) demo_unknown = ([RByte 9; RCode (4096 / 38) (2 * 4096) 0x34], Panic).
Proof. vm_compute. reflexivity. Qed.
Lemma demo_unknown_bytes : bytes demo_unknown.
Proof. by_bytes. Qed.

(** C99: with the lines, the result is the same. *)
Theorem C99_same : forall order fuel buf, snd (decompile_reported order fuel buf) = decompile order fuel buf.
Proof. exact decompile_snd. Qed.
Print Assumptions C99_same.
Example C99_same_ex : decompile (fun l => l) (N.to_nat 500) (file_of [demo_lines]) = Ok demo_lines_file.
Proof. rewrite <- C99_same, demo_lines_runs. reflexivity. Qed.

(** C99: the lines of a file that can be decompiled are those its records say, which are determined. *)
Theorem C99_lines : forall order fuel buf l f, bytes buf -> decompile_reported order fuel buf = (l, Ok f) ->
  exists h, file_history buf 2 h /\ told h l /\ (forall h', file_history buf 2 h' -> h' = h) /\ (forall l', told h l' -> l' = l).
Proof.
  intros order fuel buf l f HB H. destruct (decompile_begins _ _ _ _ _ HB H) as (h & l1 & m & w & _ & -> & T & _ & _ & _ & K).
  destruct (K f eq_refl) as [-> F]. rewrite app_nil_r in *. exists h. split; [exact F|]. split; [exact T|]. split; [intros h' F'; exact (history_det _ _ _ F' _ F)|intros l' T'; exact (told_det _ _ T' _ T)].
Qed.
Print Assumptions C99_lines.
(** A calculation with a known function, an unknown one, a text and another unknown one; a parameter of Get that looks like a function. *)
Example C99_lines_ex : bytes (file_of [demo_lines]) /\ (exists f, decompile_reported (fun l => l) (N.to_nat 500) (file_of [demo_lines]) = ([RByte 9; RByte 8; RFunction; RFunction], Ok f)) /\
  calc_tells [0xfb; 3; 0xfb; 7; 0x13; 1; 0x3b; 0xfb; 8] [RFunction; RFunction] /\ calc_tells [0x9c; 0xfb; 4] [].
Proof.
  split; [exact demo_lines_bytes|]. split; [eexists; exact demo_lines_runs|]. split.
  - exists [[0xfb; 3]; [0xfb; 7]; [0x13; 1; 0x3b]; [0xfb; 8]]. split; [|reflexivity].
    apply CdTwo; [cbn; tauto|]. apply CdTwo; [cbn; tauto|]. apply (CdText 0x13 [0x3b]); [cbn; tauto|]. apply CdTwo; [cbn; tauto|]. constructor.
  - exists [[0x9c; 0xfb]; [4]]. split; [|reflexivity]. apply CdTwo; [cbn; tauto|]. apply CdOne; [cbn; intuition discriminate|]. constructor.
Qed.

(** C99: however decompiling ends, the lines are those of the first records of the file, and then those of the record in which it broke off; a record
    with an unknown code always leaves a line. *)
Theorem C99_begins : forall order fuel buf l o, bytes buf -> decompile_reported order fuel buf = (l, o) ->
  exists h l1 m w, first_records buf 2 h w /\ l = l1 ++ m /\ told h l1 /\ last_words buf w m /\
    (o = Panic -> forall start off path, w = Some (start, off, path) -> get_chunk buf off path start = Ok (RErr tt) -> m <> []) /\
    (forall f, o = Ok f -> m = [] /\ file_history buf 2 h).
Proof.
  intros order fuel buf l o HB H. destruct (decompile_begins _ _ _ _ _ HB H) as (h & l1 & m & w & A & B & C & D & E & _ & F). now exists h, l1, m, w.
Qed.
Print Assumptions C99_begins.
Example C99_begins_ex : bytes demo_unknown /\ decompile_reported (fun l => l) (N.to_nat 500) demo_unknown = ([RByte 9; RCode 107 8192 0x34], Panic) /\
  get_chunk demo_unknown (8192 + 38) [3; 17; 5; 0] 8192 = Ok (RErr tt).
Proof. split; [exact demo_unknown_bytes|]. split; [exact demo_unknown_runs|vm_compute; reflexivity]. Qed.

(** ** Lines of each kind *)
Definition is_byte_line (r : report) : bool := match r with RByte _ => true | _ => false end.
Definition is_code_line (r : report) : bool := match r with RCode _ _ _ => true | _ => false end.
Lemma calc_of_functions e l : calc_of e l -> Forall (eq RFunction) l.
Proof. intros (d & _ & cs & _ & ->). apply Forall_forall. intros x H. apply in_map_iff in H as (c & <- & _). reflexivity. Qed.
Lemma functions_none p l : p RFunction = false -> Forall (eq RFunction) l -> filter p l = [].
Proof. intros P H. induction H as [|x l <- _ IH]; [reflexivity|]. cbn [filter]. now rewrite P. Qed.
Lemma step_no_start e k i : step_here e = SCalc k i \/ step_here e = SValue k i -> starts_occurrence e = false.
Proof.
  intros H. destruct (starts_occurrence e) eqn:E; [exfalso|reflexivity]. unfold starts_occurrence, occurrence_here, at_place in E. destruct e as [p c]. cbn [fst] in E.
  unfold step_here in H. cbn [fst] in H.
  destruct p as [|a p]; [discriminate|]. destruct (N.eq_dec a 3) as [->|A].
  - unfold step_place_of in H. cbn in H. destruct H; discriminate.
  - assert (Q : place_of (a :: p) <> POccurrence).
    { intros Q. clear E H. unfold place_of in Q. repeat match type of Q with context [match ?x with _ => _ end] => is_var x; destruct x; try discriminate end; congruence. }
    destruct (place_of (a :: p)); try discriminate. now apply Q.
Qed.
Lemma entry_bytes h e m : entry_tells h e m -> map (fun r => match r with RByte b => Some b | _ => None end) (filter is_byte_line m) = if starts_occurrence e then [byte_of e 2] else [].
Proof.
  intros H. inversion H as [b S B|k i l P K C|k i st l P K I F C|k i st op P K I F N|k i P K|k i P K|S N1 N2]; subst.
  - rewrite S, B. reflexivity.
  - rewrite (functions_none is_byte_line m eq_refl (calc_of_functions _ _ C)), (step_no_start e k i) by auto. reflexivity.
  - rewrite (functions_none is_byte_line m eq_refl (calc_of_functions _ _ C)), (step_no_start e k i) by auto. reflexivity.
  - rewrite (step_no_start e k i) by auto. reflexivity.
  - rewrite (step_no_start e k i) by auto. reflexivity.
  - rewrite (step_no_start e k i) by auto. reflexivity.
  - rewrite S. reflexivity.
Qed.
Lemma entry_codes h e m : entry_tells h e m -> filter is_code_line m = [].
Proof.
  intros H. inversion H as [b S B|k i l P K C|k i st l P K I F C|k i st op P K I F N|k i P K|k i P K|S N1 N2]; subst; try reflexivity.
  all: exact (functions_none is_code_line m eq_refl (calc_of_functions _ _ C)).
Qed.
Lemma told_codes h l : told h l -> filter is_code_line l = [].
Proof. induction 1 as [|h e l m _ IH E]; [reflexivity|]. now rewrite filter_app, IH, (entry_codes _ _ _ E). Qed.

(** C99: a line about an unknown code is the last one, the only one of its kind, and leaves no result. *)
Theorem C99_code : forall order fuel buf l o a b c, bytes buf -> decompile_reported order fuel buf = (l, o) -> In (RCode a b c) l ->
  o = Panic /\ exists l1, l = l1 ++ [RCode a b c] /\ Forall (fun r => is_code_line r = false) l1.
Proof.
  intros order fuel buf l o a b c HB H I. destruct (decompile_begins _ _ _ _ _ HB H) as (h & l1 & m & w & _ & -> & T & W & _ & Y & K).
  pose proof (told_codes _ _ T) as C. assert (N : Forall (fun r => is_code_line r = false) l1).
  { apply Forall_forall. intros x X. destruct (is_code_line x) eqn:E; [|reflexivity]. assert (Q : In x (filter is_code_line l1)) by (apply filter_In; auto). rewrite C in Q. destruct Q. }
  apply in_app_iff in I as [I|I]; [rewrite Forall_forall in N; now apply N in I|].
  inversion W as [|start off path path' ch off' k i m' G P KY FA|start off path c0 E G]; subst; [destruct I|rewrite Forall_forall in FA; apply FA in I; discriminate|].
  destruct I as [I|[]]. rewrite I in *. split; [|exists l1; split; [reflexivity|exact N]].
  destruct o as [f| |]; [destruct (K f eq_refl); discriminate|reflexivity|]. specialize (Y eq_refl). inversion Y; discriminate.
Qed.
Print Assumptions C99_code.
Example C99_code_ex : bytes demo_unknown /\ exists l o, decompile_reported (fun l => l) (N.to_nat 500) demo_unknown = (l, o) /\ In (RCode 107 8192 0x34) l.
Proof. split; [exact demo_unknown_bytes|]. do 2 eexists. split; [exact demo_unknown_runs|]. right. left. vm_compute. reflexivity. Qed.

(** C99: the lines about bytes are those of the occurrences, in order, and there are as many of them. *)
Theorem C99_occurrences : forall order fuel buf l f h, bytes buf -> decompile_reported order fuel buf = (l, Ok f) -> file_history buf 2 h ->
  map (fun r => match r with RByte b => Some b | _ => None end) (filter is_byte_line l) = map (fun e => byte_of e 2) (filter starts_occurrence h) /\
  (forall k, nget (f_occurrences f) k <> None <-> 1 <= k <= lenN (filter is_byte_line l)).
Proof.
  intros order fuel buf l f h HB H F. destruct (C99_lines _ _ _ _ _ HB H) as (h' & _ & T & U & _). rewrite <- (U _ F) in T. clear U h'.
  assert (E : map (fun r => match r with RByte b => Some b | _ => None end) (filter is_byte_line l) = map (fun e => byte_of e 2) (filter starts_occurrence h)).
  { clear -T. induction T as [|h e l m _ IH E]; [reflexivity|]. rewrite !filter_app, !map_app, IH, (entry_bytes _ _ _ E). cbn [filter]. destruct (starts_occurrence e); reflexivity. }
  split; [exact E|]. pose proof (C99_same order fuel buf) as S. rewrite H in S. symmetry in S. cbn [snd] in S. destruct (C83_any_file _ _ _ _ HB S) as (h' & _ & U & R). rewrite <- (U _ F) in R.
  assert (L : lenN (filter is_byte_line l) = lenN (sections starts_occurrence h)).
  { rewrite sections_count. apply (f_equal (@length _)) in E. rewrite !map_length in E. unfold lenN. now rewrite E. }
  intros k. rewrite (rec_occurrences _ _ R k), L. unfold occurrence_of. destruct (N.eqb_spec k 0) as [->|K]; [split; [congruence|lia]|].
  unfold lenN. destruct (nth_error (sections starts_occurrence h) (N.to_nat (k - 1))) eqn:N; cbn [option_map].
  - split; [intros _|discriminate]. assert (X : nth_error (sections starts_occurrence h) (N.to_nat (k - 1)) <> None) by congruence. apply nth_error_Some in X. lia.
  - apply nth_error_None in N. split; [congruence|lia].
Qed.
Print Assumptions C99_occurrences.
Example C99_occurrences_ex : exists l f, decompile_reported (fun l => l) (N.to_nat 500) (file_of [demo_lines]) = (l, Ok f) /\ filter is_byte_line l = [RByte 9; RByte 8] /\
  option_map oc_table (nget (f_occurrences f) 1) = Some 130 /\ nget (f_occurrences f) 3 = None.
Proof. do 2 eexists. split; [exact demo_lines_runs|]. repeat split. Qed.

(** C99: a file without occurrences and without scripts is decompiled without any line. *)
Theorem C99_quiet : forall order fuel buf l f, bytes buf -> (forall l, Permutation (order l) l) -> decompile_reported order fuel buf = (l, Ok f) ->
  (forall k, nget (f_occurrences f) k = None) -> (forall k, nget (f_scripts f) k = None) -> l = [].
Proof.
  intros order fuel buf l f HB PO H NO NS. destruct (C99_lines _ _ _ _ _ HB H) as (h & F & T & _).
  destruct (C99_occurrences _ _ _ _ _ _ HB H F) as [_ OC].
  pose proof (C99_same order fuel buf) as S. rewrite H in S. symmetry in S. cbn [snd] in S. destruct (C83_any_file _ _ _ _ HB S) as (h' & _ & U & R). rewrite <- (U _ F) in R. clear U h'.
  assert (B : filter is_byte_line l = []).
  { destruct (filter is_byte_line l) as [|r t] eqn:E; [reflexivity|exfalso]. apply (proj2 (OC 1)); [unfold lenN; cbn [length]; lia|apply NO]. }
  assert (NN : forall k h1 h2, h = h1 ++ h2 -> script_name_of k h1 = None).
  { intros k h1 h2 E. pose proof (rec_scripts _ _ R k) as Q. rewrite NS in Q. cbn [option_map] in Q. unfold script_name_of in *. rewrite E, existsb_app in Q. destruct (existsb (names_script k) h1); [discriminate|reflexivity]. }
  destruct (decompile_parts _ _ _ _ HB S) as (_ & last & g & s & s1 & _ & _ & Fg & Rg & _). rewrite (history_det _ _ _ Fg _ F) in Rg. clear g Fg last.
  assert (NI : forall k h1 h2 st steps, h = h1 ++ h2 -> in_place k h1 (st :: steps) -> False).
  { intros k h1 h2 st steps E I. rewrite E, run_app in Rg. destruct (run_history h1 (mkD fmpfile_new [] [])) as [s0| |] eqn:R0; try discriminate.
    pose proof (so_far_run h1 [] _ _ R0 so_far_start) as F0. cbn [app] in F0. pose proof (in_place_det _ _ _ I _ (sf_steps _ _ F0 k)) as Q.
    apply (proj1 (named_iff _ _ k F0)); [|exact (NN k h1 h2 E)]. unfold has_script. unfold stp in Q. destruct (nget (nam s0) k); [discriminate|discriminate]. }
  assert (G : forall e h1 h2 k i, h = h1 ++ e :: h2 -> step_here e = SCalc k i \/ step_here e = SValue k i -> has_key 5 e = true -> False).
  { intros e h1 h2 k i E P K. assert (X : exists l st, in_place k h1 l /\ In st l /\ step_index st = i).
    { rewrite E in F. eapply (C84_parameters order fuel buf f h1 e h2 k i 5 HB PO S F); [|exact K]. destruct P as [->| ->]; auto. }
    destruct X as ([|st0 steps] & st & I & IN & _); [destruct IN|]. eapply NI; eauto. }
  assert (M : forall h1 l1, told h1 l1 -> forall h2, h = h1 ++ h2 -> filter is_byte_line l1 = [] -> l1 = []).
  { induction 1 as [|h1 e l1 m T1 IH E]; intros h2 Q Z; [reflexivity|]. rewrite <- app_assoc in Q. cbn [app] in Q. rewrite filter_app in Z. apply app_eq_nil in Z as [Z1 Z2].
    rewrite (IH _ Q Z1). cbn [app]. inversion E as [b S0 B0|k i l0 P K C|k i st l0 P K I Fi C|k i st op P K I Fi N|k i P K|k i P K|S0 N1 N2]; subst; try reflexivity.
    - discriminate.
    - exfalso. exact (G e h1 h2 k i eq_refl (or_introl P) K).
    - exfalso. exact (G e h1 h2 k i eq_refl (or_intror P) K). }
  apply (M h l T []); [now rewrite app_nil_r|exact B].
Qed.
Print Assumptions C99_quiet.
(** A table. *)
Definition demo_quiet : list AsmSpec.event := within [3; 16; 5] [Enter 130; text_ev 16 (lit "T"); Leave] ++ repeat (Item (repeat 0 250)) 15.
Example C99_quiet_ex : bytes (file_of [demo_quiet]) /\ exists f, decompile_reported (fun l => l) (N.to_nat 500) (file_of [demo_quiet]) = ([], Ok f) /\
  (forall k, nget (f_occurrences f) k = None) /\ (forall k, nget (f_scripts f) k = None) /\ nget (f_tables f) 2 <> None.
Proof. split; [by_bytes|]. eexists. split; [vm_compute; reflexivity|]. split; [reflexivity|]. split; [reflexivity|]. vm_compute. discriminate. Qed.

(** C99: so is every file the assembler writes. *)
Lemma event_all_bytes e : readable e -> bytes (event_bytes e).
Proof.
  assert (M : forall n, n mod 256 < 256) by (intros n; lia).
  destruct e as [d| |k v|k v|k v|v]; cbn [readable event_bytes]; intros R.
  - apply bytes_cons. split; [destruct (d <? 128); lia|]. apply bytes_app. split; [apply AsmRound.number_bytes|]. repeat constructor.
  - repeat constructor.
  - destruct R as (K & V & _). assert (C : (if forced k then 6 else short_code (lenN v)) < 256).
    { destruct (forced k); [reflexivity|]. unfold short_code. destruct (lenN v) as [|p]; [reflexivity|]. do 4 (destruct p; try reflexivity). }
    destruct (_ =? 6); repeat (apply bytes_cons; split; [auto; lia|]); exact V.
  - destruct R as (_ & _ & V & _). apply bytes_cons. split; [lia|]. apply bytes_app. split; [apply AsmRound.number_bytes|]. apply bytes_cons. split; [apply M|exact V].
  - apply bytes_cons. split; [lia|]. apply bytes_cons. split; [apply M|]. apply bytes_app. split; [tauto|]. apply bytes_cons. split; [apply M|tauto].
  - apply bytes_cons. split; [lia|]. apply bytes_cons. split; [apply M|]. apply bytes_app. split; [tauto|]. repeat constructor.
Qed.
Lemma removelast_bytes l : bytes l -> bytes (removelast l).
Proof. intros H. induction H as [|x l Hx H IH]; [constructor|]. cbn [removelast]. destruct l; [constructor|]. constructor; assumption. Qed.
Lemma firstn_bytes n l : bytes l -> bytes (firstn n l).
Proof. intros H. rewrite <- (firstn_skipn n l) in H. now apply bytes_app in H. Qed.
Lemma sector_bytes n p : n < 2 ^ 32 -> bytes p -> bytes (AsmSpec.sector n p).
Proof. intros H P. unfold AsmSpec.sector. repeat (apply bytes_app; split); auto using DecompImage.zeros_bytes. now apply DecompImage.be4_bytes. Qed.
Lemma header_bytes : bytes HeaderModel.HEADER_INIT.
Proof. by_bytes. Qed.
Lemma image_bytes f : fits f -> short_names f -> is_str (f_name f) -> bytes (image f).
Proof.
  intros F S N. pose proof (DecompImage.schema_readable f F S) as R. unfold image. apply removelast_bytes. apply bytes_app. split.
  - unfold header_with. repeat (apply bytes_app; split).
    + apply firstn_bytes, header_bytes.
    + now apply Utf8Facts.utf8_bytes.
    + repeat constructor.
    + apply AsmLemmas.bytes_skipn, header_bytes.
  - apply bytes_app. split; [repeat constructor|]. apply bytes_app. split; [apply sector_bytes; [reflexivity|constructor]|].
    apply bytes_app. split; [|apply bytes_app; split; apply sector_bytes; try reflexivity; constructor].
    apply sector_bytes; [reflexivity|]. unfold schema_bytes. apply bytes_cons. split; [reflexivity|].
    unfold stream_bytes. induction R as [|e es E _ IH]; [constructor|]. cbn [flat_map]. apply bytes_app. split; [now apply event_all_bytes|exact IH].
Qed.
Theorem C99_written : forall order fuel f img, assemble f = Ok img -> short_names f -> is_str (f_name f) -> (forall l, Permutation (order l) l) -> (N.to_nat 5000 <= fuel)%nat ->
  decompile_reported order fuel img = ([], Ok fmpfile_new).
Proof.
  intros order fuel f img A S N PO Hf. apply assemble_inv in A as [F ->]. pose proof (image_bytes f F S N) as B.
  assert (D : decompile order fuel (image f) = Ok fmpfile_new) by (apply decompiled_assembly_is_empty; auto; apply Permutation_nil; symmetry; apply PO).
  rewrite <- C99_same in D. destruct (decompile_reported order fuel (image f)) as [l o] eqn:E. cbn [snd] in D. subst o. f_equal.
  eapply C99_quiet; eauto; reflexivity.
Qed.
Print Assumptions C99_written.
Example C99_written_ex : assemble demo_file = Ok (image demo_file) /\ short_names demo_file /\ is_str (f_name demo_file) /\ lenN (f_occurrences demo_file) <> 0.
Proof. split; [apply assemble_image, demo_fits|]. split; [exact demo_short|]. split; [repeat constructor|discriminate]. Qed.

(** C99: that a file is decompiled without lines unless something in it is unknown is false: every occurrence leaves one. *)
Definition demo_occurrence : list AsmSpec.event := within [3; 17; 5; 0] [Put 2 [0; 0; 9; 0; 0; 0; 130]; text_ev 16 (lit "T")] ++ repeat (Item (repeat 0 250)) 15.
Theorem C99_quiet_refuted : exists buf f, bytes buf /\ decompile_reported (fun l => l) (N.to_nat 500) buf = ([RByte 9], Ok f) /\ (forall k, nget (f_scripts f) k = None) /\
  nget (f_occurrences f) 1 = Some (mkOcc (lit "T") 130 [] [] []).
Proof. exists (file_of [demo_occurrence]). eexists. split; [by_bytes|]. split; [vm_compute; reflexivity|]. split; reflexivity. Qed.
Print Assumptions C99_quiet_refuted.
