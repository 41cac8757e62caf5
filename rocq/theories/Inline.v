(** Scripts stored in place are read back. *)
From Coq Require Import Ascii String NArith ZArith List Bool Lia.
From Verif Require Import Prelude PreludeFacts Utf8 EncodingModel EncodingProofs CharConvModel ChunkModel InstrModel ComponentModel
  AsmModel AsmSpec AsmFacts AsmProofs AsmRound AsmLemmas DecompModel DecompStream DecompImage DecompCalcSpec DecompCalc DecompScriptSpec DecompScript
  DecompRecoverSpec DecompRecover DecompRecover2 DecompRecover3 DecompRecover4 DecompChain InlineSpec.
Import ListNotations.
Local Open Scope N_scope.

Lemma decode_blocks_in sc m bs os : m <= 28 -> Forall2 (block_step (names_of sc)) bs os -> forall l, decode_list sc m l = Ok [] ->
  decode_list sc m (bs ++ l) = Ok (present os).
Proof.
  intros Hm. induction 1 as [|b o bs os Hb _ IH]; intros l Hl; [exact Hl|]. cbn [app decode_list].
  assert (L : lenN b = 28) by (destruct Hb as (n0 & x & ib & rest & op & _ & L & _); exact L).
  rewrite L. replace (m <=? 28) with true by lia.
  rewrite (decode_block sc b o Hb). cbn [bind]. rewrite (IH l Hl). cbn [bind]. destruct o; reflexivity.
Qed.
Lemma decode_tail_in sc m fuel tail : (length tail < 28)%nat -> lenN tail < m -> decode_list sc m (chunks_loop fuel 28 tail) = Ok [].
Proof.
  intros H Hm. destruct fuel as [|fuel]; [reflexivity|]. cbn [chunks_loop]. destruct tail as [|x tail]; [reflexivity|].
  cbn [decode_list]. rewrite firstn_all2 by lia. replace (m <=? lenN (x :: tail)) with false by lia.
  rewrite skipn_all2 by lia. destruct fuel; reflexivity.
Qed.
Lemma decode_stored sc m bs os tail : m <= 28 -> lenN tail < m -> Forall2 (block_step (names_of sc)) bs os ->
  decode_list sc m (chunks 28 (concat bs ++ tail)) = Ok (present os).
Proof.
  intros Hm T F.
  assert (L28 : Forall (fun b => length b = 28%nat) bs).
  { induction F as [|b o bs os Hb _ IH]; constructor; auto.
    destruct Hb as (n0 & x & ib & rest & op & _ & L & _). unfold lenN in L. lia. }
  pose proof (concat_len28 _ L28) as CL. unfold chunks.
  remember (length (concat bs ++ tail) - length bs)%nat as k.
  replace (length (concat bs ++ tail)) with (length bs + k)%nat by (rewrite app_length in *; lia).
  rewrite chunks_blocks by auto. apply decode_blocks_in; auto. apply decode_tail_in; unfold lenN in *; lia.
Qed.

(** A state with the steps of one script replaced. *)
Definition put_steps (s : dstate) (sid : N) (sc : script) (steps : list step) : dstate :=
  with_file s (set_scripts (d_file s) (nset (f_scripts (d_file s)) sid (script_with sc steps))).

Lemma put_twice s sid sc a b : put_steps (put_steps s sid sc a) sid (script_with sc a) b = put_steps s sid sc b.
Proof. unfold put_steps, with_file, set_scripts. cbn. now rewrite nset_nset. Qed.
Lemma put_get s sid sc a : nget (f_scripts (d_file (put_steps s sid sc a))) sid = Some (script_with sc a).
Proof. unfold put_steps. cbn. now rewrite nget_nset, N.eqb_refl. Qed.
Lemma put_same s sid sc : nget (f_scripts (d_file s)) sid = Some sc -> put_steps s sid sc (sc_steps sc) = s.
Proof.
  intros H. unfold put_steps. replace (script_with sc (sc_steps sc)) with sc by (destruct sc; reflexivity). rewrite nset_id by auto.
  destruct s as [[] ? ?]; reflexivity.
Qed.

Lemma push_found pre st post i g : Forall (fun x => step_index x <> i) pre -> step_index st = i ->
  push_switch (pre ++ st :: post) i g = (st' <- g st ;; Ok (pre ++ st' :: post)).
Proof.
  induction pre as [|x pre IH]; intros H E; cbn [app push_switch].
  - rewrite E, N.eqb_refl. reflexivity.
  - inversion H; subst. replace (step_index x =? step_index st) with false by lia. rewrite IH by auto. destruct (g st); reflexivity.
Qed.
Lemma push_missing steps i g : Forall (fun x => step_index x <> i) steps -> push_switch steps i g = Panic.
Proof.
  induction 1 as [|x l H _ IH]; [reflexivity|]. cbn [push_switch]. replace (step_index x =? i) with false by lia. now rewrite IH.
Qed.
Lemma instr_refl i : instr_eqb i i = true.
Proof. unfold instr_eqb. apply N.eqb_refl. Qed.
Lemma instr_neq i j : i <> j -> instr_eqb i j = false.
Proof.
  intros H. destruct (instr_eqb i j) eqn:E; auto. elim H. unfold instr_eqb in E. apply N.eqb_eq in E. now apply discriminant_inj.
Qed.

Lemma add_none st : mkStep (opcode st) (step_index st) (switches st ++ []) = st.
Proof. rewrite app_nil_r. destruct st; reflexivity. Qed.

Lemma mod_found s sid sc g steps : nget (f_scripts (d_file s)) sid = Some sc -> g (sc_steps sc) = Ok steps ->
  mod_steps s sid g = Ok (put_steps s sid sc steps).
Proof. intros H G. rewrite mod_steps_ok, H, G. reflexivity. Qed.

(** * The arms *)
Definition small_put (k : N) (v : list N) (p : list N) : chunk := mkChunk RefSimple (kv_opcode k v) (Some v) None p None (Some k).

Lemma name_arm sid i t p s sc steps : nget (f_scripts (d_file s)) sid = Some sc -> short_text t -> one_param (PName i t) (sc_steps sc) steps ->
  arm_step_name sid i (small_put 1 (fm_string_encrypt t) p) s = Ok (put_steps s sid sc steps).
Proof.
  intros H Ht (pre & st & post & ts & E & Ei & Hp & A & ->). unfold arm_step_name, small_put. cbn [cref cdata]. cbn [param_step] in *. rewrite text_back by auto.
  apply mod_found; auto. rewrite E, push_found by auto. destruct st as [op ix sw]. cbn [opcode step_index switches] in *. inversion A; subst; cbn [opcode].
  - rewrite instr_refl. reflexivity.
  - rewrite instr_neq by auto. cbn [bind]. now rewrite app_nil_r.
Qed.
Lemma value_arm sid i v p s sc steps : nget (f_scripts (d_file s)) sid = Some sc -> one_param (PValue i v) (sc_steps sc) steps ->
  arm_step_value sid i (small_put 5 v p) s = Ok (put_steps s sid sc steps).
Proof.
  intros H (pre & st & post & ts & E & Ei & Hp & A & ->). unfold arm_step_value, small_put. cbn [cref cdata]. cbn [param_step] in *.
  apply mod_found; auto. rewrite E, push_found by auto. destruct st as [op ix sw]. cbn [opcode step_index switches] in *. inversion A; subst; cbn [opcode].
  - rewrite instr_refl. cbn [bind]. unfold add_switch. rewrite decrypt_encrypt by auto. reflexivity.
  - rewrite instr_refl. rewrite instr_neq by discriminate. cbn [unwrap bind].
    rewrite calc_roundtrip by auto. reflexivity.
  - rewrite !instr_neq by auto. cbn [bind]. now rewrite app_nil_r.
Qed.
Lemma calc_arm sid i v p s sc steps : nget (f_scripts (d_file s)) sid = Some sc -> one_param (PCalc i v) (sc_steps sc) steps ->
  arm_step_calc sid i (small_put 5 v p) s = Ok (put_steps s sid sc steps).
Proof.
  intros H (pre & st & post & ts & E & Ei & Hp & A & ->). unfold arm_step_calc, small_put. cbn [cref cdata unwrap bind]. cbn [param_step] in *.
  inversion A; subst. rewrite calc_roundtrip by auto. cbn [bind].
  erewrite mod_found; [|exact H|rewrite E, push_found by auto; reflexivity]. cbn [bind]. rewrite put_get. reflexivity.
Qed.
Lemma arm_still sid i ch s sc : nget (f_scripts (d_file s)) sid = Some sc -> cref ch = None -> csegment ch = None ->
  arm_step_name sid i ch s = Ok s /\ arm_step_value sid i ch s = Ok s /\ arm_step_calc sid i ch s = Ok s /\ arm_script sid ch s = Ok s.
Proof.
  intros H R G. unfold arm_step_name, arm_step_value, arm_step_calc, arm_script. rewrite R, G. cbn [bind]. rewrite H. repeat split; auto.
  destruct (ctype ch); reflexivity.
Qed.

Ltac arms sid i :=
  change (dispatch [17; 5; sid]) with (arm_script sid); change (dispatch [17; 5; sid; 5]) with (arm_script sid);
  change (dispatch [17; 5; sid; 5; i]) with (arm_script sid); change (dispatch [17; 5; sid; 5; i; 128]) with (arm_step_name sid i);
  change (dispatch [17; 5; sid; 5; i; 129]) with (arm_script sid); change (dispatch [17; 5; sid; 5; i; 128; 5]) with (arm_step_value sid i);
  change (dispatch [17; 5; sid; 5; i; 129; 5]) with (arm_step_calc sid i).
Ltac quiet H := repeat match goal with
    | |- context [bind (arm_script ?a ?c ?s) _] => rewrite (proj2 (proj2 (proj2 (arm_still a 0 c s _ H eq_refl eq_refl)))); cbn [bind]
    | |- context [bind (arm_step_name ?a ?i ?c ?s) _] => rewrite (proj1 (arm_still a i c s _ H eq_refl eq_refl)); cbn [bind]
    | |- context [bind (arm_step_value ?a ?i ?c ?s) _] => rewrite (proj1 (proj2 (arm_still a i c s _ H eq_refl eq_refl))); cbn [bind]
    | |- context [bind (arm_step_calc ?a ?i ?c ?s) _] => rewrite (proj1 (proj2 (proj2 (arm_still a i c s _ H eq_refl eq_refl)))); cbn [bind]
    end.

Lemma run_param sid p s sc steps : nget (f_scripts (d_file s)) sid = Some sc -> param_fits p -> one_param p (sc_steps sc) steps ->
  run_events (ev_param p) [17; 5; sid] s = Ok (put_steps s sid sc steps) /\ stream_path (ev_param p) [17; 5; sid] = [17; 5; sid].
Proof.
  intros H [Hi Hf] O.
  assert (G : forall steps, nget (f_scripts (d_file (put_steps s sid sc steps))) sid = Some (script_with sc steps)) by (intros; apply put_get).
  destruct p as [i t|i v|i v]; cbn [param_step] in Hi; unfold ev_param; cbn [within app].
  all: cbn [run_events event_chunks run_chunks event_path stream_path text_ev]; rewrite !(shown_id i) by auto;
    change (shown 5) with 5; change (shown 128) with 128; change (shown 129) with 129.
  all: cbn [removelast app].
  all: arms sid i.
  all: quiet H.
  - split; [|reflexivity]. match goal with |- context [mkChunk RefSimple _ _ _ ?p None (Some 1)] =>
      change (mkChunk RefSimple (kv_opcode 1 (fm_string_encrypt t)) (Some (fm_string_encrypt t)) None p None (Some 1)) with (small_put 1 (fm_string_encrypt t) p) end.
    erewrite name_arm by eauto. cbn [bind]. quiet (G steps). reflexivity.
  - split; [|reflexivity]. match goal with |- context [mkChunk RefSimple _ _ _ ?p None (Some 5)] =>
      change (mkChunk RefSimple (kv_opcode 5 v) (Some v) None p None (Some 5)) with (small_put 5 v p) end.
    erewrite value_arm by eauto. cbn [bind]. quiet (G steps). reflexivity.
  - split; [|reflexivity]. match goal with |- context [mkChunk RefSimple _ _ _ ?p None (Some 5)] =>
      change (mkChunk RefSimple (kv_opcode 5 v) (Some v) None p None (Some 5)) with (small_put 5 v p) end.
    erewrite calc_arm by eauto. cbn [bind]. quiet (G steps). reflexivity.
Qed.

Lemma run_params sid ps : forall s sc steps, nget (f_scripts (d_file s)) sid = Some sc -> Forall param_fits ps -> filled ps (sc_steps sc) steps ->
  run_events (flat_map ev_param ps) [17; 5; sid] s = Ok (put_steps s sid sc steps) /\ stream_path (flat_map ev_param ps) [17; 5; sid] = [17; 5; sid].
Proof.
  induction ps as [|p ps IH]; intros s sc steps H Hf F; inversion F; subst.
  - cbn. rewrite put_same by auto. split; reflexivity.
  - inversion Hf; subst. destruct (run_param sid p s sc s' H ltac:(auto) ltac:(auto)) as [R1 P1].
    cbn [flat_map]. rewrite run_events_app, stream_path_app, R1, P1. cbn [bind].
    destruct (IH (put_steps s sid sc s') (script_with sc s') steps) as [R2 P2]; auto; [apply put_get|].
    rewrite R2, P2, put_twice. split; reflexivity.
Qed.

(** * One script *)
Lemma run_head x s sc os : nget (f_scripts (d_file s)) (in_id x) = Some sc -> sc_steps sc = [] -> inline_fits x ->
  Forall2 (block_step (names_of (f_scripts (d_file s)))) (in_blocks x) os ->
  forall es, run_events (within [in_id x] (Put 4 (concat (in_blocks x) ++ in_tail x) :: es)) [17; 5] s =
  (s' <- run_events es [17; 5; in_id x] (put_steps s (in_id x) sc (present os)) ;; run_events [Leave] (stream_path es [17; 5; in_id x]) s').
Proof.
  intros H H0 (Hi & _ & _ & Ht & Hp) F es. cbn [within app].
  cbn [run_events event_chunks run_chunks event_path]. rewrite (shown_id (in_id x)) by auto. cbn [app].
  change (dispatch [17; 5; in_id x]) with (arm_script (in_id x)).
  quiet H. unfold arm_script at 1. cbn [ctype csegment cref cdata unwrap bind].
  rewrite steps_loop_append, (decode_stored _ 21 _ os) by (auto; lia). cbn [bind].
  assert (A : append_steps s (in_id x) (present os) = Ok (put_steps s (in_id x) sc (present os))).
  { unfold append_steps. destruct (present os) as [|st l] eqn:E; [rewrite <- H0, put_same by auto; reflexivity|].
    apply mod_found; auto. rewrite H0. reflexivity. }
  rewrite A. cbn [bind]. apply run_events_app.
Qed.

Lemma run_inline x s sc steps : nget (f_scripts (d_file s)) (in_id x) = Some sc -> sc_steps sc = [] -> inline_fits x ->
  inline_steps (names_of (f_scripts (d_file s))) x steps ->
  run_events (ev_inline x) [17; 5] s = Ok (put_steps s (in_id x) sc steps) /\ stream_path (ev_inline x) [17; 5] = [17; 5].
Proof.
  intros H H0 Hf (os & F & Fl). unfold ev_inline.
  destruct (run_params (in_id x) (in_params x) (put_steps s (in_id x) sc (present os)) (script_with sc (present os)) steps) as [R P];
    [apply put_get|apply Hf|exact Fl|].
  split.
  - rewrite (run_head x s sc os) by auto. rewrite R, P, put_twice. reflexivity.
  - cbn [within app stream_path event_path]. destruct Hf as (Hi & _). rewrite (shown_id (in_id x)) by auto. cbn [app]. rewrite stream_path_app, P. reflexivity.
Qed.

(** * All of them *)
Definition steps_in (res : list (N * list step)) (k : N) : list step := match nget res k with Some l => l | None => [] end.
Lemma nget_snoc {V} (m : list (N * V)) k v i : ~ In k (map fst m) -> nget (m ++ [(k, v)]) i = if k =? i then Some v else nget m i.
Proof. intros H. rewrite <- nset_fresh by auto. apply nget_nset. Qed.

Lemma names_with q res k : names_of (scripts_with q res) k = nget (q_scripts q) k.
Proof.
  unfold names_of, scripts_with. rewrite (nget_map (fun e => mkScript (snd e) [] [] [] (steps_in res (fst e)))). destruct (nget (q_scripts q) k); reflexivity.
Qed.

Lemma block_names n1 n2 b o : (forall k, n1 k = n2 k) -> block_step n1 b o -> block_step n2 b o.
Proof.
  intros E (n0 & x & ib & rest & op & H1 & H2 & H3 & H4 & H5). exists n0, x, ib, rest, op. repeat split; auto.
  destruct o as [st|]; auto. destruct H5 as (H5 & H6 & H7). repeat split; auto. destruct (instr_eqb _ _); auto.
  destruct H7 as (k & n & K1 & K2 & K3). exists k, n. rewrite <- E. auto.
Qed.
Lemma inline_names n1 n2 x l : (forall k, n1 k = n2 k) -> inline_steps n1 x l -> inline_steps n2 x l.
Proof.
  intros E (os & H & K). exists os. split; auto. clear K. induction H; constructor; auto. eapply block_names; eauto.
Qed.

Definition recovered (q : qschema) (x : inline) (r : N * list step) : Prop := fst r = in_id x /\ inline_steps (nget (q_scripts q)) x (snd r).

Lemma run_inlines q l res : Forall2 (recovered q) l res -> forall s done,
  NoDup (map fst (q_scripts q)) -> NoDup (map fst (done ++ res)) -> Forall inline_fits l -> Forall (fun x => In (in_id x) (map fst (q_scripts q))) l ->
  f_scripts (d_file s) = scripts_with q done ->
  run_events (flat_map ev_inline l) [17; 5] s = Ok (with_file s (set_scripts (d_file s) (scripts_with q (done ++ res)))) /\
  stream_path (flat_map ev_inline l) [17; 5] = [17; 5].
Proof.
  induction 1 as [|x [k steps] l res [Hk Hs] _ IH]; intros s done NQ ND Hf Hi E.
  - rewrite app_nil_r, <- E. split; [|reflexivity]. cbn. f_equal. destruct s as [[] ? ?]; reflexivity.
  - cbn [fst snd] in *. subst k. inversion Hf; inversion Hi; subst.
    assert (FR : ~ In (in_id x) (map fst done)).
    { rewrite map_app in ND. cbn [map fst] in ND. apply NoDup_remove_2 in ND. intro K. apply ND, in_or_app. auto. }
    destruct (nget_in (q_scripts q) (in_id x)) as [nm Hn]; auto.
    set (sc := mkScript nm [] [] [] []).
    assert (G : nget (f_scripts (d_file s)) (in_id x) = Some sc).
    { rewrite E. unfold scripts_with. rewrite (nget_map (fun e => mkScript (snd e) [] [] [] (steps_in done (fst e)))), Hn. cbn [option_map snd fst].
      unfold steps_in. now rewrite nget_fresh by auto. }
    destruct (run_inline x s sc steps G eq_refl ltac:(auto)) as [R P].
    { eapply inline_names; [|exact Hs]. intros k. now rewrite E, names_with. }
    cbn [flat_map]. rewrite run_events_app, stream_path_app, R, P. cbn [bind].
    assert (E2 : f_scripts (d_file (put_steps s (in_id x) sc steps)) = scripts_with q (done ++ [(in_id x, steps)])).
    { unfold put_steps. cbn [d_file with_file f_scripts set_scripts]. rewrite E. unfold scripts_with.
      rewrite (nset_map (fun e => mkScript (snd e) [] [] [] (steps_in done (fst e)))) by auto. apply map_ext_in. intros [k n] Hkn. cbn [fst snd].
      f_equal. rewrite nget_snoc by auto. rewrite (N.eqb_sym k). destruct (N.eqb_spec (in_id x) k) as [Ek|]; [subst k|reflexivity].
      unfold script_with, sc. cbn. f_equal. assert (X : nget (q_scripts q) (in_id x) = Some n); [|congruence].
      clear - NQ Hkn. revert Hkn. generalize (in_id x). intros k Hkn. induction (q_scripts q) as [|[a b] m IHm]; [destruct Hkn|]. rewrite nget_cons. cbn [map fst] in NQ. inversion NQ; subst.
      destruct Hkn as [K|K]; [inversion K; subst; now rewrite N.eqb_refl|]. destruct (N.eqb_spec a k) as [->|]; auto.
      elim H1. now apply (in_map fst) in K. }
    destruct (IH (put_steps s (in_id x) sc steps) (done ++ [(in_id x, steps)])) as [R2 P2]; auto; [now rewrite <- app_assoc|].
    rewrite R2, P2, <- app_assoc. split; reflexivity.
Qed.

Definition stored_with (q : qschema) (l : list inline) : list event := stored q ++ within [17; 5] (flat_map ev_inline l).

(** Events that end where they began. *)
Definition level (es : list event) : Prop := forall p, stream_path es p = p.
Lemma level_app a b : level a -> level b -> level (a ++ b).
Proof. intros A B p. now rewrite stream_path_app, A, B. Qed.
Lemma level_within dirs es : level es -> level (within dirs es).
Proof.
  intros H. induction dirs as [|d ds IH]; [exact H|]. intros p. cbn [within stream_path event_path]. rewrite stream_path_app, IH.
  cbn [stream_path event_path]. apply removelast_last.
Qed.
Lemma level_flat {A} (g : A -> list event) l : (forall x, level (g x)) -> level (flat_map g l).
Proof. intros H. induction l; [intros p; reflexivity|]. cbn [flat_map]. now apply level_app. Qed.
Lemma level_puts es : Forall (fun e => match e with Enter _ | Leave => False | _ => True end) es -> level es.
Proof. induction 1 as [|e es H _ IH]; intros p; [reflexivity|]. cbn [stream_path]. destruct e; try contradiction; apply IH. Qed.
Lemma level_dir d es : level es -> level (Enter d :: es ++ [Leave]).
Proof. exact (level_within [d] es). Qed.

Lemma stored_path q : stream_path (stored q) [] = [].
Proof.
  revert q. assert (L : forall q, level (stored q)); [|intros q; apply L]. intros q. unfold stored.
  repeat apply level_app; try apply level_within; try (apply level_flat).
  - intros x. apply (level_dir _ [_]). apply level_puts. repeat constructor.
  - intros x. apply level_within. apply level_flat. intros y. apply (level_dir _ [_; _; _; _; _]). apply level_puts. repeat constructor.
  - intros x. apply (level_dir _ [_; _]). apply level_puts. repeat constructor.
  - intros [[t n] r]. apply (level_app [_; _] (Enter 251 :: _ ++ [Leave])); [apply level_puts; repeat constructor|]. apply level_dir. apply level_puts.
    apply Forall_forall. intros e He. apply in_map_iff in He as (y & <- & _). exact I.
  - intros [i [[c a] b]]. apply level_within. apply level_puts. repeat constructor.
  - intros x. apply (level_dir _ [_]). apply level_puts. repeat constructor.
  - apply level_puts. apply Forall_forall. intros e He. apply in_map_iff in He as (y & <- & _). exact I.
  - intros x. apply (level_dir _ [_]). apply level_puts. repeat constructor.
Qed.

Lemma params_readable ps : Forall param_fits ps -> Forall readable (flat_map ev_param ps).
Proof.
  intros H. eapply flat_forall; [|exact H]. intros p [Hi Hp]. destruct p as [i t|i v|i v]; (apply within_forall; [exact I|intros; exact I|constructor; [|constructor]]).
  - apply text_readable; [reflexivity|exact Hp].
  - split; [reflexivity|exact Hp].
  - split; [reflexivity|exact Hp].
Qed.
Lemma inline_readable x : inline_fits x -> Forall readable (ev_inline x).
Proof.
  intros (Hi & Hb & Hl & _ & Hp). apply within_forall; cbn; auto. constructor; [split; [reflexivity|split; auto]|]. now apply params_readable.
Qed.
Lemma inlines_readable l : Forall inline_fits l -> Forall readable (within [17; 5] (flat_map ev_inline l)).
Proof. intros H. apply within_forall; cbn; auto. eapply flat_forall; [|exact H]. apply inline_readable. Qed.

Definition result_with (q : qschema) (srcs : list (N * data_source)) (res : list (N * list step)) : fmpfile :=
  mkFile [] (tables_back q) (relations_back q) (layouts_back q) [] (scripts_with q res) (occurrences_back q) srcs [].

Lemma scripts_none q : scripts_back q = scripts_with q [].
Proof. reflexivity. Qed.

Lemma run_stored_with q srcs l res : well_formed q -> Forall2 source_back (q_sources q) srcs ->
  Forall2 (recovered q) l res -> NoDup (map in_id l) -> Forall inline_fits l -> Forall (fun x => In (in_id x) (map fst (q_scripts q))) l ->
  run_events (stored_with q l) [] (mkD fmpfile_new [] []) = Ok (mkD (result_with q srcs res) [] []).
Proof.
  intros W HS HR ND HF HI. unfold stored_with. rewrite run_events_app, stored_path, (run_stored q srcs) by auto. cbn [bind].
  match goal with |- run_events (within _ ?es) _ ?s = _ =>
    destruct (run_inlines q l res HR s []) as [R1 P1]; [apply W| |auto|auto|apply scripts_none|];
    [|destruct (run_within [17; 5] [] es s) as [A1 B1]; [exact still_nil|repeat constructor|cbn [app still_all]; repeat split; still|exact P1|]] end.
  - cbn [app]. replace (map fst res) with (map in_id l); auto. clear - HR. induction HR as [|x r l res [H _] _ IH]; [reflexivity|]. cbn. now rewrite IH, H.
  - rewrite A1. cbn [app]. rewrite R1. reflexivity.
Qed.

Lemma concat_readable streams es : concat streams = es -> Forall readable es -> Forall (fun es => lenN (stream_bytes es) <= 4076) streams ->
  Forall (fun es => Forall readable es /\ lenN (stream_bytes es) <= 4076) streams.
Proof.
  intros EC R HL. rewrite <- EC in R. clear EC. induction HL as [|x l H _ IH]; constructor; cbn [concat] in R; apply Forall_app in R as [R1 R2]; auto.
Qed.

Lemma inline_recovered order fuel q srcs l res streams :
  well_formed q -> Forall2 source_back (q_sources q) srcs ->
  Forall2 (recovered q) l res -> NoDup (map in_id l) -> Forall inline_fits l -> Forall (fun x => In (in_id x) (map fst (q_scripts q))) l ->
  concat streams = stored_with q l -> Forall balanced streams -> Forall (fun es => lenN (stream_bytes es) <= 4076) streams ->
  lenN streams + 2 < 2 ^ 32 -> (N.to_nat 4100 + length streams <= fuel)%nat -> order [] = [] ->
  decompile order fuel (file_of streams) = Ok (result_with q srcs res).
Proof.
  intros W HS HR ND HF HI EC HB HL HN Hf Ho. rewrite decompile_file; auto.
  - rewrite run_streams_concat, EC by auto. rewrite (run_stored_with q srcs l res) by auto. cbn [bind d_segments]. rewrite Ho. reflexivity.
  - intros ->. cbn in EC. unfold stored_with, stored in EC. cbn [within app] in EC. discriminate.
  - split; auto. eapply concat_readable; eauto. unfold stored_with. apply Forall_app. split; [now apply stored_readable|now apply inlines_readable].
Qed.

(** * A parameter without its step *)
Lemma param_missing sid p s sc : nget (f_scripts (d_file s)) sid = Some sc -> param_fits p -> Forall (fun st => step_index st <> param_step p) (sc_steps sc) ->
  run_events (ev_param p) [17; 5; sid] s = Panic.
Proof.
  intros H [Hi Hf] M.
  destruct p as [i t|i v|i v]; cbn [param_step] in *; unfold ev_param; cbn [within app].
  all: cbn [run_events event_chunks run_chunks event_path stream_path text_ev]; rewrite !(shown_id i) by auto;
    change (shown 5) with 5; change (shown 128) with 128; change (shown 129) with 129.
  all: cbn [removelast app].
  all: arms sid i.
  all: quiet H.
  - unfold arm_step_name at 1. cbn [cref]. rewrite mod_steps_ok, H, push_missing by auto. reflexivity.
  - unfold arm_step_value at 1. cbn [cref]. rewrite mod_steps_ok, H, push_missing by auto. reflexivity.
  - unfold arm_step_calc at 1. cbn [cref cdata unwrap bind]. pose proof (nf_calc v) as NF. destruct (decompile_calculation v); cbn [bind]; try congruence.
    rewrite mod_steps_ok, H, push_missing by auto. reflexivity.
Qed.

Lemma missing_aborts order fuel q srcs l res x p ps qs os steps rest streams :
  well_formed q -> Forall2 source_back (q_sources q) srcs ->
  Forall2 (recovered q) l res -> NoDup (map in_id (l ++ [x])) -> Forall inline_fits (l ++ x :: rest) ->
  Forall (fun x => In (in_id x) (map fst (q_scripts q))) (l ++ [x]) ->
  in_params x = ps ++ p :: qs -> Forall2 (block_step (nget (q_scripts q))) (in_blocks x) os -> filled ps (present os) steps ->
  Forall (fun st => step_index st <> param_step p) steps ->
  concat streams = stored_with q (l ++ x :: rest) -> Forall balanced streams -> Forall (fun es => lenN (stream_bytes es) <= 4076) streams ->
  lenN streams + 2 < 2 ^ 32 -> (N.to_nat 4100 + length streams <= fuel)%nat ->
  decompile order fuel (file_of streams) = Panic.
Proof.
  intros W HS HR ND HF HI EP FB FP M EC HB HL HN Hf. rewrite decompile_file; auto.
  - rewrite run_streams_concat, EC by auto. unfold stored_with. rewrite run_events_app, stored_path, (run_stored q srcs) by auto. cbn [bind].
    assert (HF1 : Forall inline_fits l) by (apply Forall_app in HF; tauto).
    assert (HFx : inline_fits x) by (apply Forall_app in HF as [_ HF]; now inversion HF).
    assert (HI1 : Forall (fun x => In (in_id x) (map fst (q_scripts q))) l) by (apply Forall_app in HI; tauto).
    assert (HIx : In (in_id x) (map fst (q_scripts q))) by (apply Forall_app in HI as [_ HI]; now inversion HI).
    assert (ER : map fst res = map in_id l) by (clear - HR; induction HR as [|y r l res [H _] _ IH]; [reflexivity|]; cbn; now rewrite IH, H).
    assert (NDl : NoDup (map in_id l)) by (rewrite map_app in ND; cbn [map] in ND; apply NoDup_remove_1 in ND; now rewrite app_nil_r in ND).
    assert (FR : ~ In (in_id x) (map fst res)) by (rewrite ER; rewrite map_app in ND; cbn [map] in ND; apply NoDup_remove_2 in ND; now rewrite app_nil_r in ND).
    match goal with |- bind (run_events _ _ ?s) _ = _ => set (s0 := s) end.
    destruct (run_inlines q l res HR s0 []) as [R1 P1]; [apply W|cbn [app]; now rewrite ER|auto|auto|apply scripts_none|].
    cbn [app] in R1.
    set (s1 := with_file s0 (set_scripts (d_file s0) (scripts_with q res))) in *.
    destruct (nget_in (q_scripts q) (in_id x)) as [nm Hn]; auto.
    set (sc := mkScript nm [] [] [] []).
    assert (G : nget (f_scripts (d_file s1)) (in_id x) = Some sc).
    { unfold s1. cbn [d_file with_file f_scripts set_scripts]. unfold scripts_with.
      rewrite (nget_map (fun e => mkScript (snd e) [] [] [] (steps_in res (fst e)))), Hn. cbn [option_map snd fst].
      unfold steps_in. now rewrite nget_fresh by auto. }
    assert (X : run_events (ev_inline x) [17; 5] s1 = Panic).
    { unfold ev_inline. rewrite EP, flat_map_app. cbn [flat_map]. rewrite (run_head x s1 sc os G eq_refl HFx).
      - pose proof (proj2 (proj2 (proj2 (proj2 HFx)))) as HP. rewrite EP in HP. apply Forall_app in HP as [HP1 HP2]. inversion HP2; subst.
        destruct (run_params (in_id x) ps (put_steps s1 (in_id x) sc (present os)) (script_with sc (present os)) steps) as [R P]; [apply put_get|auto|exact FP|].
        rewrite run_events_app, R, P. cbn [bind]. rewrite put_twice, run_events_app.
        rewrite (param_missing _ p _ (script_with sc steps)); [reflexivity|apply put_get|auto|exact M].
      - clear - FB. induction FB; constructor; auto. eapply block_names; [|eassumption]. intros k. unfold s1. cbn [d_file with_file f_scripts set_scripts].
        now rewrite names_with. }
    assert (Y : run_events (flat_map ev_inline (l ++ x :: rest)) [17; 5] s0 = Panic).
    { rewrite flat_map_app, run_events_app, R1, P1. cbn [bind flat_map]. rewrite run_events_app, X. reflexivity. }
    destruct (run_within [17; 5] [] (flat_map ev_inline (l ++ x :: rest)) s0) as [A1 B1]; [exact still_nil|repeat constructor|cbn [app still_all]; repeat split; still| |].
    + apply (level_flat ev_inline). intros y. apply level_within. apply (level_app [_]); [apply level_puts; repeat constructor|]. apply level_flat.
      intros [i t|i v|i v]; apply level_within, level_puts; repeat constructor.
    + rewrite A1. cbn [app]. rewrite Y. reflexivity.
  - intros ->. cbn in EC. unfold stored_with, stored in EC. cbn [within app] in EC. discriminate.
  - split; auto. eapply concat_readable; eauto. unfold stored_with. apply Forall_app. split; [now apply stored_readable|now apply inlines_readable].
Qed.

(** * Naming a script again *)
Lemma renamed id n s sc : id < 384 -> short_text n -> nget (f_scripts (d_file s)) id = Some sc ->
  run_events (ev_script (id, n)) [17; 1; 1] s =
  Ok (with_file s (set_scripts (d_file s) (nset (f_scripts (d_file s)) id (mkScript n (sc_account sc) (sc_user sc) (sc_args sc) (sc_steps sc))))).
Proof.
  intros Hi Hn G. unfold ev_script. run. rewrite shown_id by lia.
  change (removelast [17; 1; 1; id]) with [17; 1; 1].
  change (dispatch [17; 1; 1; id]) with (arm_script_name id).
  change (dispatch [17; 1; 1]) with (fun (_ : chunk) (x : dstate) => Ok x). cbv beta.
  unfold arm_script_name at 1. cbn [ctype bind].
  unfold arm_script_name at 1. cbn [ctype bind].
  unfold arm_script_name at 1. cbn [ctype bind cref cdata]. rewrite G. cbn [bind]. now rewrite text_back by auto.
Qed.

(** * Segment number 4 *)
Lemma insert_at {A} (l : list A) n x : vec_insert l n x = if n <=? lenN l then Ok (firstn (N.to_nat n) l ++ x :: skipn (N.to_nat n) l) else Panic.
Proof. reflexivity. Qed.
Lemma fourth sid p b st s sc : nget (f_scripts (d_file s)) sid = Some sc -> block_step (names_of (f_scripts (d_file s))) b (Some st) ->
  forall pre post, sc_steps sc = pre ++ post -> lenN pre = step_index st ->
  dispatch [17; 5; sid] (mkChunk DataSegment 7 (Some b) None p (Some 4) None) s = Ok (put_steps s sid sc (pre ++ st :: post)).
Proof.
  intros G B pre post E L. change (dispatch [17; 5; sid]) with (arm_script sid). unfold arm_script. cbn [ctype csegment cdata unwrap bind].
  assert (L28 : length b = 28%nat) by (destruct B as (n0 & x & ib & rest & op & _ & LB & _); unfold lenN in LB; lia).
  unfold chunks. rewrite L28. rewrite <- (app_nil_r b) at 1. rewrite chunks_block by auto. cbn [chunks_loop steps_loop].
  replace (21 <=? lenN b) with true by (unfold lenN; lia). rewrite (decode_block _ _ _ B). cbn [bind].
  erewrite mod_found; [reflexivity|exact G|]. rewrite E, insert_at, lenN_app, <- L. replace (lenN pre <=? lenN pre + lenN post) with true by lia.
  unfold lenN. rewrite Nnat.Nat2N.id, firstn_app, Nat.sub_diag, firstn_all, skipn_app, Nat.sub_diag, skipn_all. cbn [firstn skipn app]. now rewrite app_nil_r.
Qed.
