(** C80: scripts stored in place, with the parameters of their steps. *)
From Coq Require Import Ascii String NArith List Bool Lia.
From Verif Require Import Prelude PreludeFacts Utf8 EncodingModel CharConvModel ChunkModel InstrModel ComponentModel AsmSpec
  DecompModel DecompCalcSpec DecompCalc DecompStream DecompScriptSpec DecompScript DecompRecoverSpec DecompRecover DecompRecover4 DecompProps DecompRecoverProps InlineSpec Inline.
Import ListNotations.
Local Open Scope N_scope.

(** C80: in addition to C23, scripts whose steps are stored in place come back with their steps and the parameters of these. *)
Theorem C80_recovered : forall order fuel q srcs l res streams,
  well_formed q -> Forall2 source_back (q_sources q) srcs ->
  Forall2 (fun x r => fst r = in_id x /\ inline_steps (nget (q_scripts q)) x (snd r)) l res ->
  NoDup (map in_id l) -> Forall inline_fits l -> Forall (fun x => In (in_id x) (map fst (q_scripts q))) l ->
  concat streams = stored q ++ within [17; 5] (flat_map ev_inline l) ->
  Forall balanced streams -> Forall (fun es => lenN (stream_bytes es) <= 4076) streams ->
  lenN streams + 2 < 2 ^ 32 -> (N.to_nat 4100 + length streams <= fuel)%nat -> order [] = [] ->
  decompile order fuel (file_of streams) =
  Ok (mkFile [] (tables_back q) (relations_back q) (layouts_back q) [] (scripts_with q res) (occurrences_back q) srcs []).
Proof. exact inline_recovered. Qed.
Print Assumptions C80_recovered.

(** Set Variable has number 141, Exit Script 103. *)
Definition demo_inline : inline :=
  mkInline 3 [demo_block 1 141; demo_block 2 15; demo_block 3 103] [9; 9]
    [PName 1 (lit "$x"); PCalc 1 [0x1a; 1; 122]; PValue 3 [0x1a; 2; 126; 34]; PName 3 (lit "no")].
Definition demo_steps : list step := [mkStep ISetVariable 1 [lit "$x"; lit " "]; mkStep IExitScript 3 [lit "$x"]].
Lemma demo_fits : inline_fits demo_inline.
Proof.
  split; [small|]. split; [vm_compute; repeat constructor|]. split; [small|]. split; [small|].
  constructor; [split; [small|text]|]. constructor; [split; [small|split; [vm_compute; repeat constructor|small]]|].
  constructor; [split; [small|split; [vm_compute; repeat constructor|small]]|]. constructor; [split; [small|text]|]. constructor.
Qed.
Lemma demo_decoded names : Forall2 (block_step names) (in_blocks demo_inline) [Some (mkStep ISetVariable 1 []); None; Some (mkStep IExitScript 3 [])].
Proof.
  repeat constructor.
  - exists 2, 9, [1], (repeat 0 18 ++ [141] ++ repeat 0 6), 141. repeat split; auto. left. split; reflexivity.
  - exists 2, 9, [2], (repeat 0 18 ++ [15] ++ repeat 0 6), 15. split; [reflexivity|]. split; [reflexivity|]. split; [reflexivity|]. split; [reflexivity|].
    split; [reflexivity|]. intros i [[_ H]|[H _]]; [|discriminate]. destruct i; discriminate.
  - exists 2, 9, [3], (repeat 0 18 ++ [103] ++ repeat 0 6), 103. repeat split; auto. left. split; reflexivity.
Qed.
Lemma demo_var c : ascii c -> lenN c <= 255 -> Forall token_ok [CVar c].
Proof. intros A L. constructor; [split; auto|constructor]. Qed.
Lemma demo_filled names : inline_steps names demo_inline demo_steps.
Proof.
  eexists. split; [apply demo_decoded|]. cbn [present flat_map app in_params demo_inline].
  eapply FOne. { exists [], (mkStep ISetVariable 1 []), [mkStep IExitScript 3 []], [lit "$x"]. repeat split; auto. constructor. }
  eapply FOne. { exists [], (mkStep ISetVariable 1 [lit "$x"]), [mkStep IExitScript 3 []], [lit " "]. repeat split; auto.
    apply (ACalc ISetVariable 1 [CVar (lit " ")]). apply demo_var; [repeat constructor|small]. }
  eapply FOne. { exists [mkStep ISetVariable 1 [lit "$x"; lit " "]], (mkStep IExitScript 3 []), [], [lit "$x"]. split; [reflexivity|]. split; [reflexivity|].
    split; [repeat constructor; discriminate|]. split; [|reflexivity]. apply (AExit 3 [CVar (lit "$x")]). apply demo_var; [repeat constructor|small]. }
  eapply FOne. { exists [mkStep ISetVariable 1 [lit "$x"; lit " "]], (mkStep IExitScript 3 [lit "$x"]), [], []. split; [reflexivity|]. split; [reflexivity|].
    split; [repeat constructor; discriminate|]. split; [|reflexivity]. constructor. discriminate. }
  constructor.
Qed.
Example C80_recovered_ex : well_formed demo_schema /\ Forall inline_fits [demo_inline] /\
  Forall2 (fun x r => fst r = in_id x /\ inline_steps (nget (q_scripts demo_schema)) x (snd r)) [demo_inline] [(3, demo_steps)] /\
  scripts_with demo_schema [(3, demo_steps)] = [(3, mkScript (lit "Run") [] [] [] demo_steps)] /\
  Forall balanced [stored demo_schema ++ within [17; 5] (flat_map ev_inline [demo_inline])].
Proof.
  split; [exact demo_wf|]. split; [constructor; [exact demo_fits|constructor]|].
  split; [constructor; [split; [reflexivity|apply demo_filled]|constructor]|]. split; [reflexivity|]. constructor; [reflexivity|constructor].
Qed.

(** C80: a parameter whose step is not among the steps read so far aborts the program. *)
Theorem C80_missing_step : forall order fuel q srcs l res x p ps qs os steps rest streams,
  well_formed q -> Forall2 source_back (q_sources q) srcs ->
  Forall2 (fun x r => fst r = in_id x /\ inline_steps (nget (q_scripts q)) x (snd r)) l res -> NoDup (map in_id (l ++ [x])) -> Forall inline_fits (l ++ x :: rest) ->
  Forall (fun x => In (in_id x) (map fst (q_scripts q))) (l ++ [x]) ->
  in_params x = ps ++ p :: qs -> Forall2 (block_step (nget (q_scripts q))) (in_blocks x) os -> filled ps (present os) steps ->
  Forall (fun st => step_index st <> param_step p) steps ->
  concat streams = stored q ++ within [17; 5] (flat_map ev_inline (l ++ x :: rest)) ->
  Forall balanced streams -> Forall (fun es => lenN (stream_bytes es) <= 4076) streams ->
  lenN streams + 2 < 2 ^ 32 -> (N.to_nat 4100 + length streams <= fuel)%nat ->
  decompile order fuel (file_of streams) = Panic.
Proof. exact missing_aborts. Qed.
Print Assumptions C80_missing_step.
Definition demo_missing : inline := mkInline 3 [demo_block 1 141] [] [PName 2 (lit "$x")].
Example C80_missing_step_ex : inline_fits demo_missing /\ in_params demo_missing = [] ++ PName 2 (lit "$x") :: [] /\
  Forall2 (block_step (nget (q_scripts demo_schema))) (in_blocks demo_missing) [Some (mkStep ISetVariable 1 [])] /\
  Forall (fun st => step_index st <> 2) (present [Some (mkStep ISetVariable 1 [])]) /\
  run_events (within [17; 5] (ev_inline demo_missing)) [] (mkD (set_scripts fmpfile_new (scripts_back demo_schema)) [] []) = Panic.
Proof.
  split. { split; [small|]. split; [vm_compute; repeat constructor|]. split; [small|]. split; [small|]. constructor; [split; [small|text]|constructor]. }
  split; [reflexivity|]. split. { repeat constructor. exists 2, 9, [1], (repeat 0 18 ++ [141] ++ repeat 0 6), 141. repeat split; auto. left. split; reflexivity. }
  split; [repeat constructor; discriminate|]. vm_compute. reflexivity.
Qed.

(** C80: the steps of a script stored in segments are only made at the end, so any parameter of such a script aborts. *)
Theorem C80_segments_abort : forall sid p s sc,
  nget (f_scripts (d_file s)) sid = Some sc -> sc_steps sc = [] -> param_fits p -> run_events (ev_param p) [17; 5; sid] s = Panic.
Proof. intros sid p s sc H E F. apply (param_missing sid p s sc H F). rewrite E. constructor. Qed.
Print Assumptions C80_segments_abort.
Example C80_segments_abort_ex :
  let s := mkD (set_scripts fmpfile_new [(5, mkScript (lit "S") [] [] [] [])]) [(5, [(1, demo_block 1 141)])] [] in
  param_fits (PName 1 (lit "$x")) /\ exists s', build_scripts (d_segments s) s = Ok s' /\
    option_map sc_steps (nget (f_scripts (d_file s')) 5) = Some [mkStep ISetVariable 1 []].
Proof. split; [split; [small|text]|]. eexists. split; vm_compute; reflexivity. Qed.

(** C80: a script named again gets the new name and keeps its steps. *)
Theorem C80_renamed : forall id n s sc, id < 384 -> short_text n -> nget (f_scripts (d_file s)) id = Some sc ->
  exists s', run_events (ev_script (id, n)) [17; 1; 1] s = Ok s' /\
    nget (f_scripts (d_file s')) id = Some (mkScript n (sc_account sc) (sc_user sc) (sc_args sc) (sc_steps sc)) /\
    (forall k, k <> id -> nget (f_scripts (d_file s')) k = nget (f_scripts (d_file s)) k) /\ d_segments s' = d_segments s /\ d_names s' = d_names s.
Proof.
  intros id n s sc Hi Hn G. eexists. split; [apply (renamed id n s sc); auto|]. cbn. split; [now rewrite nget_nset, N.eqb_refl|]. split; [|split; reflexivity].
  intros k Hk. rewrite nget_nset. now replace (id =? k) with false by lia.
Qed.
Print Assumptions C80_renamed.
Example C80_renamed_ex : short_text (lit "New") /\ nget [(3, mkScript (lit "Run") [] [] [] demo_steps)] 3 = Some (mkScript (lit "Run") [] [] [] demo_steps).
Proof. split; [text|reflexivity]. Qed.

(** C80: a segment numbered 4 in the directory of a script puts its step where its index says, before the steps from there on. *)
Theorem C80_segment_four : forall sid p b st s sc pre post,
  nget (f_scripts (d_file s)) sid = Some sc -> block_step (fun k => option_map sc_name (nget (f_scripts (d_file s)) k)) b (Some st) ->
  sc_steps sc = pre ++ post -> lenN pre = step_index st ->
  exists s', dispatch [17; 5; sid] (mkChunk DataSegment 7 (Some b) None p (Some 4) None) s = Ok s' /\
    nget (f_scripts (d_file s')) sid = Some (mkScript (sc_name sc) (sc_account sc) (sc_user sc) (sc_args sc) (pre ++ st :: post)) /\
    forall k, k <> sid -> nget (f_scripts (d_file s')) k = nget (f_scripts (d_file s)) k.
Proof.
  intros sid p b st s sc pre post G B E L. eexists. split; [eapply fourth; eauto|]. split; [apply put_get|]. intros k Hk. unfold put_steps. cbn.
  rewrite nget_nset. now replace (sid =? k) with false by lia.
Qed.
Print Assumptions C80_segment_four.
Example C80_segment_four_ex :
  let s := mkD (set_scripts fmpfile_new [(3, mkScript (lit "Run") [] [] [] demo_steps)]) [] [] in
  exists s', dispatch [17; 5; 3] (mkChunk DataSegment 7 (Some (demo_block 1 71)) None [] (Some 4) None) s = Ok s' /\
    option_map (fun sc => map opcode (sc_steps sc)) (nget (f_scripts (d_file s')) 3) = Some [ISetVariable; ILoop; IExitScript].
Proof. eexists. split; vm_compute; reflexivity. Qed.

(** C80: bytes left over after the last whole step are not always dropped, as they are in segments: from 22 bytes on they are read as a step, and 21 bytes abort. *)
Theorem C80_tail_refuted : exists t21 t22 : list N,
  let s := mkD (set_scripts fmpfile_new [(3, mkScript (lit "Run") [] [] [] [])]) [] [] in
  lenN t21 = 21 /\ lenN t22 = 22 /\
  run_events (ev_inline (mkInline 3 [] t21 [])) [17; 5] s = Panic /\
  (exists s', run_events (ev_inline (mkInline 3 [] t22 [])) [17; 5] s = Ok s' /\
     option_map sc_steps (nget (f_scripts (d_file s')) 3) = Some [mkStep ILoop 1 []]) /\
  build_script 3 [(1, t22)] s = Ok s.
Proof.
  exists (firstn 21 (demo_block 1 71)), (firstn 22 (demo_block 1 71)). repeat split; try (vm_compute; reflexivity). eexists. split; vm_compute; reflexivity.
Qed.
Print Assumptions C80_tail_refuted.
