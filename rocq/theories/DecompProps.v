(** C16-C24: reading files. *)
From Coq Require Import Ascii String NArith List Bool Lia Permutation.
From Verif Require Import Prelude PreludeFacts Utf8 EncodingModel EncodingSpec ChunkModel ComponentModel InstrModel
  AsmModel AsmSpec AsmFacts AsmMain AsmLemmas AsmProps DecompModel DecompStream DecompSpec DecompImage DecompChain DecompCalcSpec DecompCalc
  DecompScriptSpec DecompScript.
Import ListNotations.
Local Open Scope N_scope.

Lemma demo_short : short_names demo_file.
Proof. split; repeat constructor; intro H; vm_compute in H; discriminate H. Qed.

(** C16: from the start of the payload of sector 2 with the empty path, reading chunk by chunk covers the sector and is
    back at the empty path at its end. *)
Theorem assembled_directories_balance : forall f,
  fits f -> short_names f -> exists off, walk (image f) 8192 8212 [] off [] /\ 12288 <= off <= 12289.
Proof. exact image_walk. Qed.
Print Assumptions assembled_directories_balance.
Example assembled_directories_balance_ex : fits demo_file /\ short_names demo_file.
Proof. split; [exact demo_fits|exact demo_short]. Qed.

(** C17: whatever was assembled, the decompiler finds nothing in it. *)
Theorem decompiled_assembly_is_empty : forall order fuel f,
  fits f -> short_names f -> (N.to_nat 5000 <= fuel)%nat -> order [] = [] ->
  assemble f = Ok (image f) /\ decompile order fuel (image f) = Ok fmpfile_new.
Proof. intros order fuel f H1 H2 H3 H4. split; [now apply assemble_image|now apply decompile_image]. Qed.
Print Assumptions decompiled_assembly_is_empty.
Example decompiled_assembly_is_empty_ex :
  fits demo_file /\ short_names demo_file /\ lenN (f_tables demo_file) = 2 /\ f_tables fmpfile_new = [] /\
  f_occurrences demo_file <> [] /\ f_occurrences fmpfile_new = [].
Proof. repeat (split; [first [exact demo_fits|exact demo_short|reflexivity|discriminate]|]). reflexivity. Qed.

(** C17: so the round trip through both programs does not give the schema back. *)
Theorem decompile_assemble_refuted : exists f img,
  assemble f = Ok img /\ forall order fuel, (N.to_nat 5000 <= fuel)%nat -> order [] = [] -> decompile order fuel img <> Ok f.
Proof.
  exists demo_file, (image demo_file). split; [apply assemble_image; exact demo_fits|]. intros order fuel H1 H2.
  rewrite decompile_image; auto using demo_fits, demo_short. discriminate.
Qed.
Print Assumptions decompile_assemble_refuted.

(** C18: a result is only produced when the chain of next-pointers from sector 2 reaches 0. *)
Theorem result_needs_chain_end : forall order fuel buf f,
  bytes buf -> decompile order fuel buf = Ok f -> ends buf 2.
Proof. exact decompile_ends. Qed.
Print Assumptions result_needs_chain_end.
Example result_needs_chain_end_ex : ends (image demo_file) 2.
Proof.
  assert (P : forall i n, slice (image demo_file) (4096 * i + 8) (4096 * i + 12) = Ok (be4 n) -> n = be_value (be4 n) ->
    sector_next (image demo_file) i n).
  { intros i n H Hn. exists (be4 n). split; auto. }
  pose proof (assembled_size_and_chain demo_file (image demo_file)) as [_ F]; [apply assemble_image; exact demo_fits|].
  inversion F as [|? ? _ F2]; subst. inversion F2 as [|? ? E2 F3]; subst. inversion F3 as [|? ? E3 F4]; subst.
  inversion F4 as [|? ? E4 _]; subst.
  apply (EndsLater _ 2 3); [discriminate|apply P; auto; reflexivity|].
  apply (EndsLater _ 3 4); [discriminate|apply P; auto; reflexivity|].
  apply (EndsLater _ 4 0); [discriminate|apply P; auto; reflexivity|constructor].
Qed.

(** C18: a cycle: a set of sectors holding sector 2, not 0, and with each sector its successor. *)
Theorem cyclic_chain_gives_no_result : forall buf (C : N -> Prop),
  bytes buf -> C 2 -> (forall i, C i -> i <> 0 /\ forall n, sector_next buf i n -> C n) ->
  forall order fuel f, decompile order fuel buf <> Ok f.
Proof. intros buf C HB H2 HC order fuel f H. apply decompile_ends in H; auto. now apply (closed_never buf C) in H. Qed.
Print Assumptions cyclic_chain_gives_no_result.
Example cyclic_chain_gives_no_result_ex :
  let buf := zeros 8192 ++ zeros 8 ++ be4 2 ++ zeros 4084 in
  forall i, i = 2 -> i <> 0 /\ forall n, sector_next buf i n -> n = 2.
Proof.
  intros buf i ->. split; [discriminate|]. intros n (b & S & ->).
  assert (E : slice buf (4096 * 2 + 8) (4096 * 2 + 12) = Ok (be4 2)).
  { unfold buf. rewrite (app_assoc (zeros 8192)). apply slice_mid; rewrite ?lenN_app, ?lenN_zeros; reflexivity. }
  rewrite E in S. injection S as <-. reflexivity.
Qed.

(** C18: and when it ends, and 0x0F/0xCF are always followed by 0x80, the program stops (with a result or an abort). *)
Theorem chain_end_terminates : forall order buf,
  bytes buf -> no_stuck buf -> ends buf 2 ->
  exists k, forall fuel, (k <= fuel)%nat -> decompile order fuel buf <> NoFuel.
Proof. exact decompile_halts. Qed.
Print Assumptions chain_end_terminates.
Example chain_end_terminates_ex : let buf := zeros 8192 ++ zeros 4096 in bytes buf /\ no_stuck buf /\ ends buf 2.
Proof.
  intros buf.
  assert (Z : forall i x, nthN buf i = Some x -> x = 0).
  { intros i x H. unfold buf, zeros in H. rewrite <- repeat_app in H. unfold nthN in H.
    destruct (_ <? _); [|discriminate]. apply nth_error_In in H. now apply repeat_spec in H. }
  split; [unfold buf; apply bytes_app; split; apply zeros_bytes|].
  split; [intros i [H|H]; apply Z in H; discriminate|].
  apply (EndsLater _ 2 0); [discriminate| |constructor]. exists (zeros 4). split; [|reflexivity].
  unfold buf. change (zeros 4096) with (zeros 8 ++ zeros 4 ++ zeros 4084). rewrite (app_assoc (zeros 8192)).
  apply slice_mid; rewrite ?lenN_app, ?lenN_zeros; reflexivity.
Qed.

(** C18: without the condition on 0x0F the chain may end and the program still runs for ever. *)
Theorem chain_end_terminates_refuted : exists buf,
  bytes buf /\ ends buf 2 /\ forall order fuel, decompile order fuel buf = NoFuel.
Proof. exists stuck_file. split; [exact stuck_file_bytes|]. split; [exact stuck_ends|exact stuck_runs]. Qed.
Print Assumptions chain_end_terminates_refuted.

(** C19: header fields of sector [i]; the payload runs to the end of the file. *)
Theorem sector_header_decoded : forall pre del lvl a b prev next junk payload i,
  lenN pre = 4096 * i -> prev < 2 ^ 32 -> next < 2 ^ 32 -> lvl < 256 -> lenN junk = 8 ->
  let buf := pre ++ [del; lvl; a; b] ++ be4 prev ++ be4 next ++ junk ++ payload in
  (rest <- slice buf (4096 * i) (lenN buf) ;; get_sector rest) = Ok (mkSector (negb (del =? 0)) lvl prev next payload).
Proof. exact header_layout. Qed.
Print Assumptions sector_header_decoded.
Example sector_header_decoded_ex :
  get_sector ([1; 7; 9; 9] ++ [0; 0; 1; 2] ++ [0; 0; 0; 3] ++ repeat 255 8 ++ [5; 6]) = Ok (mkSector true 7 258 3 [5; 6]).
Proof. reflexivity. Qed.

Theorem sector_header_short : forall l, lenN l < 20 -> get_sector l = Panic.
Proof. exact header_short. Qed.
Print Assumptions sector_header_short.
Example sector_header_short_ex : lenN (repeat 0 19) < 20 /\ get_sector (repeat 0 20) <> Panic.
Proof. split; [reflexivity|discriminate]. Qed.

(** C19: the payload is not the rest of the 4096 byte sector. *)
Theorem sector_payload_bounded_refuted : exists buf sec,
  get_sector buf = Ok sec /\ lenN (s_payload sec) = 5000.
Proof.
  set (buf := [] ++ [0; 0; 0; 0] ++ be4 0 ++ be4 0 ++ zeros 8 ++ zeros 5000).
  exists buf, (mkSector (negb (0 =? 0)) 0 0 0 (zeros 5000)). split; [|apply lenN_zeros].
  assert (H : (rest <- slice buf (4096 * 0) (lenN buf) ;; get_sector rest) = Ok (mkSector (negb (0 =? 0)) 0 0 0 (zeros 5000))).
  { apply header_layout; try apply lenN_zeros; reflexivity. }
  replace (slice buf (4096 * 0) (lenN buf)) with (Ok buf) in H; [exact H|].
  symmetry. pose proof (slice_mid [] buf [] 0 (lenN buf)) as X. rewrite app_nil_r in X. now apply X.
Qed.
Print Assumptions sector_payload_bounded_refuted.

(** C20: the iteration order of the hash map of scripts does not matter for the whole program. *)
Theorem script_order_irrelevant : forall o1 o2 fuel buf,
  (forall l, Permutation (o1 l) l) -> (forall l, Permutation (o2 l) l) -> decompile o1 fuel buf = decompile o2 fuel buf.
Proof. exact order_irrelevant. Qed.
Print Assumptions script_order_irrelevant.
Example script_order_irrelevant_ex : forall l : list (N * list (N * list N)), Permutation (rev l) l /\ Permutation l l.
Proof. intros l. split; [apply Permutation_sym, Permutation_rev|reflexivity]. Qed.

(** C20: two sequences of segments which agree on what arrived last under each index leave the same segments, in
    increasing order. *)
Theorem segments_independent_of_arrival : forall x l arr l' arr' s,
  Forall2 (fun ch e => is_segment ch (fst e) (snd e)) l arr -> Forall2 (fun ch e => is_segment ch (fst e) (snd e)) l' arr' ->
  nget (d_segments s) x = Some [] -> (forall i, last_arrival arr i = last_arrival arr' i) ->
  exists s1 s2 segs, arrive x l s = Ok s1 /\ arrive x l' s = Ok s2 /\
    nget (d_segments s1) x = Some segs /\ nget (d_segments s2) x = Some segs /\
    d_file s1 = d_file s /\ d_file s2 = d_file s /\
    increasing (keys segs) /\ forall i, nget segs i = last_arrival arr i.
Proof. exact arrivals_determined. Qed.
Print Assumptions segments_independent_of_arrival.
Definition demo_segment (n : N) (d : list N) : chunk := mkChunk DataSegment 7 (Some d) None [17; 5; 3; 4] (Some n) None.
Example segments_independent_of_arrival_ex :
  let s := mkD fmpfile_new [(3, [])] [] in
  arrive 3 [demo_segment 2 [20]; demo_segment 1 [9]; demo_segment 1 [10]] s = Ok (mkD fmpfile_new [(3, [(1, [10]); (2, [20])])] []) /\
  arrive 3 [demo_segment 1 [10]; demo_segment 2 [20]] s = Ok (mkD fmpfile_new [(3, [(1, [10]); (2, [20])])] []).
Proof. split; reflexivity. Qed.

(** C20: the steps of a script are those stored in the joined segments, 28 bytes each, in this order. *)
Theorem script_steps_recovered : forall sid segs s sc bs os tail,
  nget (f_scripts (d_file s)) sid = Some sc ->
  concat (map snd segs) = concat bs ++ tail -> lenN tail < 28 ->
  Forall2 (block_step (names_of (f_scripts (d_file s)))) bs os ->
  exists s', build_script sid segs s = Ok s' /\
    nget (f_scripts (d_file s')) sid = Some (script_with sc (sc_steps sc ++ present os)) /\
    forall k, k <> sid -> nget (f_scripts (d_file s')) k = nget (f_scripts (d_file s)) k.
Proof. exact steps_recovered. Qed.
Print Assumptions script_steps_recovered.
Definition demo_block (i op : N) : list N := [2; 9; i] ++ repeat 0 18 ++ [op] ++ repeat 0 6.
Example script_steps_recovered_ex :
  (* the boundary between two segments falls inside a step *)
  let b := demo_block 1 71 ++ demo_block 2 73 ++ [1; 2; 3] in
  let s := mkD (set_scripts fmpfile_new [(5, mkScript (lit "S") [] [] [] [])]) [] [] in
  exists s', build_script 5 [(1, firstn 40 b); (2, skipn 40 b)] s = Ok s' /\
    option_map (fun sc => map (fun st => (opcode st, step_index st)) (sc_steps sc)) (nget (f_scripts (d_file s')) 5) =
      Some [(ILoop, 1); (IEndLoop, 2)].
Proof. eexists. split; vm_compute; reflexivity. Qed.

(** C21: the step stored in a 28 byte block: the step with the number at byte 21 (254 stands for 255). *)
Theorem step_decoded : forall scripts block o,
  block_step (fun k => option_map sc_name (nget scripts k)) block o -> decode_step scripts block = Ok o.
Proof. exact decode_block. Qed.
Print Assumptions step_decoded.
Example step_decoded_ex : block_step (fun _ => None) (demo_block 1 254) (Some (mkStep IAssert 1 [])).
Proof.
  exists 2, 9, [1], (repeat 0 18 ++ [254] ++ repeat 0 6), 254. split; [reflexivity|]. split; [reflexivity|]. split; [reflexivity|].
  split; [reflexivity|]. split; [right; split; reflexivity|]. split; reflexivity.
Qed.

Theorem step_number_of_result : forall scripts block o,
  decode_step scripts block = Ok o ->
  exists op, nthN block 21 = Some op /\
    match o with Some st => step_number op (opcode st) | None => op < 254 /\ forall i, ~ step_number op i end.
Proof. exact decode_inv. Qed.
Print Assumptions step_number_of_result.
Example step_number_of_result_ex : decode_step [] (demo_block 1 71) = Ok (Some (mkStep ILoop 1 [])) /\
  decode_step [] (demo_block 1 15) = Ok None.
Proof. split; reflexivity. Qed.

Theorem opcode_255_aborts : forall scripts block, nthN block 21 = Some 255 -> decode_step scripts block = Panic.
Proof. intros scripts block H. unfold decode_step, at_. rewrite H. reflexivity. Qed.
Print Assumptions opcode_255_aborts.
Example opcode_255_aborts_ex : nthN (demo_block 1 255) 21 = Some 255.
Proof. reflexivity. Qed.

(** C22 *)
Theorem calculation_rendered : forall ts,
  Forall token_ok ts -> decompile_calculation (flat_map token_bytes ts) = Ok (flat_map token_text ts).
Proof. exact calc_roundtrip. Qed.
Print Assumptions calculation_rendered.
Example calculation_rendered_ex :
  let ts := [CVar (lit "$x"); CPlain 0x0c (lit " "); CPlain 0x25 (lit "+"); CNumber (repeat 0 8) 42 (repeat 0 10); CText (lit "a b")] in
  Forall token_ok ts /\ flat_map token_text ts = lit "$x +42""a b""".
Proof.
  split; [|reflexivity].
  constructor; [split; [repeat constructor|intro H; vm_compute in H; discriminate H]|].
  constructor; [cbn; tauto|]. constructor; [cbn; tauto|].
  constructor; [split; [reflexivity|split; reflexivity]|].
  constructor; [split; [repeat constructor|intro H; vm_compute in H; discriminate H]|]. constructor.
Qed.

Theorem truncated_calculation_aborts : forall ts t p,
  Forall token_ok ts -> token_ok t -> cut_short t p -> decompile_calculation (flat_map token_bytes ts ++ p) = Panic.
Proof. exact calc_truncated. Qed.
Print Assumptions truncated_calculation_aborts.
Example truncated_calculation_aborts_ex : token_ok (CVar (lit "$x")) /\ cut_short (CVar (lit "$x")) [0x1a; 2; 126].
Proof.
  split; [split; [repeat constructor|intro H; vm_compute in H; discriminate H]|].
  split; [discriminate|]. split; [|exact I]. exists [34]. split; [discriminate|reflexivity].
Qed.

(** C22: literal text outside ASCII is not given back: each UTF-8 byte becomes a character. *)
Theorem calculation_text_refuted : exists s,
  is_str s /\ decompile_calculation (0x13 :: lenN (utf8 s) :: map (fun c => N.lxor c 0x5A) (utf8 s)) <> Ok ([34] ++ s ++ [34]).
Proof. exists [233]. split; [apply Forall_cons; [vm_compute; auto|constructor]|]. vm_compute. discriminate. Qed.
Print Assumptions calculation_text_refuted.

(** C24 *)
Theorem location_exact : forall bs,
  (forall loc, located bs loc <-> location_from_bytes bs = Ok loc) /\
  ((forall loc, ~ located bs loc) -> location_from_bytes bs = Panic).
Proof.
  intros bs. split; [intros loc; split; [apply location_found|apply location_inv]|].
  intros H. destruct (location_from_bytes bs) eqn:E; auto.
  - apply location_inv in E. now apply H in E.
  - now apply nf_location in E.
Qed.
Print Assumptions location_exact.
Example location_exact_ex :
  location_from_bytes ([0; 0; 0; 0; 9] ++ [57; 48] ++ [3; 65; 50] ++ [65; 62; 219] ++ [2; 59; 60] ++ [7]) =
    Ok (mkLocation [99; 106] [58; 100; 46; 46] [97; 102]).
Proof. vm_compute. reflexivity. Qed.

Theorem location_without_marker : forall bs, (forall x y, bs <> x ++ [65; 50] ++ y) -> location_from_bytes bs = Panic.
Proof.
  intros bs H. destruct (location_exact bs) as [_ P]. apply P. intros loc (head & t0 & ty & path & file & rest & E & _).
  apply (H (head ++ [t0] ++ ty ++ [lenN path]) (path ++ [lenN file] ++ file ++ rest)). rewrite E, <- !app_assoc. reflexivity.
Qed.
Print Assumptions location_without_marker.
Example location_without_marker_ex : location_from_bytes (repeat 65 20) = Panic.
Proof. reflexivity. Qed.
