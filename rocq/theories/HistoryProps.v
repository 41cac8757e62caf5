(** C83: what is recovered from an arbitrary file. *)
From Coq Require Import Ascii String NArith List Bool Lia.
From Verif Require Import Prelude PreludeFacts Utf8 EncodingModel CharConvModel ChunkModel InstrModel ComponentModel AsmSpec DecompModel DecompSpec
  DecompStream DecompRecoverSpec DecompRecover4 DecompRecoverProps HistorySpec History History2 History3.
Import ListNotations.
Local Open Scope N_scope.

(** C83: a file that can be decompiled has one sequence of records, and the result is what these records say. *)
Theorem C83_any_file : forall order fuel buf f, bytes buf -> decompile order fuel buf = Ok f ->
  exists h, file_history buf 2 h /\ (forall h', file_history buf 2 h' -> h' = h) /\ recovered h f.
Proof.
  intros order fuel buf f HB D. destruct (decompile_history _ _ _ _ HB D) as (h & F & R). exists h. split; [exact F|]. split; [|exact R].
  intros h' F'. exact (history_det _ _ _ F' _ F).
Qed.
Print Assumptions C83_any_file.

(** A file without tables: the records of the layout in order, its directory entered twice. *)
Definition demo_layout : list event := within [4; 1; 7] [Enter 5; Put 2 [1; 130]; text_ev 16 (lit "A"); Leave; Enter 5; text_ev 16 (lit "B"); text_ev 16 (lit "C"); Leave].
Example C83_any_file_ex : bytes (file_of [demo_layout]) /\
  (forall order fuel, (N.to_nat 4101 <= fuel)%nat -> order [] = [] ->
   decompile order fuel (file_of [demo_layout]) = Ok (mkFile [] [] [] [(5, mkLayout (lit "C") 0 [] [])] [] [] [] [] [])).
Proof.
  split.
  - apply Forall_forall. intros x Hx. apply N.ltb_lt.
    assert (F : forallb (fun x => x <? 256) (file_of [demo_layout]) = true) by (vm_compute; reflexivity).
    rewrite forallb_forall in F. exact (F x Hx).
  - intros order fuel Hf Ho. rewrite decompile_file.
    + assert (E : run_streams [demo_layout] (mkD fmpfile_new [] []) = Ok (mkD (mkFile [] [] [] [(5, mkLayout (lit "C") 0 [] [])] [] [] [] [] []) [] []))
        by (vm_compute; reflexivity).
      rewrite E. cbn [bind d_segments]. rewrite Ho. reflexivity.
    + discriminate.
    + split; [constructor; [reflexivity|constructor]|constructor; [|constructor]; split; [|small]].
      repeat (constructor; [first [exact I | split; [small|split; [vm_compute; repeat constructor|small]]]|]); constructor.
    + reflexivity.
    + cbn [length]. lia.
Qed.

(** What records say about occurrences, relations, fields and data sources. *)
Definition put_at (p : list N) (k : N) (d : list N) : entry := (p, mkChunk RefSimple 6 (Some d) None p None (Some k)).
Definition item_at (p d : list N) : entry := (p, mkChunk DataSimple 0x1b (Some d) None p None None).
Definition enter_at (p : list N) : entry := (p, mkChunk PathPush 0x20 (Some [last p 0]) None p None None).
Example C83_any_file_ex2 :
  let o := [3; 17; 5; 0] in
  let h := [put_at o 2 [0; 0; 0; 0; 0; 0; 9]; put_at o 16 (fm_string_encrypt (lit "P")); item_at (o ++ [251]) [0; 0; 2];
            put_at o 2 [0; 0; 0; 0; 0; 0; 8]; item_at (o ++ [251]) [0; 0; 1]; put_at o 16 (fm_string_encrypt (lit "Q"));
            put_at [3; 251; 5; 1; 3] 1 [4; 0; 252; 3; 0; 252; 7];
            item_at [32; 1; 1] (encode_text (lit "src") ++ [0; 0]); enter_at [32; 5; 6];
            enter_at [129; 3; 5; 4]; put_at [129; 3; 5; 4] 16 (fm_string_encrypt (lit "f"))] in
  occurrence_of 1 h = Some (mkOcc (lit "P") 9 [] [] []) /\ occurrence_of 2 h = Some (mkOcc (lit "Q") 8 [] [] []) /\ occurrence_of 3 h = None /\ relation_of 1 h = Some (mkRel 1 [] 3 2 [] 7 CGreater) /\ relation_of 2 h = None /\ source_of 6 h = Some (mkSource (lit "src") (mkLocation [] [] []) [] []) /\ announced 1 h = true /\ table_name_of 1 h = [] /\ field_of 1 4 h = Some (mkField [] [] (lit "f") [] [] []) /\ field_of 1 5 h = None.
Proof. vm_compute. repeat split. Qed.

(** C83: only the records in the directories of a layout, the names of a script, the records in the directories of a table and its fields matter
    for it. *)
Theorem C83_own_directories : forall order fuel buf f order' fuel' buf' f' h h', bytes buf -> bytes buf' ->
  decompile order fuel buf = Ok f -> decompile order' fuel' buf' = Ok f' -> file_history buf 2 h -> file_history buf' 2 h' ->
  (forall k, filter (layout_here k) h = filter (layout_here k) h' -> nget (f_layouts f) k = nget (f_layouts f') k) /\
  (forall k, filter (names_script k) h = filter (names_script k) h' -> option_map sc_name (nget (f_scripts f) k) = option_map sc_name (nget (f_scripts f') k)) /\
  (forall t, announced (t + 128) h = false -> announced (t + 128) h' = false -> filter (own t) h = filter (own t) h' ->
     match nget (f_tables f) t, nget (f_tables f') t with
     | Some tb, Some tb' => tb_name tb = tb_name tb' /\ forall y, nget (tb_fields tb) y = nget (tb_fields tb') y
     | None, None => True
     | _, _ => False
     end).
Proof. exact own_directories. Qed.
Print Assumptions C83_own_directories.
(** Two histories that differ elsewhere. *)
Definition said (p : list N) (k : N) (s : list N) : entry := (p, mkChunk RefSimple 6 (Some (fm_string_encrypt s)) None p None (Some k)).
Definition entered (p : list N) : entry := (p, mkChunk PathPush 0x20 (Some [1]) None p None None).
Example C83_own_directories_ex :
  let h := [entered [4; 1; 7; 5]; said [4; 1; 7; 5] 16 (lit "A"); said [17; 1; 1; 2] 16 (lit "S"); entered [3; 16; 5; 129]; said [3; 16; 5; 129] 16 (lit "T")] in
  let h' := [entered [3; 16; 5; 129]; entered [4; 1; 7; 6]; said [3; 16; 5; 129] 16 (lit "T"); said [4; 1; 7; 6] 16 (lit "Z"); entered [4; 1; 7; 5]; said [4; 1; 7; 5] 16 (lit "A");
             said [17; 1; 4; 2] 16 (lit "R")] in
  filter (layout_here 5) h = filter (layout_here 5) h' /\ filter (own 1) h = filter (own 1) h' /\
  layout_of 5 h = Some (mkLayout (lit "A") 0 [] []) /\ layout_of 5 h' = layout_of 5 h /\ table_name_of 1 h' = lit "T" /\
  announced 1 h' = true /\ announced 129 h' = false /\ script_name_of 2 h = Some (lit "S") /\ script_name_of 2 h' = Some (lit "R").
Proof. vm_compute. repeat split. Qed.

Ltac witness E :=
  intros order fuel Hf Ho; rewrite decompile_file;
  [ rewrite E; cbn [bind d_segments]; rewrite Ho; reflexivity | discriminate
  | split; [constructor; [reflexivity|constructor]|constructor; [|constructor]; split; [|small];
      repeat (constructor; [first [exact I | split; [small|split; [vm_compute; repeat constructor|small]] | split; [vm_compute; repeat constructor|split; small]]|]); constructor]
  | reflexivity | cbn [length]; lia ].

(** C83: that a layout keeps its name when a directory below it follows is false. *)
Theorem C83_layout_kept_refuted : exists es k name, In (text_ev 16 name) es /\ name <> [] /\
  forall order fuel, (N.to_nat 4101 <= fuel)%nat -> order [] = [] ->
  decompile order fuel (file_of [within [4; 1; 7; k] es]) = Ok (mkFile [] [] [] [(k, mkLayout [] 0 [] [])] [] [] [] [] []).
Proof.
  exists [text_ev 16 (lit "A"); Enter 9; Leave], 5, (lit "A"). split; [left; reflexivity|]. split; [discriminate|].
  assert (E : run_streams [within [4; 1; 7; 5] [text_ev 16 (lit "A"); Enter 9; Leave]] (mkD fmpfile_new [] []) =
    Ok (mkD (mkFile [] [] [] [(5, mkLayout [] 0 [] [])] [] [] [] [] []) [] [])) by (vm_compute; reflexivity).
  witness E.
Qed.
Print Assumptions C83_layout_kept_refuted.

(** C83: that the data sources get the names in their order is false: a directory below the first source takes the name of the second, which is
    then missing. *)
Definition source_item (s : list N) : event := Item (encode_text s ++ [0; 0]).
Theorem C83_source_names_refuted : exists es,
  es = within [32; 1; 1] [source_item (lit "one"); source_item (lit "two")] ++ within [32; 5] [Enter 1; Enter 7; Leave; Leave; Enter 2; Leave] /\
  forall order fuel, (N.to_nat 4101 <= fuel)%nat -> order [] = [] ->
  decompile order fuel (file_of [es]) =
  Ok (mkFile [] [] [] [] [] [] [] [(1, mkSource (lit "one") (mkLocation [] [] []) [] []); (7, mkSource (lit "two") (mkLocation [] [] []) [] [])] []).
Proof.
  exists (within [32; 1; 1] [source_item (lit "one"); source_item (lit "two")] ++ within [32; 5] [Enter 1; Enter 7; Leave; Leave; Enter 2; Leave]).
  split; [reflexivity|].
  assert (E : run_streams [within [32; 1; 1] [source_item (lit "one"); source_item (lit "two")] ++ within [32; 5] [Enter 1; Enter 7; Leave; Leave; Enter 2; Leave]] (mkD fmpfile_new [] []) =
    Ok (mkD (mkFile [] [] [] [] [] [] [] [(1, mkSource (lit "one") (mkLocation [] [] []) [] []); (7, mkSource (lit "two") (mkLocation [] [] []) [] [])] []) [] [])) by (vm_compute; reflexivity).
  witness E.
Qed.
Print Assumptions C83_source_names_refuted.

(** C83: that a data source comes back under the number of its directory is false from 128 on: source 200 comes back as 64584. *)
Theorem C83_large_source_refuted : exists k k' es, k <> k' /\
  es = within [32; 1; 1] [source_item (lit "one")] ++ within [32; 5] [Enter k; Leave] /\
  forall order fuel, (N.to_nat 4101 <= fuel)%nat -> order [] = [] ->
  decompile order fuel (file_of [es]) = Ok (mkFile [] [] [] [] [] [] [] [(k', mkSource (lit "one") (mkLocation [] [] []) [] [])] []).
Proof.
  exists 200, 64584, (within [32; 1; 1] [source_item (lit "one")] ++ within [32; 5] [Enter 200; Leave]). split; [discriminate|]. split; [reflexivity|].
  assert (E : run_streams [within [32; 1; 1] [source_item (lit "one")] ++ within [32; 5] [Enter 200; Leave]] (mkD fmpfile_new [] []) =
    Ok (mkD (mkFile [] [] [] [] [] [] [] [(64584, mkSource (lit "one") (mkLocation [] [] []) [] [])] []) [] [])) by (vm_compute; reflexivity).
  witness E.
Qed.
Print Assumptions C83_large_source_refuted.
