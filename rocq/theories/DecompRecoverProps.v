(** C23: stored schemas are recovered. *)
From Coq Require Import Ascii String NArith List Bool Lia.
From Verif Require Import Prelude PreludeFacts Utf8 EncodingModel CharConvModel ChunkModel ComponentModel AsmSpec
  DecompModel DecompCalcSpec DecompCalc DecompStream DecompRecoverSpec DecompRecover4 DecompNever.
Import ListNotations.
Local Open Scope N_scope.

(** C23: the components stored in a file, spread over any number of sectors, come back with their names and contents
    under their ids. [order] is the iteration order of a hash map. *)
Theorem stored_schema_recovered : forall order fuel q srcs streams,
  well_formed q -> Forall2 source_back (q_sources q) srcs ->
  concat streams = stored q -> Forall balanced streams -> Forall (fun es => lenN (stream_bytes es) <= 4076) streams ->
  lenN streams + 2 < 2 ^ 32 -> (N.to_nat 4100 + length streams <= fuel)%nat -> order [] = [] ->
  decompile order fuel (file_of streams) =
  Ok (mkFile [] (tables_back q) (relations_back q) (layouts_back q) [] (scripts_back q) (occurrences_back q) srcs []).
Proof. exact schema_recovered. Qed.
Print Assumptions stored_schema_recovered.

Definition demo_qfield (n : list N) : qfield := mkQField (lit "Text") (lit "") n (lit "admin") (lit "me").
Definition demo_schema : qschema :=
  mkQ [(1, lit "Person"); (2, lit "Job")]
      [(2, [(2, demo_qfield (lit "title")); (1, demo_qfield (lit "id"))])]
      [(7, (2, lit "JobLayout"))]
      [(1, lit "P", [2; 3]); (2, lit "J", [1]); (2, lit "J2", [])]
      [(1, (4, 1, 2))]
      [(3, lit "Run")]
      [(5, encode_text (lit "ext") ++ [0; 0], [0; 0; 0; 0; 9] ++ [57; 48] ++ [3; 65; 50] ++ [65; 62; 219] ++ [2; 59; 60])].

Ltac small := first [reflexivity | apply N.ltb_lt; vm_compute; reflexivity | apply N.leb_le; vm_compute; reflexivity].
Ltac text := split; [apply Forall_forall; intros x Hx; vm_compute in Hx; repeat destruct Hx as [<-|Hx]; try contradiction; vm_compute; auto
                    | apply N.leb_le; vm_compute; reflexivity].

Lemma demo_wf : well_formed demo_schema.
Proof.
  assert (ND : forall l : list N, (forall i, nodup N.eq_dec l = i -> i = l) -> NoDup l) by
    (intros l H; rewrite <- (H _ eq_refl); apply NoDup_nodup).
  assert (QF : forall n, short_text n -> Forall short_text
     [qf_type (demo_qfield n); qf_description (demo_qfield n); qf_name (demo_qfield n); qf_account (demo_qfield n); qf_user (demo_qfield n)]).
  { intros n Hn. constructor; [text|]. constructor; [text|]. constructor; [exact Hn|]. constructor; [text|]. constructor; [text|]. constructor. }
  split.
  - split; [apply ND; intros i <-; reflexivity|]. repeat (constructor; [split; [small|text]|]). constructor.
  - split; [apply ND; intros i <-; reflexivity|]. constructor; [|constructor]. split; [right; left; reflexivity|].
    constructor; [split; [small|apply QF; text]|]. constructor; [split; [small|apply QF; text]|]. constructor.
  - split; [apply ND; intros i <-; reflexivity|]. constructor; [|constructor]. split; [small|]. split; [small|text].
  - split; [|small]. repeat (constructor; [split; [small|split; [text|repeat (constructor; [small|]); constructor]]|]). constructor.
  - split; [apply ND; intros i <-; reflexivity|]. constructor; [|constructor]. repeat split; small.
  - split; [apply ND; intros i <-; reflexivity|]. constructor; [|constructor]. split; [small|text].
  - split; [apply ND; intros i <-; reflexivity|]. constructor; [|constructor]. split; [small|].
    split; [vm_compute; repeat constructor|]. split; [small|]. split; [small|]. split; [vm_compute; repeat constructor|]. split; small.
Qed.

Definition demo_source : data_source := mkSource (lit "ext") (mkLocation [99; 106] [58; 100; 46; 46] [97; 102]) [] [].

Example stored_schema_recovered_ex :
  well_formed demo_schema /\ Forall2 source_back (q_sources demo_schema) [(5, demo_source)] /\
  concat [stored demo_schema] = stored demo_schema /\ Forall balanced [stored demo_schema] /\
  Forall (fun es => lenN (stream_bytes es) <= 4076) [stored demo_schema] /\
  tables_back demo_schema =
    [(1, mkTable (lit "Person") [] [] [] false);
     (2, mkTable (lit "Job") [] [] [(1, back_field (demo_qfield (lit "id"))); (2, back_field (demo_qfield (lit "title")))] false)] /\
  relations_back demo_schema = [(1, mkRel 1 [] 1 2 [] 2 CGreater); (2, mkRel 1 [] 0 3 [] 0 CEqual)] /\
  occurrences_back demo_schema =
    [(1, mkOcc (lit "P") 1 [] [] []); (2, mkOcc (lit "J") 2 [] [] []); (3, mkOcc (lit "J2") 2 [] [] [])].
Proof.
  split; [exact demo_wf|]. split.
  { constructor; [|constructor]. exists (lit "ext"), (mkLocation [99; 106] [58; 100; 46; 46] [97; 102]).
    split; [vm_compute; reflexivity|]. split; [|reflexivity]. apply location_inv. vm_compute. reflexivity. }
  split; [apply app_nil_r|]. split; [constructor; [reflexivity|constructor]|]. split; [constructor; [small|constructor]|].
  repeat split; vm_compute; reflexivity.
Qed.

(** C23: no file yields value lists, tests or a name. *)
Theorem value_lists_never_recovered : forall order fuel buf f,
  decompile order fuel buf = Ok f -> f_name f = [] /\ f_value_lists f = [] /\ f_tests f = [].
Proof. exact never_filled. Qed.
Print Assumptions value_lists_never_recovered.
Example value_lists_never_recovered_ex : decompile (fun l => l) (N.to_nat 5000) (file_of [[Enter 3; Leave]]) = Ok fmpfile_new.
Proof.
  rewrite decompile_file; [reflexivity|discriminate| |reflexivity|vm_compute; repeat constructor].
  split; [constructor; [reflexivity|constructor]|]. constructor; [|constructor]. split; [repeat constructor|small].
Qed.

Ltac one_sector :=
  intros order fuel Hf Ho; rewrite decompile_file;
  [ reflexivity | discriminate | split; [constructor; [reflexivity|constructor]|constructor; [|constructor]; split; [|small];
      repeat (constructor; [first [exact I | split; [small|split; [vm_compute; repeat constructor|small]]]|]); constructor]
  | reflexivity | cbn [length]; lia ].

(** C23: with table ids from 128 on the program can abort: here tables 129 and 1. *)
Theorem large_table_ids_refuted : exists ts,
  NoDup (map fst ts) /\ forall order fuel, (N.to_nat 4101 <= fuel)%nat -> order [] = [] ->
  decompile order fuel (file_of [within [3; 16; 5] (flat_map ev_table ts)]) = Panic.
Proof.
  exists [(129, lit "B"); (1, lit "A")]. split; [repeat constructor; cbn; intuition discriminate|]. one_sector.
Qed.
Print Assumptions large_table_ids_refuted.

(** C23: the order matters: when the fields of a table are stored before its name they are lost. *)
Theorem fields_before_tables_refuted : exists t fs n,
  forall order fuel, (N.to_nat 4101 <= fuel)%nat -> order [] = [] ->
  fs <> [] /\
  decompile order fuel (file_of [ev_fields (t, fs) ++ within [3; 16; 5] (ev_table (t, n))]) =
  Ok (mkFile [] [(t, mkTable n [] [] [] false)] [] [] [] [] [] [] []).
Proof.
  exists 1, [(1, demo_qfield (lit "id"))], (lit "A"). intros order fuel Hf Ho. split; [discriminate|]. revert order fuel Hf Ho.
  intros order fuel Hf Ho. rewrite decompile_file.
  - assert (E : run_streams [ev_fields (1, [(1, demo_qfield (lit "id"))]) ++ within [3; 16; 5] (ev_table (1, lit "A"))] (mkD fmpfile_new [] [])
       = Ok (mkD (mkFile [] [(1, mkTable (lit "A") [] [] [] false)] [] [] [] [] [] [] []) [] [])) by (vm_compute; reflexivity).
    rewrite E. cbn [bind d_segments]. rewrite Ho. reflexivity.
  - discriminate.
  - split; [constructor; [reflexivity|constructor]|constructor; [|constructor]; split; [|small]].
    repeat (constructor; [first [exact I | split; [small|split; [vm_compute; repeat constructor|small]]]|]); constructor.
  - reflexivity.
  - cbn [length]. lia.
Qed.
Print Assumptions fields_before_tables_refuted.
