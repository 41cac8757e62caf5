(** Model of /repo/src/component.rs and /repo/src/file.rs.

    Derived traits (Debug, Clone, Serialize, Deserialize) have no counterpart. *)
From Coq Require Import NArith List Bool.
From Verif Require Import Prelude EncodingModel InstrModel.
Import ListNotations.
Local Open Scope N_scope.

(** [BTreeMap::insert] with numeric keys (the fields of component.rs:68): the list is kept sorted by key, which is the iteration order. *)
Fixpoint bset {V} (m : list (N * V)) (k : N) (v : V) : list (N * V) :=
  match m with
  | [] => [(k, v)]
  | (k', v') :: m' =>
    if k =? k' then (k, v) :: m'
    else if k <? k' then (k, v) :: m
    else (k', v') :: bset m' k v
  end.

(** src/component.rs:19-40 [FMComponentField] and [new]. *)
Record field := mkField {
  fl_data_type : list N;
  fl_description : list N;
  fl_name : list N;
  fl_type : list N;
  fl_account : list N;
  fl_user : list N;
}.
Definition field_new : field := mkField [] [] [] [] [] [].

(** src/component.rs:93-113 [FMComponentScript] and [new]. *)
Record script := mkScript {
  sc_name : list N;
  sc_account : list N;
  sc_user : list N;
  sc_args : list (list N);
  sc_steps : list step;
}.
Definition script_new : script := mkScript [] [] [] [] [].

(** src/component.rs:42-61 [FMComponentTest] and [new]. *)
Record test := mkTest {
  te_name : list N;
  te_script : script;
  te_account : list N;
  te_user : list N;
  te_assertions : list (list N);
}.
Definition test_new : test := mkTest [] script_new [] [] [].

(** src/component.rs:63-91 [FMComponentTable], [new] and [new_init]. *)
Record table := mkTable {
  tb_name : list N;
  tb_account : list N;
  tb_user : list N;
  tb_fields : list (N * field);   (* BTreeMap *)
  tb_init : bool;
}.
Definition table_new : table := mkTable [] [] [] [] false.
Definition table_new_init : table := mkTable [] [] [] [] true.

(** src/component.rs:115-134 [FMComponentTableOccurence] and [new]. *)
Record occurrence := mkOcc {
  oc_name : list N;
  oc_table : N;
  oc_table_name : list N;
  oc_account : list N;
  oc_user : list N;
}.
Definition occurrence_new : occurrence := mkOcc [] 0 [] [] [].

(** src/component.rs:136-145 [RelationComparison]. *)
Inductive comparison_kind := CEqual | CNotEqual | CLess | CLessEqual | CGreater | CGreaterEqual | CCartesian.

(** src/component.rs:147-171 [FMComponentRelationship] and [new]. *)
Record relationship := mkRel {
  rl_table1 : N;
  rl_table1_name : list N;
  rl_field1 : N;
  rl_table2 : N;
  rl_table2_name : list N;
  rl_field2 : N;
  rl_cmp : comparison_kind;
}.
Definition relationship_new : relationship := mkRel 0 [] 0 0 [] 0 CEqual.

(** src/component.rs:173-190 [FMComponentLayout] and [new]. *)
Record layout := mkLayout {
  ly_name : list N;
  ly_occurrence : N;
  ly_account : list N;
  ly_user : list N;
}.
Definition layout_new : layout := mkLayout [] 0 [] [].

(** src/component.rs:192-207 [FMComponentValueList] and [new]. *)
Record value_list := mkValueList {
  vl_name : list N;
  vl_account : list N;
  vl_user : list N;
}.
Definition value_list_new : value_list := mkValueList [] [] [].

(** src/component.rs:209-223 [SourceFileLocation] and [new]. *)
Record location := mkLocation {
  lo_type : list N;
  lo_path : list N;
  lo_filename : list N;
}.
Definition location_new : location := mkLocation [] [] [].

(** component.rs:230: [body.windows(2).position(|w| w[0] == 65 && w[1] == 50)]. *)
Fixpoint find_marker (l : list N) (i : N) : option N :=
  match l with
  | a :: (b :: _) as l' => if (a =? 65) && (b =? 50) then Some i else find_marker l' (i + 1)
  | _ => None
  end.

(** src/component.rs:236-244, the substitution applied to each path byte. *)
Definition path_byte (b : N) : list N :=
  if b =? 50 then []
  else if b =? 65 then [96]
  else if b =? 218 then [117]
  else if b =? 219 then [116; 116]
  else [b].

(** src/component.rs:225-258 [SourceFileLocation::from_bytes].
    The bytes [head] are taken and not used; taking them panics on fewer than four bytes. *)
Definition location_from_bytes (bs : list N) : outcome location :=
  _ <- slice bs 0 4 ;;
  body <- slice bs 4 (lenN bs) ;;
  path_start <- subU (match find_marker body 0 with Some i => i | None => 0 end) 1 ;;
  path_len <- at_ body path_start ;;
  path_bytes <- slice body (path_start + 3) (path_start + 3 + path_len) ;;
  let path := flat_map path_byte path_bytes in
  let path_string := fm_string_decrypt path in
  let file_start := path_start + 3 + path_len + 1 in
  file_len <- at_ body (file_start - 1) ;;
  fb <- slice body file_start (file_start + file_len) ;;
  let filename := fm_string_decrypt fb in
  tb <- slice body 1 path_start ;;
  Ok (mkLocation (fm_string_decrypt tb) path_string filename).

(** src/component.rs:260-278 [FMComponentDataSource] and [new]. *)
Record data_source := mkSource {
  ds_name : list N;
  ds_location : location;
  ds_account : list N;
  ds_user : list N;
}.
Definition data_source_new : data_source := mkSource [] location_new [] [].

(** src/file.rs:7-34 [FmpFile] and [new]. Hash maps are association lists. *)
Record fmpfile := mkFile {
  f_name : list N;
  f_tables : list (N * table);
  f_relationships : list (N * relationship);
  f_layouts : list (N * layout);
  f_value_lists : list (N * value_list);
  f_scripts : list (N * script);
  f_occurrences : list (N * occurrence);
  f_sources : list (N * data_source);
  f_tests : list test;
}.
Definition fmpfile_new : fmpfile := mkFile [] [] [] [] [] [] [] [] [].
