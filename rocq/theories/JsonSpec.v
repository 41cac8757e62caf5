(** JSON (RFC 8259), and what the JSON of a schema says.  Independent of how it is printed. *)
From Coq Require Import Ascii String NArith List Bool.
From Verif Require Import Prelude Utf8 InstrModel ComponentModel JsonModel.
Import ListNotations.
Local Open Scope N_scope.

(** ** Texts *)

Definition is_ws (c : N) : Prop := c = 32 \/ c = 9 \/ c = 10 \/ c = 13.
Definition ws (s : list N) : Prop := Forall is_ws s.

Definition digit (c : N) : Prop := 48 <= c <= 57.
Definition digits1 (s : list N) : Prop := s <> [] /\ Forall digit s.

(** [int]: a zero, or digits that do not begin with one. *)
Definition int_part (s : list N) : Prop := digits1 s /\ (forall r, s = 48 :: r -> r = []).
Definition frac_part (s : list N) : Prop := s = [] \/ exists ds, s = 46 :: ds /\ digits1 ds.
Definition exp_part (s : list N) : Prop :=
  s = [] \/ exists e sign ds, s = e :: sign ++ ds /\ (e = 101 \/ e = 69) /\ (sign = [] \/ sign = [43] \/ sign = [45]) /\ digits1 ds.
Definition numeral (s : list N) : Prop :=
  exists sign i f e, s = sign ++ i ++ f ++ e /\ (sign = [] \/ sign = [45]) /\ int_part i /\ frac_part f /\ exp_part e.

Inductive hex_digit : N -> N -> Prop :=
| HexDigit : forall c, 48 <= c <= 57 -> hex_digit c (c - 48)
| HexUpper : forall c, 65 <= c <= 70 -> hex_digit c (c - 55)
| HexLower : forall c, 97 <= c <= 102 -> hex_digit c (c - 87).
Definition hex4 (s : list N) (n : N) : Prop :=
  exists a b c d x y z w, s = [a; b; c; d] /\ hex_digit a x /\ hex_digit b y /\ hex_digit c z /\ hex_digit d w /\ n = x * 4096 + y * 256 + z * 16 + w.

(** The characters between the quotation marks, and the text they stand for.  A lone surrogate stands for no text. *)
Inductive chars : list N -> list N -> Prop :=
| ChEnd : chars [] []
| ChPlain : forall c us s, 32 <= c < 0x110000 -> c <> 34 -> c <> 92 -> chars us s -> chars (c :: us) (c :: s)
| ChEscape : forall e c us s, In (e, c) [(34, 34); (92, 92); (47, 47); (98, 8); (102, 12); (110, 10); (114, 13); (116, 9)] -> chars us s -> chars (92 :: e :: us) (c :: s)
| ChUnicode : forall h c us s, hex4 h c -> ~ 0xD800 <= c < 0xE000 -> chars us s -> chars (92 :: 117 :: h ++ us) (c :: s)
| ChPair : forall h1 h2 a b us s, hex4 h1 a -> hex4 h2 b -> 0xD800 <= a < 0xDC00 -> 0xDC00 <= b < 0xE000 -> chars us s ->
    chars (92 :: 117 :: h1 ++ 92 :: 117 :: h2 ++ us) (0x10000 + (a - 0xD800) * 1024 + (b - 0xDC00) :: s).
Definition string_text (us s : list N) : Prop := exists body, us = 34 :: body ++ [34] /\ chars body s.

Inductive value_text : list N -> json -> Prop :=
| VtNull : value_text (lit "null") JNull
| VtTrue : value_text (lit "true") (JBool true)
| VtFalse : value_text (lit "false") (JBool false)
| VtNumber : forall s, numeral s -> value_text s (JNumber s)
| VtString : forall us s, string_text us s -> value_text us (JString s)
| VtNoElements : forall w, ws w -> value_text (91 :: w ++ [93]) (JArray [])
| VtArray : forall us l, elements us l -> value_text (91 :: us ++ [93]) (JArray l)
| VtNoMembers : forall w, ws w -> value_text (123 :: w ++ [125]) (JObject [])
| VtObject : forall us l, members us l -> value_text (123 :: us ++ [125]) (JObject l)
with elements : list N -> list json -> Prop :=
| ElLast : forall w1 us v w2, ws w1 -> value_text us v -> ws w2 -> elements (w1 ++ us ++ w2) [v]
| ElMore : forall w1 us v w2 rest l, ws w1 -> value_text us v -> ws w2 -> elements rest l -> elements (w1 ++ us ++ w2 ++ 44 :: rest) (v :: l)
with members : list N -> list (list N * json) -> Prop :=
| MeLast : forall w1 k name w2 w3 us v w4, ws w1 -> string_text k name -> ws w2 -> ws w3 -> value_text us v -> ws w4 ->
    members (w1 ++ k ++ w2 ++ 58 :: w3 ++ us ++ w4) [(name, v)]
| MeMore : forall w1 k name w2 w3 us v w4 rest l, ws w1 -> string_text k name -> ws w2 -> ws w3 -> value_text us v -> ws w4 -> members rest l ->
    members (w1 ++ k ++ w2 ++ 58 :: w3 ++ us ++ w4 ++ 44 :: rest) ((name, v) :: l).

Definition json_text (us : list N) (v : json) : Prop := exists w1 t w2, us = w1 ++ t ++ w2 /\ ws w1 /\ value_text t v /\ ws w2.

(** No object has two members with the same name. *)
Inductive names_differ : json -> Prop :=
| NdNull : names_differ JNull
| NdBool : forall b, names_differ (JBool b)
| NdNumber : forall d, names_differ (JNumber d)
| NdString : forall s, names_differ (JString s)
| NdArray : forall l, (forall v, In v l -> names_differ v) -> names_differ (JArray l)
| NdObject : forall l, NoDup (map fst l) -> (forall n v, In (n, v) l -> names_differ v) -> names_differ (JObject l).

(** ** What the value says about the components *)

(** The member of an object with a given name. *)
Inductive member : json -> string -> json -> Prop :=
| Member : forall before k v after, ~ In (lit k) (map fst before) -> member (JObject (before ++ (lit k, v) :: after)) k v.

(** Decimal digits without leading zeros, and their number. *)
Fixpoint digits_value (acc : N) (s : list N) : N := match s with [] => acc | c :: s => digits_value (10 * acc + (c - 48)) s end.
Definition says_number (s : list N) (n : N) : Prop := int_part s /\ digits_value 0 s = n.

Definition has_text (v : json) (k : string) (s : list N) : Prop := member v k (JString s).
Definition has_number (v : json) (k : string) (n : N) : Prop := exists s, member v k (JNumber s) /\ says_number s n.
Definition has_texts (v : json) (k : string) (l : list (list N)) : Prop := member v k (JArray (map JString l)).
Definition has_list {A} (says : json -> A -> Prop) (v : json) (k : string) (l : list A) : Prop :=
  exists vs, member v k (JArray vs) /\ Forall2 says vs l.
(** A map: its keys in decimal. *)
Definition has_map {A} (says : json -> A -> Prop) (v : json) (k : string) (m : list (N * A)) : Prop :=
  exists ms, member v k (JObject ms) /\ Forall2 (fun e p => says_number (fst e) (fst p) /\ says (snd e) (snd p)) ms m.

Local Open Scope string_scope.
Definition says_step (v : json) (st : step) : Prop :=
  has_text v "opcode" (instr_name (opcode st)) /\ has_number v "index" (step_index st) /\ has_texts v "switches" (switches st).
Definition says_field (v : json) (f : field) : Prop :=
  has_text v "data_type" (fl_data_type f) /\ has_text v "field_description" (fl_description f) /\ has_text v "field_name" (fl_name f) /\
  has_text v "field_type" (fl_type f) /\ has_text v "created_by_account" (fl_account f) /\ has_text v "created_by_user" (fl_user f).
Definition says_script (v : json) (s : script) : Prop :=
  has_text v "script_name" (sc_name s) /\ has_text v "created_by_account" (sc_account s) /\ has_text v "create_by_user" (sc_user s) /\
  has_texts v "arguments" (sc_args s) /\ has_list says_step v "instructions" (sc_steps s).
Definition says_test (v : json) (t : test) : Prop :=
  has_text v "test_name" (te_name t) /\ (exists w, member v "script" w /\ says_script w (te_script t)) /\ has_text v "created_by_account" (te_account t) /\
  has_text v "create_by_user" (te_user t) /\ has_texts v "assertions" (te_assertions t).
Definition says_table (v : json) (t : table) : Prop :=
  has_text v "table_name" (tb_name t) /\ has_text v "created_by_account" (tb_account t) /\ has_text v "create_by_user" (tb_user t) /\
  has_map says_field v "fields" (tb_fields t) /\ member v "init" (JBool (tb_init t)).
Definition says_occurrence (v : json) (o : occurrence) : Prop :=
  has_text v "table_occurence_name" (oc_name o) /\ has_number v "table_actual" (oc_table o) /\ has_text v "table_actual_name" (oc_table_name o) /\
  has_text v "created_by_account" (oc_account o) /\ has_text v "create_by_user" (oc_user o).
Definition says_relationship (v : json) (r : relationship) : Prop :=
  has_number v "table1" (rl_table1 r) /\ has_text v "table1_name" (rl_table1_name r) /\ has_number v "field1" (rl_field1 r) /\
  has_number v "table2" (rl_table2 r) /\ has_text v "table2_name" (rl_table2_name r) /\ has_number v "field2" (rl_field2 r) /\
  exists c, has_text v "comparison" (lit c) /\
    In (c, rl_cmp r) [("Equal", CEqual); ("NotEqual", CNotEqual); ("Less", CLess); ("LessEqual", CLessEqual); ("Greater", CGreater);
                      ("GreaterEqual", CGreaterEqual); ("Cartesian", CCartesian)].
Definition says_layout (v : json) (l : layout) : Prop :=
  has_text v "layout_name" (ly_name l) /\ has_number v "table_occurrence" (ly_occurrence l) /\ has_text v "created_by_account" (ly_account l) /\
  has_text v "create_by_user" (ly_user l).
Definition says_value_list (v : json) (l : value_list) : Prop :=
  has_text v "list_name" (vl_name l) /\ has_text v "created_by_account" (vl_account l) /\ has_text v "create_by_user" (vl_user l).
Definition says_location (v : json) (l : location) : Prop :=
  has_text v "source_type" (lo_type l) /\ has_text v "source_path" (lo_path l) /\ has_text v "source_filename" (lo_filename l).
Definition says_source (v : json) (s : data_source) : Prop :=
  has_text v "source_name" (ds_name s) /\ (exists w, member v "source_location" w /\ says_location w (ds_location s)) /\
  has_text v "created_by_account" (ds_account s) /\ has_text v "created_by_user" (ds_user s).
Definition says_file (v : json) (f : fmpfile) : Prop :=
  has_text v "name" (f_name f) /\ has_map says_table v "tables" (f_tables f) /\ has_map says_relationship v "relationships" (f_relationships f) /\
  has_map says_layout v "layouts" (f_layouts f) /\ has_map says_value_list v "value_lists" (f_value_lists f) /\
  has_map says_script v "scripts" (f_scripts f) /\ has_map says_occurrence v "table_occurrences" (f_occurrences f) /\
  has_map says_source v "data_sources" (f_sources f) /\ has_list says_test v "tests" (f_tests f).
Local Close Scope string_scope.

(** Every text of a component is a string of characters. *)
Definition str_all (l : list (list N)) : Prop := Forall is_str l.
Definition unicode_script (s : script) : Prop :=
  str_all (sc_name s :: sc_account s :: sc_user s :: sc_args s) /\ Forall (fun st => str_all (switches st)) (sc_steps s).
Definition unicode_file (f : fmpfile) : Prop :=
  is_str (f_name f) /\
  Forall (fun e => let t := snd e in str_all [tb_name t; tb_account t; tb_user t] /\
    Forall (fun e => let x := snd e in str_all [fl_data_type x; fl_description x; fl_name x; fl_type x; fl_account x; fl_user x]) (tb_fields t)) (f_tables f) /\
  Forall (fun e => str_all [rl_table1_name (snd e); rl_table2_name (snd e)]) (f_relationships f) /\
  Forall (fun e => let l := snd e in str_all [ly_name l; ly_account l; ly_user l]) (f_layouts f) /\
  Forall (fun e => let l := snd e in str_all [vl_name l; vl_account l; vl_user l]) (f_value_lists f) /\
  Forall (fun e => unicode_script (snd e)) (f_scripts f) /\
  Forall (fun e => let o := snd e in str_all [oc_name o; oc_table_name o; oc_account o; oc_user o]) (f_occurrences f) /\
  Forall (fun e => let s := snd e in str_all [ds_name s; lo_type (ds_location s); lo_path (ds_location s); lo_filename (ds_location s); ds_account s; ds_user s]) (f_sources f) /\
  Forall (fun t => str_all (te_name t :: te_account t :: te_user t :: te_assertions t) /\ unicode_script (te_script t)) (f_tests f).

(** The maps of a file have every key once. *)
Definition keys_once (f : fmpfile) : Prop :=
  NoDup (keys (f_tables f)) /\ NoDup (keys (f_relationships f)) /\ NoDup (keys (f_layouts f)) /\ NoDup (keys (f_value_lists f)) /\
  NoDup (keys (f_scripts f)) /\ NoDup (keys (f_occurrences f)) /\ NoDup (keys (f_sources f)) /\
  Forall (fun e => NoDup (keys (tb_fields (snd e)))) (f_tables f).
