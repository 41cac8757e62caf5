(** Where the texts of a compiled schema come from.  Independent of the tokenisers and parsers. *)
From Coq Require Import NArith List Bool.
From Verif Require Import Prelude InstrModel ComponentModel CalcModel.
Import ListNotations.
Local Open Scope N_scope.

(** [x] stands in the text in one piece. *)
Definition found_in (code x : list N) : Prop := exists a b, code = a ++ x ++ b.

(** The name, the parameters and the arguments of the steps of a script. *)
Definition script_found (code : list N) (s : script) : Prop :=
  found_in code (sc_name s) /\ (forall v, In v (sc_args s) -> found_in code v) /\
  (forall st v, In st (sc_steps s) -> In v (switches st) -> found_in code v) /\
  sc_account s = [] /\ sc_user s = [].

Section Found.
Context (E : fenv).

(** All texts of a schema.  The second table of a relationship may be a number; it is then written anew. *)
Record file_found (code : list N) (f : fmpfile) : Prop := {
  ff_name : f_name f = [];
  ff_tables : forall k t, nget (f_tables f) k = Some t -> found_in code (tb_name t) /\ tb_account t = [] /\ tb_user t = [] /\ tb_fields t = [];
  ff_relationships : forall k r, nget (f_relationships f) k = Some r ->
    found_in code (rl_table1_name r) /\ (found_in code (rl_table2_name r) \/ exists n, rl_table2_name r = show64 E n);
  ff_layouts : f_layouts f = [];
  ff_value_lists : forall k l, nget (f_value_lists f) k = Some l -> found_in code (vl_name l) /\ vl_account l = [] /\ vl_user l = [];
  ff_scripts : forall k s, nget (f_scripts f) k = Some s -> script_found code s;
  ff_occurrences : forall k o, nget (f_occurrences f) k = Some o ->
    found_in code (oc_name o) /\ found_in code (oc_table_name o) /\ oc_account o = [] /\ oc_user o = [];
  ff_sources : f_sources f = [];
  ff_tests : forall t, In t (f_tests f) -> found_in code (te_name t) /\ script_found code (te_script t) /\ te_assertions t = [] /\ te_account t = [] /\ te_user t = [];
}.
End Found.
