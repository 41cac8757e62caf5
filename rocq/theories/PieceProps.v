(** C92: where the texts of compiled and decompiled files come from. *)
From Coq Require Import Ascii String NArith ZArith List Bool Lia Permutation.
From Verif Require DecompRecoverSpec.
From Verif Require Import Prelude PreludeFacts Utf8 InstrModel ComponentModel CalcModel CalcDemo DecompModel SchemaModel SchemaSpec SchemaProps JsonModel JsonSpec Json JsonProps AsmProps MainModel MainSpec MainProps
  DecompRecoverProps AbortProps SessionSpec Session SessionProps FilesModel FilesSpec FilesProps PieceSpec Pieces Unicode.
Import ListNotations.
Local Open Scope N_scope.

(** C92: every name and every argument in a compiled schema stands in the text in one piece; nothing is put together or made up.  Fields, layouts, data
    sources, assertions, accounts and users are not there at all. *)
Theorem C92_pieces : forall E code f, compile_burn E code = Ok f -> file_found E code f.
Proof. intros E code f H. apply text_compiles in H. destruct H as (ts & cs & R & P & H). eapply schema_found; eassumption. Qed.
Print Assumptions C92_pieces.
Definition pieces_text : list N :=
  lit "table A1: x: Text, end table; relationship: A1 : 5, end relationship; table_occurence o: table: A1, end table_occurence; test T: script: [ define t(p) { set_variable( $x, f(1, 2)); } ], end test;".
Definition pieces_file : fmpfile := Eval vm_compute in match compile_burn whole pieces_text with Ok f => f | _ => fmpfile_new end.
Example C92_pieces_ex : compile_burn whole pieces_text = Ok pieces_file /\ map (fun e => tb_name (snd e)) (f_tables pieces_file) = [lit "A1"] /\
  map (fun e => (rl_table1_name (snd e), rl_table2_name (snd e))) (f_relationships pieces_file) = [(lit "A1", lit "5")] /\
  map (fun t => (te_name t, sc_args (te_script t), map switches (sc_steps (te_script t)))) (f_tests pieces_file) = [(lit "T", [lit "p"], [[lit "$x"; lit "f(1, 2)"]])].
Proof. vm_compute. repeat split. Qed.

(** C92: the exception is needed: a number after the colon of a relationship is written anew, so that the second table has a name that is not in the
    text.  The numbers here are whole, with the one exponent that is read. *)
Definition exponent : fenv :=
  mkEnv Z (fun w => if str_eqb w (lit "1e1") then Some 10%Z else read_Z w) show_Z Z.add Z.sub Z.mul Z.div (fun a b => Some (Z.compare a b)) (fun z => z)
    Z read_Z show_Z Z.add Z.mul Z.abs ascii_alnum (lit "1700000000") (fun _ => lit "node").
Theorem C92_second_table_refuted : exists E code f k r, compile_burn E code = Ok f /\ nget (f_relationships f) k = Some r /\ rl_table2_name r = lit "10" /\ ~ found_in code (rl_table2_name r).
Proof.
  exists exponent, (lit "relationship: A : 1e1, end relationship;").
  destruct (compile_burn exponent (lit "relationship: A : 1e1, end relationship;")) as [f | |] eqn:C; vm_compute in C; try discriminate C. injection C as <-.
  exists (mkFile [] [] [(1, mkRel 0 (lit "A") 0 0 (lit "10") 0 CEqual)] [] [] [] [] [] []), 1, (mkRel 0 (lit "A") 0 0 (lit "10") 0 CEqual).
  split; [reflexivity |]. split; [reflexivity |]. split; [reflexivity |]. cbn [rl_table2_name].
  intros (a & b & H). assert (K : In 48 (lit "relationship: A : 1e1, end relationship;")) by (rewrite H; apply in_or_app; right; right; left; reflexivity).
  vm_compute in K. repeat (destruct K as [K | K]; [discriminate K |]). exact K.
Qed.
Print Assumptions C92_second_table_refuted.

(** C92: so a text of characters is compiled to texts of characters. *)
Theorem C92_compiled_unicode : forall E code f, (forall n, is_str (show64 E n)) -> is_str code -> compile_burn E code = Ok f -> unicode_file f.
Proof. intros E code f SH U H. eapply text_unicode; [exact U | exact SH | apply text_compiles; exact H]. Qed.
Print Assumptions C92_compiled_unicode.
Lemma demo_digits : forall fuel n acc, is_str acc -> is_str (CalcDemo.digits fuel n acc).
Proof.
  induction fuel as [| fuel IH]; intros n acc A; [exact A |]. cbn [CalcDemo.digits]. cbv zeta.
  assert (D : is_str ((48 + n mod 10) :: acc)) by (apply is_str_cons; [assert (M := N.mod_lt n 10 ltac:(discriminate)); lia | exact A]).
  destruct (n / 10 =? 0); [exact D | apply IH; exact D].
Qed.
Lemma whole_shows : forall n, is_str (show64 whole n).
Proof.
  intros n. change (is_str (show_Z n)). unfold show_Z, show_N. destruct (n <? 0)%Z; [apply is_str_cons; [lia |] |]; apply demo_digits; constructor.
Qed.
Example C92_compiled_unicode_ex : (forall n, is_str (show64 whole n)) /\ is_str pieces_text /\ compile_burn whole pieces_text = Ok pieces_file /\
  ~ unicode_file (mkFile [0xD800] [] [] [] [] [] [] [] []).
Proof.
  split; [apply whole_shows |]. split; [apply lit_str |]. split; [apply C92_pieces_ex |]. intros (H & _). apply Forall_cons_iff in H. destruct H as [H _]. discriminate H.
Qed.

(** C92: and whatever bytes a file has, what is decompiled from it are texts of characters. *)
Theorem C92_decompiled_unicode : forall order fuel buf f, bytes buf -> (forall l, Permutation (order l) l) -> decompile order fuel buf = Ok f -> unicode_file f.
Proof. intros order fuel buf f HB PO H. eapply stored_unicode; [exact HB | eapply file_decompiles; eassumption]. Qed.
Print Assumptions C92_decompiled_unicode.
Example C92_decompiled_unicode_ex : let buf := DecompRecoverSpec.file_of [DecompRecoverSpec.stored demo_schema] in
  bytes buf /\ exists f, decompile (fun l => l) (N.to_nat 5000) buf = Ok f /\ f_tables f = DecompRecoverSpec.tables_back demo_schema.
Proof.
  cbn zeta. split; [by_bytes |]. destruct stored_schema_recovered_ex as (H1 & H2 & H3 & H4 & H5 & _). eexists. split.
  - apply (stored_schema_recovered (fun l => l) (N.to_nat 5000) demo_schema [(5, demo_source)] [DecompRecoverSpec.stored demo_schema]); auto; [reflexivity | cbn [length]; lia].
  - reflexivity.
Qed.

(** C92: so the JSON written when texts are compiled shows the schema, whatever the texts are. *)
Theorem C92_compiled_json : forall E order fuel no_testing tests before name code es f d, (forall f, reordered f (order f)) -> (forall n, is_str (show64 E n)) ->
  Forall (fun i => is_str (snd i)) (tests ++ before ++ [(name ++ lit ".burn", code)]) -> is_str name ->
  main_compile E order fuel no_testing tests (before ++ [(name ++ lit ".burn", code)]) = (es, Ok f) ->
  exists ts fs g c, Forall2 (fun i t => schema_text E (snd i) t) tests ts /\ Forall2 (fun i t => schema_text E (snd i) t) (before ++ [(name ++ lit ".burn", code)]) fs /\
    collected ts fs g /\ f_name g = name /\
    sget (compile_on E order fuel no_testing tests (before ++ [(name ++ lit ".burn", code)]) d) (lit "inspect_output/test_compile") = Some c /\ shows_schema g c.
Proof.
  intros E order fuel nt tests before name code es f d AO SH U UN H. destruct (C90_compile E order fuel nt tests _ es f d AO H) as (ts & T & _ & J & _).
  destruct (J before name code eq_refl) as (fs & g & c & F & C & N & S & SS). exists ts, fs, g, c. do 5 (split; [assumption |]). apply SS.
  apply Forall_app in U. destruct U as [UT UF]. 
  assert (K : forall is fs, Forall2 (fun i t => schema_text E (snd i) t) is fs -> Forall (fun i : list BinNums.N * list BinNums.N => is_str (snd i)) is -> Forall unicode_file fs).
  { induction 1 as [| i t is' fs' H1 _ IH]; intros X; [constructor |]. apply Forall_cons_iff in X. destruct X as [X1 X2]. constructor; [eapply text_unicode; eassumption | auto]. }
  eapply collected_unicode; [exact C | rewrite N; exact UN | eapply K; eassumption | eapply K; eassumption].
Qed.
Print Assumptions C92_compiled_json.
Example C92_compiled_json_ex : (forall f, reordered f (same f)) /\ (forall n, is_str (show64 whole n)) /\
  Forall (fun i => is_str (snd i)) ([] ++ [first_input] ++ [(lit "two" ++ lit ".burn", snd second_input)]) /\ is_str (lit "two") /\
  exists es, main_compile whole same 50 false [] ([first_input] ++ [(lit "two" ++ lit ".burn", snd second_input)]) = (es, Ok both_files).
Proof.
  split; [apply same_order |]. split; [apply whole_shows |]. split; [repeat constructor; apply lit_str |]. split; [apply lit_str |]. eexists. exact two_files_run.
Qed.

(** C92: and so does the JSON written when a file is decompiled. *)
Theorem C92_decompiled_json : forall E order segment_order fuel no_testing header tests before i f d, (forall f, reordered f (order f)) -> (forall l, Permutation (segment_order l) l) ->
  Forall (fun i => bytes (snd i)) (before ++ [i]) ->
  snd (main_decompile E order segment_order fuel no_testing tests (before ++ [i])) = Ok f ->
  exists h c, stored_file (snd i) h /\ sget (decompile_on E order segment_order fuel no_testing header tests (before ++ [i]) d) (lit "inspect_output/test_decompile") = Some c /\ shows_schema h c.
Proof.
  intros E order so fuel nt header tests before i f d AO PO B H. destruct (C90_decompile E order so fuel nt header tests before i f d AO PO B H) as (h & c & S & G & J).
  exists h, c. split; [exact S |]. split; [exact G |]. apply J. eapply stored_unicode; [| exact S]. apply Forall_app in B. destruct B as [_ B]. apply Forall_cons_iff in B. apply B.
Qed.
Print Assumptions C92_decompiled_json.
Example C92_decompiled_json_ex : let i := (lit "a.fmp12", DecompRecoverSpec.file_of [DecompRecoverSpec.stored demo_schema]) in
  Forall (fun i => bytes (snd i)) ([] ++ [i]) /\ exists f, snd (main_decompile whole same (fun l => l) (N.to_nat 5000) true [] ([] ++ [i])) = Ok f.
Proof. cbn zeta. destruct C90_decompile_ex as (H1 & H2 & _). split; [exact H1 | exact H2]. Qed.
