(** C53, C54, C57, C70: the schema language. *)
From Coq Require Import Ascii String NArith List Bool Lia Arith FinFun.
From Verif Require Import Prelude PreludeFacts InstrModel ComponentModel CalcModel CalcDemo DbModel EvalModel EvalSpec BurnModel VmModel VmSpec VmTestSpec BurnSpec BurnLex BurnParse BurnText
  VmProps BurnProps SchemaModel SchemaSpec SchemaLex SchemaParse SchemaText SchemaFuel.
From Verif Require Scripts.
Import ListNotations.
Local Open Scope N_scope.

(** C53: a text is compiled exactly when it has the tokens of a list of components, and then the file has these components: tables, value
    lists and scripts with the ids 1, 2, 3, ..., occurrences with 0, 1, 2, ..., and the tests in order. *)
Theorem C53_compiled : forall E code f, compile_burn E code = Ok f -> exists ts cs, sreads E 0 [] code ts /\ program E ts cs /\ holds cs f.
Proof.
  intros E code f H. unfold compile_burn in H. destruct (tokenize E code) as [ts| |] eqn:T; try discriminate. cbn [bind] in H.
  destruct (parse_program E ts) as [[g|e]| |] eqn:P; try discriminate. inversion H; subst. destruct (parse_exact E ts f P) as (cs & P1 & P2).
  exists ts, cs. split; auto. now apply schema_tokens_exact.
Qed.
Print Assumptions C53_compiled.
Example C53_compiled_ex : exists f, compile_burn whole (lit "table A: end table;") = Ok f /\ f_tables f = [(1, mkTable (lit "A") [] [] [] false)].
Proof. eexists. split; [vm_compute; reflexivity|reflexivity]. Qed.
Theorem C53_compiles : forall E code ts cs, sreads E 0 [] code ts -> program E ts cs -> exists f, compile_burn E code = Ok f /\ holds cs f.
Proof.
  intros E code ts cs R P. destruct (parse_always E ts cs P) as (f & P1 & P2). exists f. split; auto. unfold compile_burn.
  rewrite (proj2 (schema_tokens_exact E code ts) R). cbn [bind]. now rewrite P1.
Qed.
Print Assumptions C53_compiles.
Example C53_compiles_ex : exists ts, sreads whole 0 [] (lit "table A: end table;") ts /\ program whole ts [CTable (lit "A")].
Proof.
  eexists. split; [apply schema_tokens_exact; vm_compute; reflexivity|].
  match goal with |- program _ (?w :: ?n :: ?c :: ?e :: ?v :: ?s :: ?r) _ => apply (PrMore whole [w; n; c; e; v; s]);
    [apply (CrTable whole true w n [c] [e; v; s]); try reflexivity; [repeat constructor; intros [Q|[]]; discriminate|constructor; reflexivity]|] end.
  constructor.
Qed.
(** C53: compiling ends for every text, and with a panic for all other texts. *)
Theorem C53_ends : forall E code, compile_burn E code = Panic \/ exists f, compile_burn E code = Ok f.
Proof. intros E code. pose proof (compile_fuel E code) as H. destruct (compile_burn E code); eauto. now elim H. Qed.
Print Assumptions C53_ends.
Example C53_ends_ex : compile_burn whole (lit "table ;") = Panic /\ exists f, compile_burn whole (lit "table A:") = Ok f.
Proof. split; [vm_compute; reflexivity|eexists; vm_compute; reflexivity]. Qed.
(** C53: so a table is found under its place in the text, whatever stands between the tables. *)
Theorem C53_table : forall E code f ts before n after, compile_burn E code = Ok f -> sreads E 0 [] code ts -> program E ts (before ++ CTable n :: after) ->
  exists t, nget (f_tables f) (lenN (tables_of before) + 1) = Some t /\ tb_name t = n.
Proof.
  intros E code f ts before n after H R P. destruct (C53_compiles E code ts _ R P) as (g & G & Hd). rewrite H in G. inversion G; subst g.
  destruct Hd as (_ & _ & _ & (_ & T & _) & _). exists (mkTable n [] [] [] false). split; auto. specialize (T (length (tables_of before))).
  replace (lenN (tables_of before) + 1) with (1 + N.of_nat (length (tables_of before))) by (unfold lenN; lia). rewrite T, tables_app, nth_error_app2, Nat.sub_diag by lia. reflexivity.
Qed.
Print Assumptions C53_table.

(** The example of the documentation, doc/example.burn. *)
Definition doc_example : list N := lit "table Person:
  primaryKey: Unique, Required, Text, {get(uuid)},
  !{!isEmpty(primaryKey)},
  ""Used as a primary key for the Person Table"",

  firstName: Text,

  lastName: Text,

  sex: Text, foundIn[male_female],
  age: Number,
  jobid: Text,
end table;

table_occurence Job:
  table: Job,
end table_occurence;

table_occurence Person:
  table: Person,
end table_occurence;

table Job:
  PrimaryKey: Unique, Required, Text, {get(uuid)},
  !{!isEmpty(primary)},
  ""Used as a primary key for the Job table"",
end table;

value_list male_female:
  ""male"", ""female""
end value_list;

relationship:
  Person:Job,
  jobid == PrimaryKey,
end relationship;

script: [
  define basic_script(x, y) {
    set_variable(i, x);
    loop {
      exit_loop_if(i == y);
      set_variable(i, i + 1);
    }
    exit_script(i);
  }
]

test BasicTest:
  script: [
    define test() {
      set_variable(x, 2);
    }
  ],
end test;




"%string.
Definition doc_components : list component :=
  [CTable (lit "Person"); COccurrence (lit "Job") (lit "Job"); COccurrence (lit "Person") (lit "Person"); CTable (lit "Job"); CValueList (lit "male_female");
   CRelationship (lit "Person") (lit "Job");
   CScripts [mkScript (lit "basic_script") [] [] [lit "x"; lit "y"]
     [st ISetVariable ["i"; "x"]%string; st ILoop []%string; st IExitLoopIf ["i == y"]%string; st ISetVariable ["i"; "i + 1"]%string; st IEndLoop []%string; st IExitScript ["i"]%string]];
   CTest (lit "BasicTest") (mkScript (lit "test") [] [] [[]] [st ISetVariable ["x"; "2"]%string]) []].
Example C53_example : exists f, compile_burn whole doc_example = Ok f /\
  f_tables f = [(1, mkTable (lit "Person") [] [] [] false); (2, mkTable (lit "Job") [] [] [] false)] /\
  f_value_lists f = [(1, mkValueList (lit "male_female") [] [])] /\
  f_occurrences f = [(0, mkOcc (lit "Job") 0 (lit "Job") [] []); (1, mkOcc (lit "Person") 0 (lit "Person") [] [])] /\
  f_relationships f = [(3, mkRel 0 (lit "Person") 0 0 (lit "Job") 0 CEqual)] /\
  map (fun e => (fst e, sc_name (snd e))) (f_scripts f) = [(1, lit "basic_script")] /\ f_scripts f = map (fun s => (1, s)) (scripts_of doc_components) /\ f_tests f = tests_of doc_components.
Proof. eexists. split; [vm_compute; reflexivity|]. repeat split. Qed.

(** C54: the relationships of a file are those that no other relationship follows before the next table. *)
Theorem C54_kept : forall E code f ts cs k r, compile_burn E code = Ok f -> sreads E 0 [] code ts -> program E ts cs ->
  (nget (f_relationships f) k = Some r <->
   exists before a b after, cs = before ++ CRelationship a b :: after /\ k = lenN (tables_of before) + 1 /\ r = mkRel 0 a 0 0 b 0 CEqual /\
     forall x y u v, after = u ++ CRelationship x y :: v -> tables_of u <> []).
Proof.
  intros E code f ts cs k r H R P. destruct (C53_compiles E code ts _ R P) as (g & G & Hd). rewrite H in G. inversion G; subst g.
  destruct Hd as (_ & _ & _ & _ & _ & _ & _ & (_ & Hr) & _). apply Hr.
Qed.
Print Assumptions C54_kept.
(** C54: so there is at most one relationship more than tables. *)
Theorem C54_at_most : forall E code f, compile_burn E code = Ok f -> lenN (f_relationships f) <= lenN (f_tables f) + 1.
Proof.
  intros E code f H. destruct (C53_compiled E code f H) as (ts & cs & _ & _ & (_ & _ & _ & (Nt & T & _) & _ & _ & _ & (Nr & R) & _)).
  assert (Lt : forall i, (i < length (tables_of cs))%nat -> In (1 + N.of_nat i) (keys (f_tables f))).
  { intros i L. apply nth_error_Some in L. rewrite <- T in L. apply nhas_in. unfold nhas, mhas. unfold nget in L. destruct (mget N.eqb (f_tables f) (1 + N.of_nat i)); auto. }
  assert (Le : (length (tables_of cs) <= length (f_tables f))%nat).
  { pose proof (NoDup_incl_length (l := map (fun i => 1 + N.of_nat i) (seq 0 (length (tables_of cs)))) (l' := keys (f_tables f))) as G.
    unfold keys in G. rewrite !map_length, seq_length in G. apply G.
    - apply FinFun.Injective_map_NoDup; [intros x y; lia|apply seq_NoDup].
    - intros x Hx. apply in_map_iff in Hx as (i & <- & Hi). apply in_seq in Hi. apply Lt. lia. }
  pose proof (NoDup_incl_length (l := keys (f_relationships f)) (l' := map (fun i => 1 + N.of_nat i) (seq 0 (S (length (tables_of cs))))) Nr) as G.
  unfold keys in G. rewrite !map_length, seq_length in G. unfold lenN. assert ((length (f_relationships f) <= S (length (tables_of cs)))%nat); [|lia]. apply G.
  intros k Hk. assert (exists r, nget (f_relationships f) k = Some r) as (r & Hr).
  { apply nhas_in in Hk. unfold nhas, mhas in Hk. unfold nget. destruct (mget N.eqb (f_relationships f) k); [eauto|discriminate]. }
  apply R in Hr as (before & a & b & after & -> & -> & _). apply in_map_iff. exists (length (tables_of before)). split; [unfold lenN; lia|]. apply in_seq.
  rewrite tables_app, app_length. lia.
Qed.
Print Assumptions C54_at_most.
(** C54: that every declared relationship is kept is false. *)
Definition two_relationships : list N :=
  lit "table A: end table; table B: end table; table C: end table; relationship: A:B, end relationship; relationship: B:C, end relationship;"%string.
Theorem C54_all_kept_refuted : exists f, compile_burn whole two_relationships = Ok f /\ f_relationships f = [(4, mkRel 0 (lit "B") 0 0 (lit "C") 0 CEqual)].
Proof. eexists. split; [vm_compute; reflexivity|reflexivity]. Qed.
Print Assumptions C54_all_kept_refuted.
Example C54_example : exists ts, sreads whole 0 [] two_relationships ts /\
  program whole ts ([CTable (lit "A"); CTable (lit "B"); CTable (lit "C")] ++ [CRelationship (lit "A") (lit "B"); CRelationship (lit "B") (lit "C")]) /\ lenN ts = 36.
Proof.
  eexists. split; [apply schema_tokens_exact; vm_compute; reflexivity|]. split; [|reflexivity].
  Ltac a_table := match goal with |- program _ (?w :: ?n :: ?c :: ?e :: ?v :: ?s :: ?r) _ => apply (PrMore whole [w; n; c; e; v; s]); [apply (CrTable whole true w n [c] [e; v; s]); try reflexivity; [repeat constructor; intros [Q|[]]; discriminate|constructor; reflexivity]|] end.
  Ltac a_rel p := match goal with |- program _ (?w :: ?n :: ?a :: ?c :: ?b :: ?d :: ?e :: ?v :: ?s :: ?r) _ =>
    apply (PrMore whole [w; n; a; c; b; d; e; v; s]); [apply (CrRelationship whole true w n [a; c; b; d] p [e; v; s]); try reflexivity;
      [apply RbPair; [reflexivity|reflexivity|]; apply RbOther; [intros [Q|[Q|[]]]; discriminate|]; apply RbEnd|constructor; reflexivity]|] end.
  a_table. a_table. a_table. a_rel (lit "A", lit "B"). a_rel (lit "B", lit "C"). constructor.
Qed.

(** C57: the tokens of a text are exactly those the grammar of words, signs, strings, calculations and blocks gives it. *)
Theorem C57_tokens : forall E code ts, tokenize E code = Ok ts <-> sreads E 0 [] code ts.
Proof. exact schema_tokens_exact. Qed.
Print Assumptions C57_tokens.
Example C57_tokens_ex : sreads whole 0 [] (lit "table A: end table;") [tk KTable; mkStok KIdentifier (lit "A"); tk KColon; tk KEnd; tk KTable; tk KSemiColon].
Proof. apply schema_tokens_exact. vm_compute. reflexivity. Qed.
Theorem C57_ends : forall E code, tokenize E code <> NoFuel.
Proof. exact tokenize_fuel. Qed.
Print Assumptions C57_ends.
Example C57_ends_ex : tokenize whole (lit "table {{ ""a") = Panic /\ tokenize whole (lit "table ") = Ok [tk KTable].
Proof. split; vm_compute; reflexivity. Qed.
(** C57: every list of components, with any fields, options and criteria, can be written, and the text is compiled to these components. *)
Theorem C57_written : forall E ss cs, Forall2 (source_ok E) ss cs -> exists f, compile_burn E (concat (map source_text ss)) = Ok f /\ holds cs f.
Proof. intros E ss cs H. destruct (sources_read E ss cs H) as (ts & R & P). now apply (C53_compiles E _ ts). Qed.
Print Assumptions C57_written.
Definition demo_sources : list source :=
  [STable (lit "Person") [(lit "id", [FWord (lit "Text"); FCalc (lit "get(uuid)"); FCheck (lit "!isEmpty(id)"); FString (lit "the key")]); (lit "sex", [FFoundIn (lit "sexes")])];
   SValueList (lit "sexes") [lit "male"; lit "female"];
   SRelationship (lit "Person") (lit "Job") [(lit "jobid", lit "id")];
   SOccurrence (lit "P") (lit "Person");
   SScripts (definition_text (lit "f", [lit "x"], SStep (lit "exit_script") [lit "x"] SEnd));
   STest (lit "T") (definition_text (lit "t", [], SStep (lit "set_variable") [lit "x"; lit "2"] SEnd))].
Ltac plain := split; [discriminate|split; [repeat (constructor; [split; [reflexivity|cbn; intuition discriminate]|]); constructor|split;
  [let k := fresh in let t := fresh in let H := fresh in let Q := fresh in intros (k & t & H & Q); cbn in H; repeat (destruct H as [H|H]; [inversion H; subst; discriminate Q|]); destruct H
  |split; [reflexivity|let Q := fresh in let L := fresh in intros (? & ? & Q & L); inversion Q; subst; lia]]]].
Ltac not_in := cbn; intuition discriminate.
Example C57_example : exists cs, Forall2 (source_ok whole) demo_sources cs /\ lenN cs = 6 /\ tests_of cs <> [] /\ scripts_of cs <> [].
Proof.
  eexists. split; [|split; [|split]].
  - apply Forall2_cons; [apply SoTable; [plain|]|apply Forall2_cons; [apply SoValueList; [plain|]|apply Forall2_cons; [apply SoRelationship; [plain|plain|]|apply Forall2_cons; [apply SoOccurrence; plain|
      apply Forall2_cons; [eapply SoScripts; [| |apply Scripts.text_exact; vm_compute; reflexivity]|apply Forall2_cons; [eapply SoTest; [plain| | |apply Scripts.text_exact; vm_compute; reflexivity]|constructor]]]]]].
    + constructor; [split; [plain|]|constructor; [split; [plain|]|constructor]]; repeat (constructor; [first [plain|not_in]|]); constructor.
    + repeat (constructor; [not_in|]). constructor.
    + constructor; [split; plain|constructor].
    + intros c u Q. inversion Q; subst. reflexivity.
    + not_in.
    + intros c u Q. inversion Q; subst. reflexivity.
    + not_in.
  - reflexivity.
  - discriminate.
  - discriminate.
Qed.

(** C57: fields, options, values and criteria are not kept. *)
Theorem C57_fields_refuted : exists f, compile_burn whole (source_text (STable (lit "Person") [(lit "id", [FWord (lit "Text")])])) = Ok f /\
  f_tables f = [(1, mkTable (lit "Person") [] [] [] false)].
Proof. eexists. split; [vm_compute; reflexivity|reflexivity]. Qed.
Print Assumptions C57_fields_refuted.
(** C57: a word that begins with a digit and is no number takes the next words with it, here the end of its table. *)
Theorem C57_digit_word_refuted : exists f, compile_burn whole (lit "table A: 1st end table; table B: end table;"%string) = Ok f /\ f_tables f = [(1, mkTable (lit "A") [] [] [] false)].
Proof. eexists. split; [vm_compute; reflexivity|reflexivity]. Qed.
Print Assumptions C57_digit_word_refuted.
(** C57: the sign that closes a string becomes part of the next word. *)
Theorem C57_quote_refuted : tokenize whole (34 :: lit "male" ++ 34 :: lit " end value_list;") =
  Ok [mkStok KString (lit "male"); mkStok KIdentifier [34]; tk KEnd; tk KValueList; tk KSemiColon] /\
  tokenize whole (34 :: lit "male" ++ 34 :: lit "end value_list;") = Ok [mkStok KString (lit "male"); mkStok KIdentifier (34 :: lit "end"); tk KValueList; tk KSemiColon].
Proof. split; vm_compute; reflexivity. Qed.
Print Assumptions C57_quote_refuted.
(** C57: a semicolon after a script block, which all other components have, is an error; so is an empty test script. *)
Theorem C57_semicolon_refuted : compile_burn whole (lit "script: [ define f() { exit_script(1); } ];"%string) = Panic /\
  (exists f, compile_burn whole (lit "script: [ define f() { exit_script(1); } ]"%string) = Ok f) /\
  compile_burn whole (lit "test T: script: [ ], end test;"%string) = Panic.
Proof. split; [vm_compute; reflexivity|split; [eexists; vm_compute; reflexivity|vm_compute; reflexivity]]. Qed.
Print Assumptions C57_semicolon_refuted.
(** C57: a component whose end is missing is accepted at the end of the text, and takes everything after it with it elsewhere. *)
Theorem C57_missing_end_refuted : exists f, compile_burn whole (lit "table A: x: Text, table B: y: Text, end table;"%string) = Ok f /\ f_tables f = [(1, mkTable (lit "A") [] [] [] false)].
Proof. eexists. split; [vm_compute; reflexivity|reflexivity]. Qed.
Print Assumptions C57_missing_end_refuted.
(** C57: no text gives a test assertions, although the parser and the tokeniser have code for them. *)
Theorem C57_no_assertions : forall E code f t, compile_burn E code = Ok f -> In t (f_tests f) -> te_assertions t = [].
Proof.
  intros E code f t H Hi. unfold compile_burn in H. destruct (tokenize E code) as [ts| |] eqn:T; try discriminate. cbn [bind] in H.
  destruct (parse_program E ts) as [[g|e]| |] eqn:P; try discriminate. inversion H; subst g. destruct (parse_exact E ts f P) as (cs & P1 & (_ & _ & _ & _ & _ & _ & _ & _ & Q)).
  rewrite Q in Hi. assert (M : Forall made ts) by (eapply tokenize_made; eauto). clear - P1 M Hi. revert M. 
  assert (B : forall b v l v', test_body E b v l v' -> Forall made l -> snd v' = snd v).
  { induction 1 as [|b v t' l v' H1 H IH|b v w c o x sc l v' H1 H2 H3 H4 H IH|b v w c l z l' v' H1 H2 H3 H4 H IH|v w c l H1 H2 H3]; intros M; auto.
    - inversion M; subst. auto.
    - inversion M as [|? ? _ M1]; subst. inversion M1 as [|? ? _ M2]; subst. inversion M2 as [|? ? _ M3]; subst. inversion M3; subst. now rewrite IH.
    - inversion M as [|? ? [M1 _] _]; subst. now elim M1.
    - inversion M as [|? ? [M1 _] _]; subst. now elim M1. }
  assert (C : forall b l c, component_reads E b l c -> Forall made l -> forall t, In t (tests_of [c]) -> te_assertions t = []).
  { intros b l c R M x Hx. inversion R; subst; cbn in Hx; try contradiction. destruct Hx as [<-|[]]. cbn. inversion M as [|? ? _ M1]; subst. inversion M1 as [|? ? _ M2]; subst.
    apply Forall_app in M2 as [M2 _]. now rewrite (B _ _ _ _ H1 M2). }
  induction P1 as [|a c b cs R P IH|a c R]; intros M; [destruct Hi| |].
  - apply Forall_app in M as [M1 M2]. change (c :: cs) with ([c] ++ cs) in Hi. unfold tests_of in Hi. rewrite flat_map_app in Hi. apply in_app_iff in Hi as [Hi|Hi]; [eapply C; eauto|auto].
  - eapply C; eauto.
Qed.
Print Assumptions C57_no_assertions.
Example C57_no_assertions_ex : exists f t, compile_burn whole (lit "test T: script: [ define t() { assert(1 == 2); } ], end test;") = Ok f /\ f_tests f = [t].
Proof. do 2 eexists. split; [vm_compute; reflexivity|reflexivity]. Qed.

(** C70: a test written in a schema, with a script that the runner respects, runs as the structure of its script says. *)
Theorem C70_schema_test : forall E ss cs name dname ps p q library, Forall2 (source_ok E) ss cs ->
  In (STest name (definition_text (dname, ps, p))) ss -> writable_definition E (dname, ps, p) -> means p q -> respected q ->
  exists f t, compile_burn E (concat (map source_text ss)) = Ok f /\ In t (f_tests f) /\ te_name t = name /\
    forall s e m', ready s -> describes library f q ->
      ((exists fuel s', run_test E f fuel (load_test s t) = Ok s' /\ mem_of s' = m' /\ ended e s') <-> exec E (vm_layouts s) library 1 q (start s) e m').
Proof.
  intros E ss cs name dname ps p q library F Hi W M Rs. destruct (C57_written E ss cs F) as (f & C & Hd).
  assert (G : exists sc, compile_burn_script E (definition_text (dname, ps, p)) = Ok [sc] /\ In (mkTest name sc [] [] []) (tests_of cs)).
  { clear - F Hi. induction F as [|s c ss cs H F IH]; [destruct Hi|]. destruct Hi as [->|Hi].
    - inversion H; subst. exists sc. split; [now apply Scripts.text_exact|]. now left.
    - destruct (IH Hi) as (sc & H1 & H2). exists sc. split; auto. change (c :: cs) with ([c] ++ cs). unfold tests_of. rewrite flat_map_app. apply in_or_app. auto. }
  destruct G as (sc & G1 & G2). exists f, (mkTest name sc [] [] []). split; auto. split; [destruct Hd as (_ & _ & _ & _ & _ & _ & _ & _ & ->); exact G2|]. split; [reflexivity|].
  intros s e m' Rd D. assert (R : reads E (definition_text (dname, ps, p)) (definition_tokens (dname, ps, p))).
  { pose proof (definitions_read E [(dname, ps, p)] (Forall_cons _ W (Forall_nil _))) as R. cbn [map concat] in R. now rewrite !app_nil_r in R. }
  now apply (C69_text_to_run E f library s (mkTest name sc [] [] []) (definition_text (dname, ps, p)) dname ps p q e m').
Qed.
Print Assumptions C70_schema_test.
Example C70_example : In (STest (lit "T") (definition_text (lit "t", [], SStep (lit "set_variable") [lit "x"; lit "2"] SEnd))) demo_sources /\
  writable_definition whole (lit "t", [], SStep (lit "set_variable") [lit "x"; lit "2"] SEnd) /\
  means (SStep (lit "set_variable") [lit "x"; lit "2"] SEnd) (Do (VmProps.set_var "x" "2") Done) /\ respected (Do (VmProps.set_var "x" "2") Done) /\
  exists f s0 s', compile_burn whole (concat (map source_text demo_sources)) = Ok f /\ map te_name (f_tests f) = [lit "T"] /\
    generate_test_environment f vm_new = Ok s0 /\ run_tests whole f 9 s0 = Ok ([(lit "T", true)], s') /\ vm_vars s' = [[(lit "x", lit "2")]].
Proof.
  split; [cbn; tauto|]. split.
  { cbn. assert (N1 : name_ok whole (lit "t")) by (split; [split; [discriminate|repeat (constructor; [split; [reflexivity|cbn; intuition discriminate]|]); constructor]|split;
      [intros (k & t & H & Q); cbn in H; repeat (destruct H as [H|H]; [inversion H; subst; discriminate Q|]); destruct H|reflexivity]]).
    assert (N2 : name_ok whole (lit "set_variable")) by (split; [split; [discriminate|repeat (constructor; [split; [reflexivity|cbn; intuition discriminate]|]); constructor]|split;
      [intros (k & t & H & Q); cbn in H; repeat (destruct H as [H|H]; [inversion H; subst; discriminate Q|]); destruct H|reflexivity]]).
    split; [exact N1|]. split; [constructor|]. split; [exact N2|]. split; [|exact I]. repeat (constructor; [split; [repeat (apply ArChar; [discriminate|discriminate|discriminate|]); apply ArNil|split; [intros u Q; discriminate|reflexivity]]|]). constructor. }
  split; [eapply (MeStep "set_variable"); [cbn; tauto|reflexivity|exact I|constructor]|]. split; [reflexivity|].
  do 3 eexists. split; [vm_compute; reflexivity|]. split; [reflexivity|]. split; [vm_compute; reflexivity|]. split; [vm_compute; reflexivity|reflexivity].
Qed.
