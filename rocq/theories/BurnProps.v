(** C51, C52, C69: the script language. *)
From Coq Require Import Ascii String NArith List Bool Sorted Lia Arith.
From Verif Require Import Prelude PreludeFacts InstrModel ComponentModel CalcModel CalcDemo DbModel EvalModel EvalSpec EvalFuel BurnModel VmModel VmSpec VmTestSpec BurnSpec BurnLex BurnParse
  BurnText VmProps.
Import ListNotations.
Local Open Scope N_scope.

(** C51: the tokens of any list of structured scripts (with any nesting of loops and ifs) are parsed to scripts with these names and
    parameters, and with the steps of the structure: markers at the beginning and end of each block, in order. *)
Theorem C51_structured : forall ds scs, Forall2 defines ds scs -> parse_burn (concat (map definition_tokens ds)) = Ok (ROk scs).
Proof. exact parse_definitions. Qed.
Print Assumptions C51_structured.
Example C51_structured_ex : Forall2 defines [(lit "f", [lit "x"], SEnd); (lit "g", [], SLoop SEnd SEnd)]
  [mkScript (lit "f") [] [] [lit "x"] []; mkScript (lit "g") [] [] [] [st ILoop []; st IEndLoop []]].
Proof.
  repeat constructor; eexists; split; try reflexivity; [constructor|]. apply (FlLoop _ _ [] []); constructor.
Qed.
(** C51: every structured script has steps. *)
Theorem C51_always : forall ds, exists scs, Forall2 defines ds scs /\ parse_burn (concat (map definition_tokens ds)) = Ok (ROk scs).
Proof.
  intros ds. assert (H : exists scs, Forall2 defines ds scs).
  { induction ds as [|[[n ps] p] ds (scs & IH)]; [exists []; constructor|]. destruct (proj1 flat_total p) as (l & F).
    exists (mkScript n [] [] ps l :: scs). constructor; auto. exists l. auto. }
  destruct H as (scs & H). exists scs. split; auto. now apply parse_definitions.
Qed.
Print Assumptions C51_always.
Example C51_always_ex : parse_burn (concat (map definition_tokens [(lit "g", [], SLoop (SLoop SEnd SEnd) SEnd)])) =
  Ok (ROk [mkScript (lit "g") [] [] [] [st ILoop []; st ILoop []; st IEndLoop []; st IEndLoop []]]).
Proof. vm_compute. reflexivity. Qed.
(** C51: for all other tokens too the parser gives scripts or panics; its error value never occurs. *)
Theorem C51_no_error : forall ts, parse_burn ts = Panic \/ exists scs, parse_burn ts = Ok (ROk scs).
Proof. exact parse_total. Qed.
Print Assumptions C51_no_error.
Definition demo_src : src :=
  SStep (lit "set_variable") [lit "i"; lit "x"]
    (SLoop (SStep (lit "exit_loop_if") [lit "i == y"]
           (SIf [lit "i == 7"] (SStep (lit "set_variable") [lit "x"; lit "20"] SEnd)
              (SElif [lit "i == 8"] SEnd (SElse (SLoop (SStep (lit "exit_loop_if") [lit "max(1, 2) == 2"] SEnd) SEnd))) SEnd))
    (SStep (lit "no_such_step") [lit "1"] (SStep (lit "perform_find") [] SEnd))).
Definition demo_steps : list step :=
  [st ISetVariable ["i"; "x"]; st ILoop []; st IExitLoopIf ["i == y"]; st IIf ["i == 7"]; st ISetVariable ["x"; "20"]; st IElseIf ["i == 8"]; st IElse [];
   st ILoop []; st IExitLoopIf ["max(1, 2) == 2"]; st IEndLoop []; st IEndIf []; st IEndLoop []; st IPerformFind []]%string.
Ltac known k := eapply (FlStep k); [cbn; tauto|reflexivity|].
Ltac unknown := apply FlUnknown; [let H := fresh in let Q := fresh in intros k op H Q; cbn in H; repeat (destruct H as [H|H]; [inversion H; subst; discriminate Q|]); destruct H|].
Example C51_example : defines (lit "f", [lit "x"; lit "y"], demo_src) (mkScript (lit "f") [] [] [lit "x"; lit "y"] demo_steps).
Proof.
  exists demo_steps. split; [|reflexivity]. unfold demo_src, demo_steps. known "set_variable"%string.
  apply (FlLoop _ _ [st IExitLoopIf ["i == y"]; st IIf ["i == 7"]; st ISetVariable ["x"; "20"]; st IElseIf ["i == 8"]; st IElse []; st ILoop []; st IExitLoopIf ["max(1, 2) == 2"]; st IEndLoop []; st IEndIf []]%string [st IPerformFind []]).
  - known "exit_loop_if"%string. apply (FlIf _ _ _ _ [st ISetVariable ["x"; "20"]]%string [st IElseIf ["i == 8"]; st IElse []; st ILoop []; st IExitLoopIf ["max(1, 2) == 2"]; st IEndLoop []]%string []).
    + known "set_variable"%string. constructor.
    + apply (FlElif _ _ _ [] [st IElse []; st ILoop []; st IExitLoopIf ["max(1, 2) == 2"]; st IEndLoop []]%string); [constructor|]. constructor.
      apply (FlLoop _ _ [st IExitLoopIf ["max(1, 2) == 2"]]%string []); [known "exit_loop_if"%string; constructor|constructor].
    + constructor.
  - unknown. known "perform_find"%string. constructor.
Qed.
(** C51: a missing closing bracket makes the next script part of the first. *)
Theorem C51_missing_bracket_refuted : exists sc,
  compile_burn_script whole (lit "define a { loop { exit_loop_if(1 == 1); } define b { assert(1 == 2); }"%string) = Ok [sc] /\
  sc_name sc = lit "a" /\ map opcode (sc_steps sc) = [ILoop; IExitLoopIf; IEndLoop; IAssert].
Proof. eexists. split; [vm_compute; reflexivity|]. split; reflexivity. Qed.
Print Assumptions C51_missing_bracket_refuted.
(** C51: a step whose word is not known is left out without an error. *)
Theorem C51_unknown_step_refuted : exists sc, compile_burn_script whole (lit "define a { asert(1 == 2); }"%string) = Ok [sc] /\ sc_steps sc = [].
Proof. eexists. split; [vm_compute; reflexivity|reflexivity]. Qed.
Print Assumptions C51_unknown_step_refuted.

(** C52: the tokeniser gives exactly the tokens of the text. *)
Theorem C52_tokens : forall E code ts, get_tokens E code = Ok ts <-> reads E code ts.
Proof. exact tokens_exact. Qed.
Print Assumptions C52_tokens.
Example C52_tokens_ex : reads whole (lit "loop { }"%string) [btok BLoop; btok BOpenBracket; btok BCloseBracket].
Proof. apply tokens_exact. vm_compute. reflexivity. Qed.
(** C52: it always ends, and panics only on texts that end with one of the characters ! = > <. *)
Theorem C52_ends : forall E code, get_tokens E code <> NoFuel /\ (get_tokens E code = Panic -> exists a c, code = a ++ [c] /\ In c [33; 61; 62; 60]).
Proof. intros E code. split; [apply tokens_fuel|apply tokens_panic]. Qed.
Print Assumptions C52_ends.
Example C52_ends_ex : get_tokens whole (lit "exit_loop_if =") = Panic.
Proof. vm_compute. reflexivity. Qed.
(** C52: so every list of structured scripts can be written as a text, and any text with their tokens is compiled to their steps. *)
Theorem C52_compile : forall E ds scs, Forall2 defines ds scs ->
  (forall code, reads E code (concat (map definition_tokens ds)) -> compile_burn_script E code = Ok scs) /\
  (Forall (writable_definition E) ds -> compile_burn_script E (concat (map definition_text ds)) = Ok scs).
Proof.
  intros E ds scs H. assert (G : forall code, reads E code (concat (map definition_tokens ds)) -> compile_burn_script E code = Ok scs).
  { intros code R. unfold compile_burn_script. apply tokens_exact in R. rewrite R. cbn [bind]. rewrite (parse_definitions ds scs H). reflexivity. }
  split; auto. intros W. apply G. now apply definitions_read.
Qed.
Print Assumptions C52_compile.
Example C52_example :
  compile_burn_script whole (lit "
   define f (x,  y) {
     set_variable(i, x);
     loop {
       exit_loop_if(i == y);
       if(i == 7) { set_variable(x, 20); } elif (i == 8) { } else { loop { exit_loop_if(max(1, 2) == 2); } }
     }
     no_such_step(1); perform_find;
   }"%string) = Ok [mkScript (lit "f") [] [] [lit "x"; lit "y"] demo_steps] /\
  reads whole (lit "x + min(3, 4);"%string)
    [mkBtok BIdentifier (lit "x"); btok BPlus; mkBtok BIdentifier (lit "min"); mkBtok BArgument (lit "3"); mkBtok BArgument (lit "4"); btok BSemiColon].
Proof. split; [vm_compute; reflexivity|]. apply tokens_exact. vm_compute. reflexivity. Qed.
Ltac plain := repeat (apply ArChar; [discriminate|discriminate|discriminate|]); apply ArNil.
Example C52_writable : writable_definition whole (lit "f", [lit "x"], SStep (lit "set_variable") [lit "a"; quoted_text "b ; c"] SEnd).
Proof.
  assert (W : forall s, forallb (fun c => negb (whitespace c) && negb (existsb (N.eqb c) breaks)) (lit s) = true -> lit s <> [] -> ~ reserved (lit s) -> read_Z (lit s) = None -> name_ok whole (lit s)).
  { intros s H1 H2 H3 H4. repeat split; auto. rewrite forallb_forall in H1. apply Forall_forall. intros c Hc. apply H1, andb_true_iff in Hc as [B1 B2].
    split; [now destruct (whitespace c)|]. intros Hi. assert (X : existsb (N.eqb c) breaks = true) by (apply existsb_exists; exists c; split; auto; apply N.eqb_refl). now rewrite X in B2. }
  assert (R : forall s, forallb (fun k => negb (str_eqb (lit s) (lit (fst k)))) keywords = true -> ~ reserved (lit s)).
  { intros s H (k & t & Hi & Q). rewrite forallb_forall in H. apply H in Hi. cbn [fst] in Hi. rewrite Q in Hi. now rewrite str_eqb_refl in Hi. }
  assert (A : forall v, argument v -> (forall u, v <> 32 :: u) -> open_after false v = false -> argument_ok v) by (intros; repeat split; auto).
  split; [apply W; try reflexivity; [discriminate|apply R; reflexivity]|]. split.
  - constructor; [apply A; [plain|discriminate|reflexivity]|constructor].
  - split; [apply W; try reflexivity; [discriminate|apply R; reflexivity]|]. split; [|exact I].
    constructor; [apply A; [plain|discriminate|reflexivity]|]. constructor; [|constructor]. apply A; [|discriminate|reflexivity]. unfold quoted_text, in_quotes. cbn. plain.
Qed.
(** C52: commas and parentheses inside string literals are not protected. *)
Theorem C52_comma_in_literal_refuted :
  get_tokens whole (lit "show_custom_dialog(" ++ quoted_text "a, b" ++ lit ");") =
  Ok [mkBtok BIdentifier (lit "show_custom_dialog"); mkBtok BArgument (34 :: lit "a"); mkBtok BArgument (lit " b" ++ [34]); btok BSemiColon].
Proof. vm_compute. reflexivity. Qed.
Print Assumptions C52_comma_in_literal_refuted.
Theorem C52_paren_in_literal_refuted :
  get_tokens whole (lit "show_custom_dialog(" ++ quoted_text ":)" ++ lit ");") =
  Ok [mkBtok BIdentifier (lit "show_custom_dialog"); mkBtok BArgument (34 :: lit ":"); mkBtok BIdentifier (34 :: lit ")"); btok BSemiColon].
Proof. vm_compute. reflexivity. Qed.
Print Assumptions C52_paren_in_literal_refuted.
(** C52: arguments keep the spaces at their end. *)
Theorem C52_spaces_refuted :
  get_tokens whole (lit "f( a , b );") = Ok [mkBtok BIdentifier (lit "f"); mkBtok BArgument (lit "a "); mkBtok BArgument (lit "b "); btok BSemiColon].
Proof. vm_compute. reflexivity. Qed.
Print Assumptions C52_spaces_refuted.

(** C69: a test whose script is compiled from the text of a structured script runs as the structure says, if the runner respects it. *)
Theorem C69_text_to_run : forall E file library s t code name ps p q e m',
  reads E code (definition_tokens (name, ps, p)) -> compile_burn_script E code = Ok [te_script t] -> means p q ->
  ready s -> respected q -> describes library file q ->
  sc_name (te_script t) = name /\ sc_args (te_script t) = ps /\
  ((exists fuel s', run_test E file fuel (load_test s t) = Ok s' /\ mem_of s' = m' /\ ended e s') <->
   exec E (vm_layouts s) library 1 q (start s) e m').
Proof.
  intros E file library s t code name ps p q e m' R C M Rd Rs D.
  destruct (proj1 flat_total p) as (l & F).
  assert (H : compile_burn_script E code = Ok [mkScript name [] [] ps l]).
  { apply (C52_compile E [(name, ps, p)]); [constructor; [exists l; auto|constructor]|]. cbn [map concat]. now rewrite app_nil_r. }
  rewrite H in C. inversion C as [Q].
  assert (L : lays q (sc_steps (te_script t))) by (rewrite <- Q; cbn [sc_steps]; now apply (proj1 means_lays p q M l F)).
  split; [reflexivity|]. split; [reflexivity|]. now apply test_runs_as_meant.
Qed.
Print Assumptions C69_text_to_run.
Example C69_example : exists sc s',
  let p := SIf [lit "1 == 1"] (SStep (lit "set_variable") [lit "x"; lit "1"] SEnd) SNoElse SEnd in
  compile_burn_script whole (lit "define t() { if(1 == 1) { set_variable(x, 1); } }"%string) = Ok [sc] /\
  reads whole (lit "define t() { if(1 == 1) { set_variable(x, 1); } }"%string) (definition_tokens (lit "t", [[]], p)) /\
  means p (If (lit "1 == 1") (Do (set_var "x" "1") Done) NoElse Done) /\ respected (If (lit "1 == 1") (Do (set_var "x" "1") Done) NoElse Done) /\
  run_test whole fmpfile_new 9 (load_test vm_new (mkTest (lit "t") sc [] [] [])) = Ok s' /\ ended Through s' /\ vm_vars s' = [[(lit "x", lit "1")]].
Proof.
  do 2 eexists. cbv zeta. split; [vm_compute; reflexivity|]. split; [apply tokens_exact; vm_compute; reflexivity|].
  split; [constructor; [|constructor|constructor]; eapply (MeStep "set_variable"); [cbn; tauto|reflexivity|exact I|constructor]|].
  split; [reflexivity|]. split; [vm_compute; reflexivity|]. split; [repeat split|reflexivity].
Qed.
