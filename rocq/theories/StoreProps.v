(** C101: the program on the files of a disk: where it reads, where it writes, and when it stops. *)
From Coq Require Import Ascii String NArith List Bool Lia Arith Permutation.
From Verif Require DecompRecoverSpec.
From Verif Require Import Prelude PreludeFacts Utf8 Utf8Facts ComponentModel CalcModel CalcDemo DbModel EvalModel VmModel VmTextSpec AsmModel AsmSpec AsmProps DecompModel SchemaModel SchemaFuel SchemaProps JsonModel JsonSpec RunsSpec MainModel MainSpec MainProofs MainProps
  DecompRecoverProps AbortProps SessionSpec Session SessionProps FilesModel FilesSpec Files FilesProps StoreModel StoreSpec Store.
Import ListNotations.
Local Open Scope N_scope.

(** C101: the name of an input is what stands behind the last slash of its path, where slashes at the end and dots that stand alone do not count; a path
    that ends in two dots has none. *)
Theorem C101_name : forall p n, file_name p = Some n <-> base_name p n.
Proof. exact name_exact. Qed.
Print Assumptions C101_name.
Example C101_name_ex : base_name (lit "src/./one.burn") (lit "one.burn") /\ base_name (lit "a/b//./") (lit "b") /\ (forall n, ~ base_name (lit "a/..") n) /\ (forall n, ~ base_name (lit "/.") n).
Proof. split; [now apply name_exact|]. split; [now apply name_exact|]. split; intros n H; apply name_exact in H; discriminate. Qed.

Lemma bad_test E place d p : (forall code f, text_at place d p code -> compile_burn E code <> Ok f) -> forall code f, text_at place d p code -> ~ schema_text E code f.
Proof.
  intros H code f T. specialize (H code). destruct (compile_burn E code) as [g| |] eqn:C; [now elim (H g T)|now apply text_fails|]. now apply compile_fuel in C.
Qed.
Lemma good_tests E place d tests ts : Forall2 (fun p t => exists code, text_at place d p code /\ compile_burn E code = Ok t) tests ts ->
  Forall2 (fun p t => exists code, text_at place d p code /\ schema_text E code t) tests ts.
Proof. apply Forall2_weaken. intros p t (code & T & C). exists code. split; [exact T|now apply text_compiles]. Qed.


(** C101: the inputs can be read, and none of them is a file that will be written: then the program does what it does on the texts (C88), and performs every
    event on the files. *)
Theorem C101_as_given : forall E place accepts order fuel no_testing tests (tins : list (list N * list N)) inputs ins d, (forall f, reordered f (order f)) ->
  Forall2 (fun p i => text_at place d p (snd i)) tests tins -> Forall2 (fun p i => base_name p (fst i) /\ text_at place d p (snd i)) inputs ins ->
  open_to place accepts test_compile -> (forall n c, In (n ++ lit ".burn", c) ins -> open_to place accepts (n ++ lit ".fmp12")) ->
  (forall p, In p inputs -> place p <> place test_compile /\ forall n c, In (n ++ lit ".burn", c) ins -> place p <> place (n ++ lit ".fmp12")) ->
  exists d', store_compile E place accepts order fuel no_testing tests inputs d = (d', main_compile E order fuel no_testing tins ins) /\
    performs place accepts test_compile d (fst (main_compile E order fuel no_testing tins ins)) d'.
Proof.
  intros E place accepts order fuel nt tests tins inputs ins d AO T I O OW SEP. unfold store_compile, main_compile, and_do. rewrite (tests_given E place tests tins fmpfile_new d T).
  unfold and_then, lift. destruct (test_files E tins fmpfile_new) as [f| |]; [|exists d; split; [reflexivity|constructor]..].
  destruct (compile_given E place accepts order fuel nt AO inputs ins f d I O OW SEP) as (d' & Q & P). rewrite Q. cbn [fst snd app]. exists d'.
  destruct (for_inputs _ ins f) as [es r]. cbn [fst snd] in *. split; [reflexivity|exact P].
Qed.
Print Assumptions C101_as_given.

(** Two inputs, one in a directory of its own; nothing else can be read or written. *)
Fixpoint spot (names : list (list N)) (p : list N) (i : N) : option N :=
  match names with [] => None | n :: names => if str_eqb n p then Some i else spot names p (i + 1) end.
Definition shelf (p : list N) : option N := spot [lit "src/one.burn"; lit "two.burn"; lit "inspect_output/test_compile"; lit "one.fmp12"; lit "two.fmp12"] p 0.
Definition anything (i : N) : bool := true.
Definition two_texts : list (N * list N) := [(0, utf8 (snd first_input)); (1, utf8 (snd second_input))].
Lemma given_texts : Forall2 (fun p i => base_name p (fst i) /\ text_at shelf two_texts p (snd i)) [lit "src/one.burn"; lit "two.burn"] [first_input; second_input].
Proof.
  constructor; [|constructor; [|constructor]]; (split; [now apply name_exact|]); (split; [apply Forall_forall; intros x; revert x; apply forallb_forall; vm_compute; reflexivity|]).
  - exists 0. split; reflexivity.
  - exists 1. split; reflexivity.
Qed.
Lemma burn_of n c : In (n ++ lit ".burn", c) [first_input; second_input] -> n = lit "one" \/ n = lit "two".
Proof.
  intros [H|[H|[]]]; [left|right]; symmetry.
  - apply (app_inv_tail (lit ".burn") (lit "one") n). exact (f_equal fst H).
  - apply (app_inv_tail (lit ".burn") (lit "two") n). exact (f_equal fst H).
Qed.
Lemma two_run : exists d', store_compile whole shelf anything same 50 false [] [lit "src/one.burn"; lit "two.burn"] two_texts = (d', two_files) /\
  performs shelf anything test_compile two_texts (fst two_files) d'.
Proof.
  apply (C101_as_given whole shelf anything same 50 false [] [] [lit "src/one.burn"; lit "two.burn"] [first_input; second_input] two_texts same_order (Forall2_nil _) given_texts).
  - exists 2. split; reflexivity.
  - intros n c H. destruct (burn_of n c H) as [-> | ->]; [exists 3|exists 4]; split; reflexivity.
  - intros p [<-|[<-|[]]]; (split; [discriminate|]); intros n c H; destruct (burn_of n c H) as [-> | ->]; discriminate.
Qed.
Example C101_as_given_ex : (forall f, reordered f (same f)) /\ Forall2 (fun p i => base_name p (fst i) /\ text_at shelf two_texts p (snd i)) [lit "src/one.burn"; lit "two.burn"] [first_input; second_input] /\
  exists d', store_compile whole shelf anything same 50 false [] [lit "src/one.burn"; lit "two.burn"] two_texts = (d', two_files) /\ performs shelf anything test_compile two_texts (fst two_files) d'.
Proof. exact (conj same_order (conj given_texts two_run)). Qed.

(** C101: compiling.  Every path is read when it is its turn, from the files as the inputs before have left them; see [compiles_at]: what is shown and written
    for it is what its text says, the schema goes to one place and the binary file to another, named after the last part of the path.  The run ends early
    with a panic only where a file cannot be read as text or has no name, the text or its tests break off, or a file cannot be written. *)
Theorem C101_compile : forall E place accepts order fuel no_testing tests inputs d d' es r, (forall f, reordered f (order f)) ->
  store_compile E place accepts order fuel no_testing tests inputs d = (d', (es, r)) -> r <> NoFuel ->
  exists last, ended r last /\ runs_at E place (compiles_at E no_testing place accepts) tests inputs d es d' last.
Proof.
  intros E place accepts order fuel nt tests inputs d d' es r AO H NF. exists (option_of r). split; [destruct r; [reflexivity|reflexivity|now elim NF]|].
  unfold store_compile, and_do in H. destruct (test_paths E place tests fmpfile_new d) as [(ts & F & Q)|((p & I & P) & Q)]; rewrite Q in H.
  - right. exists ts. split; [now apply good_tests|]. destruct (for_paths _ inputs _ d) as [d1 [es1 r1]] eqn:R. injection H as <- <- <-. cbn [app fst snd].
    eapply (compile_paths E place accepts order (fun l => l)); eauto. now apply collected_start.
  - left. injection H as <- <- <-. repeat (split; [reflexivity|]). exists p. split; [exact I|]. now apply bad_test.
Qed.
Print Assumptions C101_compile.
Example C101_compile_ex : exists d' es, store_compile whole shelf anything same 50 false [] [lit "src/one.burn"; lit "two.burn"] two_texts = (d', (es, Ok both_files)) /\
  runs_at whole shelf (compiles_at whole false shelf anything) [] [lit "src/one.burn"; lit "two.burn"] two_texts es d' (Some both_files).
Proof.
  destruct two_run as (d' & Q & _). rewrite two_files_run in Q. exists d'. eexists. split; [exact Q|].
  destruct (C101_compile _ _ _ _ _ _ _ _ _ _ _ _ same_order Q) as (last & L & R); [discriminate|]. destruct last; inversion L; subst. exact R.
Qed.

(** C101: decompiling, likewise. *)
Theorem C101_decompile_as_given : forall E place accepts order segment_order fuel no_testing (header : bool) tests tins inputs ins d, (forall f, reordered f (order f)) ->
  Forall2 (fun p i => text_at place d p (snd i)) tests tins -> Forall2 (fun p i => bytes_at place d p (snd i)) inputs ins ->
  open_to place accepts test_decompile -> (header = true -> open_to place accepts header_log) ->
  (forall p, In p inputs -> place p <> place test_decompile /\ (header = true -> place p <> place header_log)) ->
  let run := if header then main_decompile_headed E order segment_order fuel no_testing tins ins else main_decompile E order segment_order fuel no_testing tins ins in
  exists d', store_decompile E place accepts order segment_order fuel no_testing header tests inputs d = (d', run) /\ performs place accepts test_decompile d (fst run) d'.
Proof.
  intros E place accepts order so fuel nt header tests tins inputs ins d AO T I O OH SEP run. unfold store_decompile, and_do. rewrite (tests_given E place tests tins fmpfile_new d T).
  assert (R : run = and_then (lift (test_files E tins fmpfile_new)) (for_inputs (if header then decompile_one_headed E order so fuel nt else decompile_one E order so fuel nt) ins)) by (unfold run; destruct header; reflexivity).
  rewrite R. unfold and_then, lift. destruct (test_files E tins fmpfile_new) as [f| |]; [|exists d; split; [reflexivity|constructor]..].
  destruct (decompile_given E place accepts order so fuel nt AO header inputs ins f d I O OH SEP) as (d' & Q & P). rewrite Q. cbn [fst snd app]. exists d'.
  destruct (for_inputs _ ins f) as [es r]. cbn [fst snd] in *. split; [reflexivity|exact P].
Qed.
Print Assumptions C101_decompile_as_given.
Definition stand (p : list N) : option N := spot [lit "a.fmp12"; lit "inspect_output/test_decompile"; lit "header.log"] p 0.
Definition one_file : list (N * list N) := [(0, DecompRecoverSpec.file_of [DecompRecoverSpec.stored demo_schema])].
Lemma one_file_run : exists f d', store_decompile whole stand anything same (fun l => l) (N.to_nat 5000) true false [] [lit "a.fmp12"] one_file = (d', ([EInspect f], Ok (absorb fmpfile_new f))) /\
  performs stand anything test_decompile one_file [EInspect f] d'.
Proof.
  destruct C55_decompile_ex as (f & H & _). exists f.
  destruct (C101_decompile_as_given whole stand anything same (fun l => l) (N.to_nat 5000) true false [] [] [lit "a.fmp12"] [(lit "a.fmp12", DecompRecoverSpec.file_of [DecompRecoverSpec.stored demo_schema])] one_file same_order
    (Forall2_nil _)) as (d' & Q & P).
  - constructor; [|constructor]. exists 0. split; reflexivity.
  - exists 1. split; reflexivity.
  - discriminate.
  - intros p [<-|[]]. split; discriminate.
  - cbv zeta iota in Q, P. unfold same in Q, P. rewrite H in Q, P. exists d'. split; [exact Q|exact P].
Qed.
Example C101_decompile_as_given_ex : exists f d', store_decompile whole stand anything same (fun l => l) (N.to_nat 5000) true false [] [lit "a.fmp12"] one_file = (d', ([EInspect f], Ok (absorb fmpfile_new f))) /\
  performs stand anything test_decompile one_file [EInspect f] d'.
Proof. exact one_file_run. Qed.

(** C101: decompiling. *)
Theorem C101_decompile : forall E place accepts order segment_order fuel no_testing header tests inputs d d' es r, (forall f, reordered f (order f)) -> (forall l, Permutation (segment_order l) l) ->
  (forall i c, nget d i = Some c -> bytes c) -> store_decompile E place accepts order segment_order fuel no_testing header tests inputs d = (d', (es, r)) -> r <> NoFuel ->
  exists last, ended r last /\ runs_at E place (decompiles_at E no_testing place accepts header) tests inputs d es d' last.
Proof.
  intros E place accepts order so fuel nt header tests inputs d d' es r AO PO B H NF. exists (option_of r). split; [destruct r; [reflexivity|reflexivity|now elim NF]|].
  unfold store_decompile, and_do in H. destruct (test_paths E place tests fmpfile_new d) as [(ts & F & Q)|((p & I & P) & Q)]; rewrite Q in H.
  - right. exists ts. split; [now apply good_tests|]. destruct (for_paths _ inputs _ d) as [d1 [es1 r1]] eqn:R. injection H as <- <- <-. cbn [app fst snd].
    eapply (decompile_paths E place accepts order so); eauto. now apply collected_start.
  - left. injection H as <- <- <-. repeat (split; [reflexivity|]). exists p. split; [exact I|]. now apply bad_test.
Qed.
Print Assumptions C101_decompile.
Example C101_decompile_ex : (forall i c, nget one_file i = Some c -> bytes c) /\ exists f d',
  store_decompile whole stand anything same (fun l => l) (N.to_nat 5000) true false [] [lit "a.fmp12"] one_file = (d', ([EInspect f], Ok (absorb fmpfile_new f))) /\
  runs_at whole stand (decompiles_at whole true stand anything false) [] [lit "a.fmp12"] one_file [EInspect f] d' (Some (absorb fmpfile_new f)).
Proof.
  assert (B : forall i c, nget one_file i = Some c -> bytes c).
  { intros i c H. assert (K : (if 0 =? i then Some (DecompRecoverSpec.file_of [DecompRecoverSpec.stored demo_schema]) else None) = Some c) by exact H. destruct (0 =? i); [|discriminate].
    replace c with (DecompRecoverSpec.file_of [DecompRecoverSpec.stored demo_schema]) by congruence. by_bytes. }
  split; [exact B|]. destruct one_file_run as (f & d' & Q & _). exists f, d'. split; [exact Q|].
  destruct (C101_decompile _ _ _ _ _ _ _ _ _ _ _ _ _ _ same_order (fun l => Permutation_refl l) B Q) as (last & L & R); [discriminate|]. destruct last; inversion L; subst. exact R.
Qed.

(** C101: whatever the paths, and however the run ends: every event is performed on the files in its order, and nothing else happens to them. *)
Theorem C101_performed : forall E place accepts order fuel no_testing tests inputs d d' es r, (forall f, reordered f (order f)) ->
  store_compile E place accepts order fuel no_testing tests inputs d = (d', (es, r)) -> r <> NoFuel ->
  performs place accepts test_compile d es d' /\
  forall o c, In (EWritten o c) es -> exists p n, In p inputs /\ base_name p (n ++ lit ".burn") /\ o = n ++ lit ".fmp12".
Proof.
  intros E place accepts order fuel nt tests inputs d d' es r AO H NF. destruct (C101_compile _ _ _ _ _ _ _ _ _ _ _ _ AO H NF) as (last & _ & [(-> & -> & _)|(ts & _ & S)]); [split; [constructor|intros ? ? []]|].
  split; [eapply compiles_performs; eauto|eapply compiles_written; eauto].
Qed.
Print Assumptions C101_performed.
Example C101_performed_ex : exists d' es, store_compile whole shelf anything same 50 false [] [lit "src/one.burn"; lit "two.burn"] two_texts = (d', (es, Ok both_files)) /\
  In (EWritten (lit "one.fmp12") (image first_file)) es /\ performs shelf anything test_compile two_texts es d'.
Proof. destruct two_run as (d' & Q & P). rewrite two_files_run in Q, P. exists d'. eexists. split; [exact Q|]. split; [do 3 right; left; reflexivity|exact P]. Qed.

(** C101: however compiling ends, only the place of the JSON and the places of the outputs change, which stand in the current directory. *)
Theorem C101_others : forall E place accepts order fuel no_testing tests inputs d i, (forall f, reordered f (order f)) ->
  snd (snd (store_compile E place accepts order fuel no_testing tests inputs d)) <> NoFuel ->
  place (lit "inspect_output/test_compile") <> Some i -> (forall p n, In p inputs -> base_name p (n ++ lit ".burn") -> place (n ++ lit ".fmp12") <> Some i) ->
  nget (fst (store_compile E place accepts order fuel no_testing tests inputs d)) i = nget d i.
Proof.
  intros E place accepts order fuel nt tests inputs d i AO NF NI NO. destruct (store_compile E place accepts order fuel nt tests inputs d) as [d' [es r]] eqn:H. cbn [fst snd] in *.
  destruct (C101_performed _ _ _ _ _ _ _ _ _ _ _ _ AO H NF) as [P W]. apply (performs_same _ _ _ _ _ _ P); [exact NI|]. intros o c I. destruct (W o c I) as (p & n & Ip & B & ->). eauto.
Qed.
Print Assumptions C101_others.
Example C101_others_ex : let run := store_compile whole shelf anything same 50 false [] [lit "src/one.burn"; lit "two.burn"] two_texts in
  snd (snd run) <> NoFuel /\ shelf (lit "inspect_output/test_compile") <> Some 0 /\ (forall p n, In p [lit "src/one.burn"; lit "two.burn"] -> base_name p (n ++ lit ".burn") -> shelf (n ++ lit ".fmp12") <> Some 0) /\
  nget (fst run) 0 = Some (utf8 (snd first_input)).
Proof.
  cbv zeta. assert (NO : forall p n, In p [lit "src/one.burn"; lit "two.burn"] -> base_name p (n ++ lit ".burn") -> shelf (n ++ lit ".fmp12") <> Some 0).
  { intros p n I B. apply name_exact in B. assert (n = lit "one" \/ n = lit "two") as [-> | ->]; [|discriminate|discriminate]. destruct I as [<-|[<-|[]]]; [left|right]; symmetry; apply (app_inv_tail (lit ".burn")).
    - assert (file_name (lit "src/one.burn") = Some (lit "one" ++ lit ".burn")) by reflexivity. congruence.
    - assert (file_name (lit "two.burn") = Some (lit "two" ++ lit ".burn")) by reflexivity. congruence. }
  assert (NF : snd (snd (store_compile whole shelf anything same 50 false [] [lit "src/one.burn"; lit "two.burn"] two_texts)) <> NoFuel).
  { destruct two_run as (d' & -> & _). rewrite two_files_run. discriminate. }
  split; [exact NF|]. split; [discriminate|]. split; [exact NO|]. rewrite C101_others; [reflexivity|exact same_order|exact NF|discriminate|exact NO].
Qed.

(** C101: with --print-header, header.log may change as well, without it only the place of the JSON. *)
Theorem C101_decompile_others : forall E place accepts order segment_order fuel no_testing header tests inputs d i, (forall f, reordered f (order f)) -> (forall l, Permutation (segment_order l) l) ->
  (forall i c, nget d i = Some c -> bytes c) -> snd (snd (store_decompile E place accepts order segment_order fuel no_testing header tests inputs d)) <> NoFuel ->
  place (lit "inspect_output/test_decompile") <> Some i -> (header = true -> place (lit "header.log") <> Some i) ->
  nget (fst (store_decompile E place accepts order segment_order fuel no_testing header tests inputs d)) i = nget d i.
Proof.
  intros E place accepts order so fuel nt header tests inputs d i AO PO B NF NI NO. destruct (store_decompile E place accepts order so fuel nt header tests inputs d) as [d' [es r]] eqn:H. cbn [fst snd] in *.
  destruct (C101_decompile _ _ _ _ _ _ _ _ _ _ _ _ _ _ AO PO B H NF) as (last & _ & [(-> & -> & _)|(ts & _ & S)]); [reflexivity|].
  apply (performs_same _ _ _ _ _ _ (decompiles_performs _ _ _ _ _ _ _ _ _ _ _ _ S)); [exact NI|]. intros o c I. destruct (decompiles_written _ _ _ _ _ _ _ _ _ _ _ _ S o c I) as [Hh ->]. auto.
Qed.
Print Assumptions C101_decompile_others.
Definition scraps : list (N * list N) := [(0, [1; 2; 3]); (2, [4])].
Example C101_decompile_others_ex : let run := store_decompile whole stand anything same (fun l => l) 50 true true [] [lit "a.fmp12"] scraps in
  (forall i c, nget scraps i = Some c -> bytes c) /\ snd (snd run) = Panic /\ stand (lit "inspect_output/test_decompile") <> Some 0 /\ stand (lit "header.log") <> Some 0 /\
  nget (fst run) 0 = Some [1; 2; 3] /\ nget (fst run) 2 = Some [1; 2; 3].
Proof.
  cbv zeta. split; [|vm_compute; repeat split; discriminate]. intros i c H. assert (K : (if 0 =? i then Some [1; 2; 3] else if 2 =? i then Some [4] else None) = Some c) by exact H.
  destruct (0 =? i); [|destruct (2 =? i); [|discriminate]]; injection K as <-; repeat constructor.
Qed.

(** C101: what stands at the output of an input after a run that went well: everything collected up to that input, if no other input has its output at
    the same place. *)
Theorem C101_output : forall E place accepts order fuel no_testing tests (tins : list (list N * list N)) inputs ins d es f before name code after, (forall f, reordered f (order f)) ->
  Forall2 (fun p i => text_at place d p (snd i)) tests tins -> Forall2 (fun p i => base_name p (fst i) /\ text_at place d p (snd i)) inputs ins ->
  open_to place accepts test_compile -> (forall n c, In (n ++ lit ".burn", c) ins -> open_to place accepts (n ++ lit ".fmp12")) ->
  (forall p, In p inputs -> place p <> place test_compile /\ forall n c, In (n ++ lit ".burn", c) ins -> place p <> place (n ++ lit ".fmp12")) ->
  snd (store_compile E place accepts order fuel no_testing tests inputs d) = (es, Ok f) ->
  ins = before ++ (name ++ lit ".burn", code) :: after -> Forall (fun i => fst i <> name ++ lit ".burn") after ->
  (forall n c, In (n ++ lit ".burn", c) ins -> n <> name -> place (n ++ lit ".fmp12") <> place (name ++ lit ".fmp12")) -> place test_compile <> place (name ++ lit ".fmp12") ->
  exists ts fs g g', Forall2 (fun i t => schema_text E (snd i) t) tins ts /\ Forall2 (fun i t => schema_text E (snd i) t) (before ++ [(name ++ lit ".burn", code)]) fs /\ collected ts fs g /\
    f_name g = name /\ reordered g g' /\ fits g' /\
    bytes_at place (fst (store_compile E place accepts order fuel no_testing tests inputs d)) (name ++ lit ".fmp12") (image g').
Proof.
  intros E place accepts order fuel nt tests tins inputs ins d es f before name code after AO T I O OW SEP H Hin Ha ALONE NI.
  destruct (C101_as_given E place accepts order fuel nt tests tins inputs ins d AO T I O OW SEP) as (d' & Q & P). rewrite Q in *. cbn [fst snd] in *. rewrite H in P. cbn [fst] in P.
  destruct (C88_compile E order fuel nt tins ins es (Ok f) AO H ltac:(discriminate)) as (last & L & [(_ & -> & _) | (ts & F & S)]); [discriminate L|]. destruct last as [f0|]; [|discriminate L].
  destruct (compiled_all _ _ _ _ _ _ _ S f0 eq_refl) as (_ & _ & _ & HW & _).
  destruct (HW before name code after Hin Ha) as (fs1 & g & g' & e1 & e2 & A1 & A2 & A3 & A4 & A5 & -> & A6). exists ts, fs1, g, g'. do 6 (split; [assumption|]).
  destruct (performs_split _ _ _ _ _ _ _ P) as (d1 & _ & P2). inversion P2 as [| | | |? o c d2 ? ? (i & Pi & _ & G & _) P3]; subst. exists i. split; [exact Pi|]. rewrite <- G. apply (performs_same _ _ _ _ _ _ P3).
  - change (fmp12 (f_name g)) with (f_name g ++ lit ".fmp12") in Pi. congruence.
  - intros o c K X. assert (J : In (EWritten o c) (e1 ++ EWritten (fmp12 (f_name g)) (image g') :: e2)) by (apply in_or_app; right; right; exact K).
    destruct (compiled_written _ _ _ _ _ _ _ S _ _ J) as (n & x & IN & ->). apply (ALONE n x IN); [intros ->; exact (A6 c K)|]. change (fmp12 n) with (n ++ lit ".fmp12") in X. change (fmp12 (f_name g)) with (f_name g ++ lit ".fmp12") in Pi. congruence.
Qed.
Print Assumptions C101_output.
Example C101_output_ex : Forall2 (fun p i => base_name p (fst i) /\ text_at shelf two_texts p (snd i)) [lit "src/one.burn"; lit "two.burn"] [first_input; second_input] /\
  (exists es, snd (store_compile whole shelf anything same 50 false [] [lit "src/one.burn"; lit "two.burn"] two_texts) = (es, Ok both_files)) /\
  bytes_at shelf (fst (store_compile whole shelf anything same 50 false [] [lit "src/one.burn"; lit "two.burn"] two_texts)) (lit "one.fmp12") (image first_file) /\
  shelf (lit "src/one.fmp12") = None.
Proof.
  split; [exact given_texts|]. destruct two_run as (d' & Q & P). rewrite Q. rewrite two_files_run in *. cbn [fst snd] in *. split; [eexists; reflexivity|]. split; [|reflexivity].
  change ((EInspect first_file :: [ERunning (lit "T"); EReport (lit "T") true] ++ [EWritten (f_name first_file ++ lit ".fmp12") (image (same first_file))]) ++
    (EInspect both_files :: [ERunning (lit "T"); EReport (lit "T") true] ++ [EWritten (f_name both_files ++ lit ".fmp12") (image (same both_files))])) with
   ([EInspect first_file; ERunning (lit "T"); EReport (lit "T") true] ++ EWritten (lit "one.fmp12") (image first_file) ::
    [EInspect both_files; ERunning (lit "T"); EReport (lit "T") true; EWritten (lit "two.fmp12") (image both_files)]) in P.
  destruct (performs_split _ _ _ _ _ _ _ P) as (d1 & _ & P2). inversion P2 as [| | | |? o c d2 ? ? (i & Pi & _ & G & _) P3]; subst. exists i. split; [exact Pi|]. rewrite <- G. assert (i = 3) as -> by (injection Pi as <-; reflexivity).
  apply (performs_same _ _ _ _ _ _ P3); [discriminate|]. intros o c [K|[K|[K|[K|[]]]]]; try discriminate K. injection K as <- _. discriminate.
Qed.

(** C101: an input that cannot be read at its turn ends the program there; what was written before stays, and the paths behind it are not looked at. *)
Theorem C101_stops : forall E place accepts order fuel no_testing tests before p after d d1 es f,
  store_compile E place accepts order fuel no_testing tests before d = (d1, (es, Ok f)) -> (forall code, ~ text_at place d1 p code) ->
  store_compile E place accepts order fuel no_testing tests (before ++ p :: after) d = (d1, (es, Panic)).
Proof.
  intros E place accepts order fuel nt tests before p after d d1 es f H N. unfold store_compile in *. unfold and_do in *. destruct (for_paths (tests_at E place) tests fmpfile_new d) as [d0 [e0 [g| |]]]; [|discriminate H|discriminate H].
  rewrite paths_app. unfold and_do. destruct (for_paths _ before g d0) as [d2 [e2 r2]]. cbn [fst snd] in H. injection H as -> <- ->. cbn [for_paths]. unfold and_do.
  assert (Q : compile_at E place accepts order fuel nt f p d1 = (d1, ([], Panic))).
  { unfold compile_at. match goal with |- context [and_do (read_text place p) ?k] => destruct (read_texts place d1 p k) as [(s & T & _)|(_ & ->)] end; [now apply N in T|reflexivity]. }
  rewrite Q. cbn [fst snd]. now rewrite app_nil_r.
Qed.
Print Assumptions C101_stops.
Example C101_stops_ex : exists d' es, store_compile whole shelf anything same 50 false [] [lit "src/one.burn"; lit "two.burn"] two_texts = (d', (es, Ok both_files)) /\ (forall code, ~ text_at shelf d' (lit "missing.burn") code) /\
  store_compile whole shelf anything same 50 false [] ([lit "src/one.burn"; lit "two.burn"] ++ [lit "missing.burn"; lit "two.burn"]) two_texts = (d', (es, Panic)).
Proof.
  destruct two_run as (d' & Q & _). rewrite two_files_run in Q. exists d'. eexists. split; [exact Q|]. assert (N : forall code, ~ text_at shelf d' (lit "missing.burn") code) by (intros code (_ & i & X & _); discriminate X).
  split; [exact N|]. exact (C101_stops _ _ _ _ _ _ _ _ _ _ _ _ _ _ Q N).
Qed.
Theorem C101_decompile_stops : forall E place accepts order segment_order fuel no_testing header tests before p after d d1 es f,
  store_decompile E place accepts order segment_order fuel no_testing header tests before d = (d1, (es, Ok f)) -> (forall buf, ~ bytes_at place d1 p buf) ->
  store_decompile E place accepts order segment_order fuel no_testing header tests (before ++ p :: after) d = (d1, (es, Panic)).
Proof.
  intros E place accepts order so fuel nt header tests before p after d d1 es f H N. unfold store_decompile in *. unfold and_do in *. destruct (for_paths (tests_at E place) tests fmpfile_new d) as [d0 [e0 [g| |]]]; [|discriminate H|discriminate H].
  rewrite paths_app. unfold and_do. destruct (for_paths _ before g d0) as [d2 [e2 r2]]. cbn [fst snd] in H. injection H as -> <- ->. cbn [for_paths]. unfold and_do.
  assert (C : contents place d1 p = None). { unfold contents. destruct (place p) as [i|] eqn:Pi; [|reflexivity]. destruct (nget d1 i) as [c|] eqn:G; [|reflexivity]. elim (N c). exists i. auto. }
  assert (Q : decompile_at E place accepts order so fuel nt header f p d1 = (d1, ([], Panic))) by (unfold decompile_at, copy_header, read_file, and_do, does, lift; destruct header; rewrite C; reflexivity).
  rewrite Q. cbn [fst snd]. now rewrite app_nil_r.
Qed.
Print Assumptions C101_decompile_stops.
Example C101_decompile_stops_ex : exists f d', store_decompile whole stand anything same (fun l => l) (N.to_nat 5000) true false [] [lit "a.fmp12"] one_file = (d', ([EInspect f], Ok (absorb fmpfile_new f))) /\
  (forall buf, ~ bytes_at stand d' (lit "b.fmp12") buf) /\ store_decompile whole stand anything same (fun l => l) (N.to_nat 5000) true false [] ([lit "a.fmp12"] ++ [lit "b.fmp12"]) one_file = (d', ([EInspect f], Panic)).
Proof.
  destruct one_file_run as (f & d' & Q & _). exists f, d'. split; [exact Q|]. assert (N : forall buf, ~ bytes_at stand d' (lit "b.fmp12") buf) by (intros buf (i & X & _); discriminate X).
  split; [exact N|]. exact (C101_decompile_stops _ _ _ _ _ _ _ _ _ _ _ _ _ _ _ _ Q N).
Qed.

(** C101: without the directory inspect_output nothing is compiled: no test is run and no file is written, whatever the inputs. *)
Theorem C101_no_directory : forall E place accepts order fuel no_testing tests p inputs d, (forall f, reordered f (order f)) -> ~ open_to place accepts (lit "inspect_output/test_compile") ->
  store_compile E place accepts order fuel no_testing tests (p :: inputs) d = (d, ([], Panic)).
Proof.
  intros E place accepts order fuel nt tests p inputs d AO NO. unfold store_compile, and_do in *. destruct (test_paths E place tests fmpfile_new d) as [(ts & _ & Q)|(_ & Q)]; rewrite Q in *; [|reflexivity]. cbn [for_paths fst snd app] in *. unfold and_do in *.
  destruct (compile_at_cases E place accepts order fuel nt AO (put_tests fmpfile_new (f_tests fmpfile_new ++ concat (map f_tests ts))) p d) as [(_ & R)|(code & _ & [(_ & R)|(base & B & [(_ & _ & R)|[(es1 & d1 & o & c & g & R & One & P & O)|(d1 & R & P)]])])];
    rewrite R in *; try reflexivity.
  - exfalso. clear - AO NO One P. destruct (compile_burn E code) as [tmp| |] eqn:C.
    2,3: unfold MainModel.compile_one in One; cbn [fst snd] in One; rewrite C in One; destruct es1; discriminate One.
    destruct (MainModel.strip_suffix (lit ".burn") base) as [n|] eqn:S.
    2:{ unfold MainModel.compile_one, and_then, lift in One; cbn [fst snd] in One; rewrite C, S in One; destruct es1; discriminate One. }
    rewrite (one_eq E order fuel nt _ base code tmp n _ C S eq_refl) in One.
    assert (exists g' rest, es1 ++ [EWritten o c] = EInspect g' :: rest) as (g' & rest & X).
    { destruct (testing _ _ _ _ _) as [rs [u| |]]; [destruct (assemble _) as [buf| |]|..]; inversion One; eauto. }
    destruct es1 as [|e es1]; [discriminate X|]. injection X as -> _. inversion P as [| | |? ? ? ? ? ? _ (i & Pi & A & _) _|]; subst. apply NO. exists i. auto.
  - destruct (compile_one E order fuel nt _ (base, code)) as [es1 r1] eqn:One. cbn [fst] in P.
    assert (K : (es1 = [] /\ r1 = Panic) \/ exists g' rest, es1 = EInspect g' :: rest).
    { destruct (compile_burn E code) as [tmp| |] eqn:C; [| |now apply compile_fuel in C].
      2: unfold MainModel.compile_one in One; cbn [fst snd] in One; rewrite C in One; inversion One; auto.
      destruct (MainModel.strip_suffix (lit ".burn") base) as [n|] eqn:S.
      2:{ unfold MainModel.compile_one, and_then, lift in One; cbn [fst snd] in One; rewrite C, S in One; inversion One; auto. }
      rewrite (one_eq E order fuel nt _ base code tmp n _ C S eq_refl) in One. right.
      destruct (testing _ _ _ _ _) as [rs [u| |]]; [destruct (assemble _) as [buf| |]|..]; inversion One; eauto. }
    destruct K as [(-> & ->)|(g' & rest & ->)].
    + inversion P; subst. reflexivity.
    + exfalso. inversion P as [| | |? ? ? ? ? ? _ (i & Pi & A & _) _|]; subst. apply NO. exists i. auto.
Qed.
Print Assumptions C101_no_directory.
Definition bare (p : list N) : option N := spot [lit "src/one.burn"; lit "one.fmp12"] p 0.
Example C101_no_directory_ex : ~ open_to bare anything (lit "inspect_output/test_compile") /\ (exists c, bytes_at bare [(0, utf8 (snd first_input))] (lit "src/one.burn") c) /\
  store_compile whole bare anything same 50 false [] [lit "src/one.burn"] [(0, utf8 (snd first_input))] = ([(0, utf8 (snd first_input))], ([], Panic)).
Proof.
  assert (NO : ~ open_to bare anything (lit "inspect_output/test_compile")) by (intros (i & X & _); discriminate X).
  split; [exact NO|]. split; [exists (utf8 (snd first_input)), 0; split; reflexivity|]. vm_compute. reflexivity.
Qed.

(** C101: without the directory nothing is decompiled either: at most the copy of the first input is left behind. *)
Theorem C101_decompile_no_directory : forall E place accepts order segment_order fuel no_testing header tests p inputs d d' es r, (forall f, reordered f (order f)) -> (forall l, Permutation (segment_order l) l) ->
  (forall i c, nget d i = Some c -> bytes c) -> ~ open_to place accepts (lit "inspect_output/test_decompile") ->
  store_decompile E place accepts order segment_order fuel no_testing header tests (p :: inputs) d = (d', (es, r)) -> r <> NoFuel ->
  r = Panic /\ ((es = [] /\ d' = d) \/ exists buf, header = true /\ bytes_at place d p buf /\ es = [EWritten header_log buf] /\ stores place accepts d header_log buf d').
Proof.
  intros E place accepts order so fuel nt header tests p inputs d d' es r AO PO B NO H NF. destruct (C101_decompile _ _ _ _ _ _ _ _ _ _ _ _ _ _ AO PO B H NF) as (last & L & R).
  assert (X : last = None -> r = Panic) by (intros ->; destruct r; [discriminate L|reflexivity|now elim NF]).
  destruct R as [(-> & -> & -> & _)|(ts & _ & S)]; [auto|].
  assert (CP : forall buf e0 d0, bytes_at place d p buf -> copies place accepts header d buf e0 d0 ->
    (e0 = [] /\ d0 = d) \/ exists buf, header = true /\ bytes_at place d p buf /\ e0 = [EWritten header_log buf] /\ stores place accepts d header_log buf d0).
  { intros buf e0 d0 Bb [(Hh & _ & -> & St)|(_ & -> & ->)]; [right; exists buf; auto|auto]. }
  assert (NE : forall d0 g rest d1, ~ performs place accepts test_decompile d0 (EInspect g :: rest) d1).
  { intros d0 g rest d1 Pf. inversion Pf as [| | |? ? ? ? ? ? _ (i & Pi & A & _) _|]; subst. apply NO. exists i. auto. }
  inversion S as [|? ? ? ? N|? ? ? ? buf f e0 d0 Bb C SF O|? ? ? ? buf e0 d0 es1 d1 Bb C D P|? ? ? ? buf f e0 d0 es1 g d1 es2 d2 last' Bb C SF D P R]; subst.
  - auto.
  - split; [auto|]. eapply CP; eauto.
  - split; [auto|]. inversion D; subst; try (now elim (NE _ _ _ _ P)). inversion P; subst. rewrite app_nil_r. eapply CP; eauto.
  - exfalso. inversion D; subst. now elim (NE _ _ _ _ P).
Qed.
Print Assumptions C101_decompile_no_directory.
Definition bare_stand (p : list N) : option N := spot [lit "a.fmp12"; lit "header.log"] p 0.
Example C101_decompile_no_directory_ex : ~ open_to bare_stand anything (lit "inspect_output/test_decompile") /\
  store_decompile whole bare_stand anything same (fun l => l) 50 true true [] [lit "a.fmp12"] [(0, [1; 2; 3])] = ([(0, [1; 2; 3]); (1, [1; 2; 3])], ([EWritten (lit "header.log") [1; 2; 3]], Panic)).
Proof. split; [intros (i & X & _); discriminate X|]. vm_compute. reflexivity. Qed.

(** C101: an input is not kept where it is itself the place of a copy: decompiling header.log after another file reads the copy of that file. *)
Theorem C101_inputs_kept_refuted : exists place d inputs p c, In p inputs /\ bytes_at place d p c /\
  let run := store_decompile whole place anything same (fun l => l) 50 true true [] inputs d in
  fst (snd run) = [EWritten (lit "header.log") [1; 2; 3]] /\ snd (snd run) = Panic /\ ~ bytes_at place (fst run) p c.
Proof.
  exists stand, scraps, [lit "a.fmp12"; lit "header.log"], (lit "header.log"), [4]. split; [right; now left|]. split; [exists 2; split; reflexivity|].
  cbv zeta. split; [vm_compute; reflexivity|]. split; [vm_compute; reflexivity|]. intros (i & X & Y). assert (i = 2) as -> by (injection X as <-; reflexivity). vm_compute in Y. discriminate.
Qed.
Print Assumptions C101_inputs_kept_refuted.
