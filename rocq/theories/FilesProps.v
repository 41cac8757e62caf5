(** C90: the files that the program leaves behind. *)
From Coq Require Import Ascii String NArith List Bool Lia Permutation.
From Verif Require DecompRecoverSpec.
From Verif Require Import Prelude PreludeFacts Utf8 Utf8Facts ComponentModel CalcModel CalcDemo EvalModel EvalSpec DecompModel SchemaModel SchemaSpec SchemaProps JsonModel JsonSpec Json JsonProps AsmSpec AsmProps VmTextSpec RunsSpec MainModel MainSpec MainProofs MainProps
  DecompRecoverProps AbortProps SessionSpec Session SessionProps FilesModel FilesSpec Files.
Import ListNotations.
Local Open Scope N_scope.

Definition compile_path : list N := lit "inspect_output/test_compile".
Lemma path_not_fmp12 n : compile_path <> n ++ lit ".fmp12".
Proof. intros H. assert (K := f_equal (fun l => hd 0 (rev l)) H). cbn beta in K. rewrite rev_app_distr in K. vm_compute in K. discriminate K. Qed.

(** C90: after compiling, the file named after each input is the binary image of everything collected up to that input, where of inputs with the same
    name the last one counts; the JSON is that of everything, under the name of the last input. *)
Theorem C90_compile : forall E order fuel no_testing tests inputs es f d, (forall f, reordered f (order f)) ->
  main_compile E order fuel no_testing tests inputs = (es, Ok f) ->
  exists ts, Forall2 (fun i t => schema_text E (snd i) t) tests ts /\
  (forall before name code after, inputs = before ++ (name ++ lit ".burn", code) :: after -> Forall (fun i => fst i <> name ++ lit ".burn") after ->
     exists fs g g', Forall2 (fun i t => schema_text E (snd i) t) (before ++ [(name ++ lit ".burn", code)]) fs /\ collected ts fs g /\ f_name g = name /\ reordered g g' /\ fits g' /\
       sget (compile_on E order fuel no_testing tests inputs d) (name ++ lit ".fmp12") = Some (image g')) /\
  (forall before name code, inputs = before ++ [(name ++ lit ".burn", code)] ->
     exists fs g c, Forall2 (fun i t => schema_text E (snd i) t) inputs fs /\ collected ts fs g /\ f_name g = name /\
       sget (compile_on E order fuel no_testing tests inputs d) (lit "inspect_output/test_compile") = Some c /\ (unicode_file g -> shows_schema g c)) /\
  (forall i, In i inputs -> exists name, fst i = name ++ lit ".burn").
Proof.
  intros E order fuel nt tests inputs es f d AO H.
  destruct (C88_compile E order fuel nt tests inputs es (Ok f) AO H ltac:(discriminate)) as (last & L & [(_ & -> & _) | (ts & F & S)]); [discriminate L |].
  destruct last as [f0 |]; [| discriminate L].
  destruct (compiled_all _ _ _ _ _ _ _ S f0 eq_refl) as (fs & FS & HI & HW & HN).
  exists ts. split; [exact F |]. unfold compile_on. rewrite H. cbn [fst]. split; [| split; [| exact HN]].
  - intros before name code after Hin Ha. destruct (HW before name code after Hin Ha) as (fs1 & g & g' & e1 & e2 & A1 & A2 & A3 & A4 & A5 & -> & A6).
    exists fs1, g, g'. do 5 (split; [assumption |]). apply disk_some.
    + unfold writes. change (fmp12 name) with (name ++ lit ".fmp12"). rewrite str_eqb_refl. reflexivity.
    + intros [h | t | t b | n c] He; try reflexivity; cbn [writes].
      * destruct (str_eqb_spec (lit "inspect_output/test_compile") (name ++ lit ".fmp12")) as [X | _]; [destruct (path_not_fmp12 _ X) | reflexivity].
      * destruct (str_eqb_spec n (name ++ lit ".fmp12")) as [-> | _]; [destruct (A6 _ He) | reflexivity].
  - intros before name code Hin. destruct (HI before name code Hin) as (g & e1 & e2 & A1 & A2 & -> & A3).
    exists fs, g, (utf8 (inspect_text (order g))). split; [exact FS |]. split; [exact A1 |]. split; [exact A2 |]. split; [| apply order_shows; apply AO].
    apply disk_some; [unfold writes; rewrite str_eqb_refl; reflexivity |].
    intros [h | t | t b | n c] He; try reflexivity; cbn [writes]; [destruct (A3 _ He) |].
    destruct (str_eqb_spec n (lit "inspect_output/test_compile")) as [-> | _]; [| reflexivity].
    assert (Hw : In (EWritten (lit "inspect_output/test_compile") c) (e1 ++ EInspect g :: e2)) by (apply in_or_app; right; right; exact He).
    destruct (compiled_written _ _ _ _ _ _ _ S _ _ Hw) as (m & cd & _ & X). destruct (path_not_fmp12 _ X).
Qed.
Print Assumptions C90_compile.
Example C90_compile_ex : (forall f, reordered f (same f)) /\ (exists es, main_compile whole same 50 false [] [first_input; second_input] = (es, Ok both_files)) /\
  let d := compile_on whole same 50 false [] [first_input; second_input] [(lit "one.fmp12", [1]); (lit "other", [2])] in
  sget d (lit "one.fmp12") = Some (image first_file) /\ sget d (lit "two.fmp12") = Some (image both_files) /\
  sget d (lit "inspect_output/test_compile") = Some (utf8 (inspect_text both_files)) /\ sget d (lit "other") = Some [2].
Proof.
  split; [apply same_order |]. split; [eexists; apply two_files_run |]. cbn zeta. unfold compile_on. change (main_compile whole same 50 false [] [first_input; second_input]) with two_files.
  rewrite two_files_run. cbn [fst]. split; [| split; [| split]].
  - apply (disk_some same _ [EInspect first_file; ERunning (lit "T"); EReport (lit "T") true] (EWritten (lit "one.fmp12") (image first_file))); [reflexivity |].
    intros e He. cbn [app In f_name first_file both_files] in He. repeat (destruct He as [<- | He]; [reflexivity |]). destruct He.
  - apply (disk_some same _ [EInspect first_file; ERunning (lit "T"); EReport (lit "T") true; EWritten (lit "one.fmp12") (image first_file); EInspect both_files; ERunning (lit "T"); EReport (lit "T") true]
      (EWritten (lit "two.fmp12") (image both_files)) []); [reflexivity | intros e []].
  - apply (disk_some same _ [EInspect first_file; ERunning (lit "T"); EReport (lit "T") true; EWritten (lit "one.fmp12") (image first_file)] (EInspect both_files)); [reflexivity |].
    intros e He. cbn [app In f_name first_file both_files] in He. repeat (destruct He as [<- | He]; [reflexivity |]). destruct He.
  - apply disk_none. intros e He. cbn [app In f_name first_file both_files] in He. repeat (destruct He as [<- | He]; [reflexivity |]). destruct He.
Qed.

(** C90: however compiling ends, no other file is touched. *)
Theorem C90_compile_others : forall E order fuel no_testing tests inputs d p, (forall f, reordered f (order f)) ->
  snd (main_compile E order fuel no_testing tests inputs) <> NoFuel ->
  p <> lit "inspect_output/test_compile" -> (forall name code, In (name ++ lit ".burn", code) inputs -> p <> name ++ lit ".fmp12") ->
  sget (compile_on E order fuel no_testing tests inputs d) p = sget d p.
Proof.
  intros E order fuel nt tests inputs d p AO NF P1 P2. unfold compile_on. destruct (main_compile E order fuel nt tests inputs) as [es r] eqn:H. cbn [fst snd] in *.
  apply disk_none. destruct (C88_compile E order fuel nt tests inputs es r AO H NF) as (last & L & [(-> & _) | (ts & F & S)]); [intros e [] |].
  intros [h | t | t b | n c] He; try reflexivity; cbn [writes].
  - destruct (str_eqb_spec (lit "inspect_output/test_compile") p) as [<- | _]; [destruct (P1 eq_refl) | reflexivity].
  - destruct (str_eqb_spec n p) as [-> | _]; [| reflexivity]. destruct (compiled_written _ _ _ _ _ _ _ S _ _ He) as (m & cd & Hin & X). destruct (P2 _ _ Hin X).
Qed.
Print Assumptions C90_compile_others.
Example C90_compile_others_ex : snd (main_compile whole same 50 false [] [first_input; second_input]) <> NoFuel /\ lit "other" <> lit "inspect_output/test_compile" /\
  forall name code, In (name ++ lit ".burn", code) [first_input; second_input] -> lit "other" <> name ++ lit ".fmp12".
Proof.
  split; [| split; [discriminate |]].
  - change (main_compile whole same 50 false [] [first_input; second_input]) with two_files. rewrite two_files_run. discriminate.
  - intros name code _ H. assert (K := f_equal (fun l => hd 0 (rev l)) H). cbn beta in K. rewrite rev_app_distr in K. vm_compute in K. discriminate K.
Qed.

(** ** Decompiling *)
Lemma headed_run E order segments fuel nt tests inputs : let h := main_decompile_headed E order segments fuel nt tests inputs in let m := main_decompile E order segments fuel nt tests inputs in
  snd h = snd m /\ filter no_copy (fst h) = fst m.
Proof.
  cbn zeta. unfold main_decompile_headed, main_decompile, and_then, lift. cbn [fst snd]. destruct (test_files E tests fmpfile_new) as [f | |]; cbn [fst snd app]; [| auto | auto].
  destruct (headed_loop E order segments fuel nt inputs f) as (A & B & _). auto.
Qed.
Lemma filter_split {A} (p : A -> bool) l e1 x e2 : filter p l = e1 ++ x :: e2 -> exists l1 l2, l = l1 ++ x :: l2 /\ filter p l2 = e2.
Proof.
  revert e1. induction l as [| y l IH]; intros e1 H; [destruct e1; discriminate |]. cbn [filter] in H. destruct (p y).
  - destruct e1 as [| z e1]; cbn [app] in H; injection H as -> H.
    + exists [], l. auto.
    + destruct (IH e1 H) as (l1 & l2 & -> & F). exists (z :: l1), l2. auto.
  - destruct (IH e1 H) as (l1 & l2 & -> & F). exists (y :: l1), l2. auto.
Qed.
(** What is written by a run with copies: the copies, and what is written without. *)
Lemma headed_written E order segments fuel nt inputs : forall f n c, In (EWritten n c) (fst (for_inputs (decompile_one_headed E order segments fuel nt) inputs f)) -> n = lit "header.log".
Proof.
  induction inputs as [| i rest IH]; intros f n c H; [destruct H |]. cbn [for_inputs] in H. unfold and_then in H.
  assert (K : In (EWritten n c) (fst (decompile_one_headed E order segments fuel nt f i)) -> n = lit "header.log").
  { change (fst (decompile_one_headed E order segments fuel nt f i)) with (EWritten (lit "header.log") (snd i) :: fst (decompile_one E order segments fuel nt f i)). intros [X | X]; [injection X as <- _; reflexivity | destruct (one_quiet _ _ _ _ _ _ _ _ _ X)]. }
  destruct (snd (decompile_one_headed E order segments fuel nt f i)) as [g | |]; cbn [fst] in H; [| auto | auto].
  apply in_app_or in H. destruct H as [H | H]; [auto | eapply IH; exact H].
Qed.

(** The events of a run, with or without copies. *)
Definition run_events E order segments fuel nt (header : bool) tests inputs : list event * outcome fmpfile :=
  if header then main_decompile_headed E order segments fuel nt tests inputs else main_decompile E order segments fuel nt tests inputs.

(** C90: after decompiling, the JSON is that of the last input alone; nothing is left of the others. *)
Theorem C90_decompile : forall E order segment_order fuel no_testing header tests before i f d, (forall f, reordered f (order f)) -> (forall l, Permutation (segment_order l) l) ->
  Forall (fun i => bytes (snd i)) (before ++ [i]) ->
  snd (main_decompile E order segment_order fuel no_testing tests (before ++ [i])) = Ok f ->
  exists h c, stored_file (snd i) h /\ sget (decompile_on E order segment_order fuel no_testing header tests (before ++ [i]) d) (lit "inspect_output/test_decompile") = Some c /\
    (unicode_file h -> shows_schema h c).
Proof.
  intros E order so fuel nt header tests before i f d AO PO B H. destruct (main_decompile E order so fuel nt tests (before ++ [i])) as [es r] eqn:M. cbn [snd] in H. subst r.
  destruct (C88_decompile E order so fuel nt tests (before ++ [i]) es (Ok f) AO PO B M ltac:(discriminate)) as (last & L & [(_ & -> & _) | (ts & F & S)]); [discriminate L |].
  destruct last as [f0 |]; [| discriminate L]. destruct (decompiled_all _ _ _ _ _ _ _ S) as [Q K]. destruct (K f0 before i eq_refl eq_refl) as (h & e1 & e2 & A & -> & A2).
  exists h, (utf8 (inspect_text (order h))). split; [exact A |]. split; [| apply order_shows; apply AO]. unfold decompile_on. destruct header.
  - destruct (headed_run E order so fuel nt tests (before ++ [i])) as [HR HF]. rewrite M in HF. cbn [fst] in HF.
    destruct (filter_split _ _ _ _ _ HF) as (l1 & l2 & HL & HF2).
    assert (W : forall n c, In (EWritten n c) (fst (main_decompile_headed E order so fuel nt tests (before ++ [i]))) -> n = lit "header.log").
    { intros n c. unfold main_decompile_headed, and_then, lift. cbn [fst snd]. destruct (test_files E tests fmpfile_new) as [f1 | |]; cbn [fst app]; [apply headed_written | intros [] | intros []]. }
    rewrite HL in *. apply disk_some; [unfold writes; rewrite str_eqb_refl; reflexivity |].
    intros [x | t | t b | n c] He; try reflexivity; cbn [writes].
    + assert (X : In (EInspect x) e2) by (rewrite <- HF2; apply filter_In; auto). destruct (A2 _ X).
    + rewrite (W n c) by (apply in_or_app; right; right; exact He). reflexivity.
  - rewrite M. cbn [fst]. apply disk_some; [unfold writes; rewrite str_eqb_refl; reflexivity |].
    intros [x | t | t b | n c] He; try reflexivity; [destruct (A2 _ He) |]. destruct (Q n c). apply in_or_app. right. right. exact He.
Qed.
Print Assumptions C90_decompile.
Lemma alone_headed so fuel i f g : main_decompile whole same so fuel true [] [i] = ([EInspect f], Ok g) ->
  sget (decompile_on whole same so fuel true true [] [i] []) (lit "inspect_output/test_decompile") = Some (utf8 (inspect_text f)).
Proof.
  intros H. unfold decompile_on. destruct (headed_run whole same so fuel true [] [i]) as [_ F]. rewrite H in F. cbn [fst] in F.
  destruct (filter_split _ _ [] _ _ F) as (l1 & l2 & L & F2).
  assert (W : forall n c, In (EWritten n c) (fst (main_decompile_headed whole same so fuel true [] [i])) -> n = lit "header.log").
  { intros n c. unfold main_decompile_headed, and_then, lift. cbn [fst snd test_files app]. apply headed_written. }
  rewrite L in *. apply disk_some; [unfold writes; rewrite str_eqb_refl; reflexivity |]. intros [x | t | t b | n c] He; try reflexivity.
  - assert (X : In (EInspect x) []) by (rewrite <- F2; apply filter_In; auto). destruct X.
  - cbn [writes]. rewrite (W n c) by (apply in_or_app; right; right; exact He). reflexivity.
Qed.
Example C90_decompile_ex : let i := (lit "a.fmp12", DecompRecoverSpec.file_of [DecompRecoverSpec.stored demo_schema]) in
  Forall (fun i => bytes (snd i)) ([] ++ [i]) /\ (exists f, snd (main_decompile whole same (fun l => l) (N.to_nat 5000) true [] ([] ++ [i])) = Ok f) /\
  exists f, sget (decompile_on whole same (fun l => l) (N.to_nat 5000) true true [] ([] ++ [i]) []) (lit "inspect_output/test_decompile") = Some (utf8 (inspect_text f)) /\
    f_tables f = DecompRecoverSpec.tables_back demo_schema.
Proof.
  cbn zeta. destruct C55_decompile_ex as (f & H & T & _).
  assert (B : bytes (DecompRecoverSpec.file_of [DecompRecoverSpec.stored demo_schema])) by by_bytes.
  revert H B. generalize (DecompRecoverSpec.file_of [DecompRecoverSpec.stored demo_schema]) as buf, (N.to_nat 5000) as fuel. intros buf fuel H B.
  split; [constructor; [exact B | constructor] |]. cbn [app]. split; [| exists f; split; [exact (alone_headed _ _ _ _ _ H) | exact T]].
  eexists. unfold same. rewrite H. reflexivity.
Qed.

(** C90: with --print-header the file header.log is a copy of the last input that was begun: the last of all, or the one that could not be finished. *)
Theorem C90_header : forall E order segment_order fuel no_testing tests inputs d, inputs <> [] -> (exists f, test_files E tests fmpfile_new = Ok f) ->
  exists before i after, inputs = before ++ i :: after /\
    sget (decompile_on E order segment_order fuel no_testing true tests inputs d) (lit "header.log") = Some (snd i) /\
    (exists f, snd (main_decompile E order segment_order fuel no_testing tests before) = Ok f) /\
    (after = [] \/ forall f, snd (main_decompile E order segment_order fuel no_testing tests (before ++ [i])) <> Ok f).
Proof.
  intros E order so fuel nt tests inputs d NE (f & T). destruct (headed_loop E order so fuel nt inputs f) as (_ & _ & H).
  destruct (H NE) as (before & i & after & e1 & e2 & -> & HE & HQ & (g & G) & K). exists before, i, after. split; [reflexivity |].
  unfold decompile_on, main_decompile_headed, main_decompile, and_then, lift. rewrite T. cbn [fst snd app]. split; [| split].
  - rewrite HE. apply disk_some; [reflexivity |]. intros [x | t | t b | n c] He; try reflexivity. destruct (HQ _ _ He).
  - exists g. exact G.
  - exact K.
Qed.
Print Assumptions C90_header.
Example C90_header_ex : let inputs := [(lit "a.fmp12", [1; 2; 3]); (lit "b.fmp12", [4])] in inputs <> [] /\ (exists f, test_files whole [] fmpfile_new = Ok f) /\
  snd (main_decompile whole same (fun l => l) 50 true [] inputs) = Panic /\
  decompile_on whole same (fun l => l) 50 true true [] inputs [(lit "header.log", [9; 9])] = [(lit "header.log", [1; 2; 3])].
Proof. cbn zeta. split; [discriminate |]. split; [eexists; reflexivity |]. split; vm_compute; reflexivity. Qed.

(** C90: however decompiling ends, no other file is touched. *)
Theorem C90_decompile_others : forall E order segment_order fuel no_testing header tests inputs d p,
  p <> lit "inspect_output/test_decompile" -> (header = true -> p <> lit "header.log") ->
  sget (decompile_on E order segment_order fuel no_testing header tests inputs d) p = sget d p.
Proof.
  intros E order so fuel nt header tests inputs d p P1 P2. unfold decompile_on. apply disk_none.
  assert (W : forall n c, In (EWritten n c) (fst (run_events E order so fuel nt header tests inputs)) -> header = true /\ n = lit "header.log").
  { intros n c. unfold run_events. destruct header; unfold main_decompile_headed, main_decompile, and_then, lift; cbn [fst snd];
      (destruct (test_files E tests fmpfile_new) as [f1 | |]; cbn [fst app]; [| intros [] | intros []]); intros H.
    - split; [reflexivity | eapply headed_written; exact H].
    - exfalso. revert H. generalize f1. induction inputs as [| i rest IH]; intros f2 H; [destruct H |]. cbn [for_inputs] in H. revert H. apply and_then_quiet; [apply one_quiet | exact IH]. }
  intros [x | t | t b | n c] He; try reflexivity; cbn [writes].
  - destruct (str_eqb_spec (lit "inspect_output/test_decompile") p) as [<- | _]; [destruct (P1 eq_refl) | reflexivity].
  - destruct (W n c He) as [-> ->]. destruct (str_eqb_spec (lit "header.log") p) as [<- | _]; [destruct (P2 eq_refl eq_refl) | reflexivity].
Qed.
Print Assumptions C90_decompile_others.
Example C90_decompile_others_ex : lit "a.fmp12" <> lit "inspect_output/test_decompile" /\ lit "a.fmp12" <> lit "header.log" /\
  sget (decompile_on whole same (fun l => l) 50 true true [] [(lit "a.fmp12", [1; 2; 3])] [(lit "a.fmp12", [1; 2; 3])]) (lit "a.fmp12") = Some [1; 2; 3].
Proof. split; [discriminate |]. split; [discriminate |]. vm_compute. reflexivity. Qed.
