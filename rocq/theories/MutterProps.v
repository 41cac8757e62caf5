(** C105: what the error stream says. *)
From Coq Require Import Ascii String NArith List Bool Lia Arith.
From Verif Require Import Prelude PreludeFacts InstrModel ComponentModel CalcModel CalcDemo VmModel BurnModel SchemaModel MainModel MainSpec MainProps.
From Verif Require Import GripeModel SourceModel PrintModel TalkModel TraceModel ReportModel WholeModel WordsModel WordsSpec Words WordsProps HeardSpec Heard MutterModel MutterSpec Mutter.
Import ListNotations.
Local Open Scope N_scope.

Definition plain_debugs : debugs := mkDebugs (fun _ => lit "token") (fun _ => lit "instruction").
Lemma plain_ok : debugs_ok plain_debugs.
Proof. split; intros; apply one_line_lit; reflexivity. Qed.

(** C105: no text can be read in two ways. *)
Theorem C105_one : forall text os ps, overheard_as text os -> overheard_as text ps -> os = ps.
Proof. exact overheard_one. Qed.
Print Assumptions C105_one.
Example C105_one_ex : overheard_as (lit "Unknown variable: x" ++ 10 :: lit "Unknown code @ B:4096, O:0: 2a" ++ [10]) [OUnknown (lit "x"); OCode 4096 0 42].
Proof.
  exists [lit "Unknown variable: x"; lit "Unknown code @ B:4096, O:0: 2a"]. split.
  - apply TlLine; [apply one_line_lit; reflexivity|]. apply (TlLine (lit "Unknown code @ B:4096, O:0: 2a") []); [apply one_line_lit; reflexivity|]. constructor.
  - constructor; [exact (MuUnknown (lit "x"))|]. constructor; [|constructor]. exact (MuCode _ _ _ _ _ _ (digits_numeral 4096) (digits_numeral 0) (hex_numeral 42)).
Qed.

(** C105: the complaints about a schema text are read as what they are, whatever the text. *)
Theorem C105_source : forall E D code, debugs_ok D -> overheard_as (stderr E D (map WComplaint (fst (source_told E code)))) (flat_map (to_overhear D) (map (@WComplaint E) (fst (source_told E code)))).
Proof. intros E D code H. apply stderr_overheard; [exact H|]. apply source_terse. Qed.
Print Assumptions C105_source.
Example C105_source_ex : debugs_ok plain_debugs /\ flat_map (to_overhear plain_debugs) (map (@WComplaint whole) (fst (source_told whole (lit "script: [ x define f { jump; } define ] table ; ")))) = [OBetween; OStep (lit "jump"); OToken (lit "token")] /\
  stderr whole plain_debugs (map WComplaint (fst (source_told whole (lit "script: [ x define f { jump; } define ] table ; ")))) =
    lit "Unrecognized token" ++ 10 :: lit "Invalid script step: jump" ++ 10 :: lit "Invalid token in script: token" ++ [10].
Proof. split; [exact plain_ok|]. split; vm_compute; reflexivity. Qed.

(** C105: for the whole program, however it ends, if the names of the unknown variables are on one line. *)
Theorem C105_compile : forall E D order fuel no_testing tests inputs, debugs_ok D -> let es := fst (whole_compile E order fuel no_testing tests inputs) in
  (forall n, In (WTests (OfCalculation E (SUnknown n))) es -> one_line n) -> overheard_as (stderr E D es) (flat_map (to_overhear D) es).
Proof.
  intros E D order fuel nt tests inputs H es N0. apply stderr_overheard; [exact H|]. apply modest_terse; [|exact N0]. apply (each_compile E order (fun l => l)); [apply modest_complaints|intros []; exact I|intros _ x; exact I].
Qed.
Print Assumptions C105_compile.
Definition unset_text : list N := lit "test T: script: [ x define g { set_variable(b, a & 1); assert(1a); } ] end test; ".
Example C105_compile_ex : let es := fst (whole_compile whole same 50 false [(lit "t.burn", unset_text)] [(lit "a.burn", lit "script: [ + ] ")]) in
  (forall n, In (WTests (OfCalculation whole (SUnknown n))) es -> one_line n) /\ flat_map (to_overhear plain_debugs) es = [OBetween; OBetween; OUnknown (lit "a")].
Proof.
  intros es. let v := eval vm_compute in es in assert (Q : es = v) by (vm_compute; reflexivity). rewrite Q. clear es Q. split; [|reflexivity].
  intros n I. cbn [In] in I. repeat (destruct I as [I|I]; [try discriminate I; injection I as <-; apply one_line_lit; reflexivity|]). destruct I.
Qed.
Theorem C105_decompile : forall E D order segment_order fuel no_testing tests inputs, debugs_ok D -> let es := fst (whole_decompile E order segment_order fuel no_testing tests inputs) in
  (forall n, In (WTests (OfCalculation E (SUnknown n))) es -> one_line n) -> overheard_as (stderr E D es) (flat_map (to_overhear D) es).
Proof.
  intros E D order so fuel nt tests inputs H es N0. apply stderr_overheard; [exact H|]. apply modest_terse; [|exact N0]. apply each_decompile; [apply modest_complaints|intros []; exact I|intros _ x; exact I].
Qed.
Print Assumptions C105_decompile.
Example C105_decompile_ex : let es := fst (whole_decompile whole same (fun l => l) 50 false [(lit "t.burn", unset_text)] [(lit "a.fmp12", [])]) in
  (forall n, In (WTests (OfCalculation whole (SUnknown n))) es -> one_line n) /\ flat_map (to_overhear plain_debugs) es = [OBetween].
Proof.
  intros es. let v := eval vm_compute in es in assert (Q : es = v) by (vm_compute; reflexivity). rewrite Q. clear es Q. split; [|reflexivity].
  intros n I. cbn [In] in I. repeat (destruct I as [I|I]; [try discriminate I; injection I as <-; apply one_line_lit; reflexivity|]). destruct I.
Qed.

(** C105: without tests there are no conditions: whatever the texts and files, the error stream can be read. *)
Theorem C105_untested : forall E D order segment_order fuel tests inputs, debugs_ok D ->
  (let es := fst (whole_compile E order fuel true tests inputs) in overheard_as (stderr E D es) (flat_map (to_overhear D) es)) /\
  (let es := fst (whole_decompile E order segment_order fuel true tests inputs) in overheard_as (stderr E D es) (flat_map (to_overhear D) es)).
Proof.
  intros E D order so fuel tests inputs H.
  assert (Z : forall es : list (shown E), Forall (fun x => match x with WTests _ => False | _ => True end) es -> forall n, In (WTests (OfCalculation E (SUnknown n))) es -> one_line n).
  { intros es F n I. rewrite Forall_forall in F. now destruct (F _ I). }
  assert (G : forall code, Forall (fun x : shown E => match x with WTests _ => False | _ => True end) (map WComplaint (fst (source_told E code)))).
  { intros code. apply Forall_forall. intros x I. apply in_map_iff in I as (g & <- & _). exact Logic.I. }
  split; [apply C105_compile|apply C105_decompile]; auto; apply Z; [apply (each_compile E order so)|apply each_decompile]; auto; try discriminate; intros []; exact I.
Qed.
Print Assumptions C105_untested.
Example C105_untested_ex : flat_map (to_overhear plain_debugs) (fst (whole_compile whole same 50 true [(lit "t.burn", unset_text)] [(lit "a", lit "script: [ + ] ")])) = [OBetween; OBetween].
Proof. vm_compute. reflexivity. Qed.

(** C105: what is printed at all goes to one of the two streams, and nothing to both. *)
Theorem C105_streams : forall E C D x, (shown_words E C x = None \/ muttered E D x = None) /\
  (shown_words E C x = None -> muttered E D x = None -> match x with WFile _ | WWritten _ _ => True | _ => False end).
Proof. intros E C D x. destruct x as [g|f|[[]|[]]|n|n c|[]]; cbn; try (destruct pass); split; auto; discriminate. Qed.
Print Assumptions C105_streams.
Example C105_streams_ex : shown_words whole ansi (WDecompiler (RByte 7)) = Some (lit "7") /\ muttered whole plain_debugs (WDecompiler (RCode 1 2 255)) = Some (lit "Unknown code @ B:1, O:2: ff").
Proof. split; reflexivity. Qed.

(** C105: with tests the condition is needed: a name with a line feed makes a line that says nothing. *)
Definition split_name : list N := lit "test T: script: [ define g { assert(a" ++ [10] ++ lit "b == 1); } ] end test; ".
Theorem C105_name_refuted : exists f ls s', compile_burn whole split_name = Ok f /\ tests_spoken whole f 20 (f_tests f) vm_new = (ls, Ok s') /\
  stderr whole plain_debugs (map WTests ls) = lit "Unknown variable: a" ++ 10 :: lit "b" ++ [10] /\ ~ exists os, overheard_as (stderr whole plain_debugs (map WTests ls)) os.
Proof.
  do 3 eexists. split; [vm_compute; reflexivity|]. split; [vm_compute; reflexivity|].
  match goal with |- ?t = ?u /\ _ => assert (Q : t = u) by (vm_compute; reflexivity) end. split; [exact Q|]. rewrite Q. clear Q. intros (os & ls & L & H).
  assert (K : text_lines (lit "Unknown variable: a" ++ 10 :: lit "b" ++ [10]) [lit "Unknown variable: a"; lit "b"]).
  { apply TlLine; [apply one_line_lit; reflexivity|]. apply (TlLine (lit "b") []); [apply one_line_lit; reflexivity|]. constructor. }
  rewrite (lines_one _ _ _ L K) in H.
  assert (Z : forall l o, mutters l o -> l <> lit "b") by (intros l o M Q; destruct M; vm_compute in Q; discriminate Q).
  inversion H as [|? ? ? ? _ H2]. inversion H2 as [|? ? ? ? M _]. exact (Z _ _ M eq_refl).
Qed.
Print Assumptions C105_name_refuted.
