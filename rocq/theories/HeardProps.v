(** C104: what the standard output says. *)
From Coq Require Import Ascii String NArith List Bool Lia Arith.
From Verif Require Import Prelude PreludeFacts InstrModel ComponentModel CalcModel CalcDemo VmModel AsmModel AsmSpec SchemaModel MainModel MainSpec MainProps SessionSpec SessionProps.
From Verif Require AsmProps DecompModel DecompRecoverSpec ReportProps TraceSpec TraceProps.
From Verif Require Import PrintModel TalkModel TalkSpec TalkProps TraceModel ReportModel WholeModel WholeSpec WholeProps WordsModel WordsSpec Words WordsProps HeardSpec Heard.
Import ListNotations.
Local Open Scope N_scope.

Lemma ansi_codes : codes_ok ansi.
Proof. split; [exact ansi_ok|]. intros c H. injection H as <-. lia. Qed.
Lemma colourless_codes : codes_ok colourless.
Proof. split; [exact colourless_ok|]. discriminate. Qed.

(** C104: no text can be read in two ways. *)
Theorem C104_one : forall C text hs ks, codes_ok C -> heard_as C text hs -> heard_as C text ks -> hs = ks.
Proof. exact heard_one. Qed.
Print Assumptions C104_one.
Example C104_one_ex : codes_ok ansi /\ codes_ok colourless /\
  heard_as ansi (lit "Ins: 6 -> key 3 :: [120, 0] :: len 2" ++ 10 :: lit "Ins: 2a, dir: []" ++ 10 :: lit "Popping script: g" ++ [10]) [HValue 6 3 [120; 0] 2; HDirectory 42 []; HPopping (lit "g")].
Proof.
  split; [exact ansi_codes|]. split; [exact colourless_codes|]. exists [lit "Ins: 6 -> key 3 :: [120, 0] :: len 2"; lit "Ins: 2a, dir: []"; lit "Popping script: g"]. split.
  - apply TlLine; [apply one_line_lit; reflexivity|]. apply TlLine; [apply one_line_lit; reflexivity|]. apply (TlLine (lit "Popping script: g") []); [apply one_line_lit; reflexivity|]. constructor.
  - constructor; [|constructor; [|constructor; [|constructor]]].
    + exact (SyValue ansi _ _ _ _ _ _ _ _ (digits_numeral 6) (digits_numeral 3) (bytes_list [120; 0]) (digits_numeral 2)).
    + exact (SyDirectory ansi _ _ _ _ (hex_numeral 42) LtNone).
    + exact (SyPopping ansi (lit "g")).
Qed.

(** C104: what is printed without dialogs is read as what it is about. *)
Theorem C104_lines : forall E C es, codes_ok C -> debug_ok E -> Forall (silent E) es -> heard_as C (stdout E C es) (flat_map to_hear es).
Proof. intros E C es Hc He H. now apply stdout_heard. Qed.
Print Assumptions C104_lines.
Definition mixed : list (shown whole) := [WTests (OfRunner whole (LCalling (lit "g"))); WAssembler (NDirectory 40 [129; 3]); WDecompiler (RByte 255); WTests (OfRunner whole (LAssertion (lit "1 == 2")))].
Example C104_lines_ex : Forall (silent whole) mixed /\ flat_map to_hear mixed = [HCalling (lit "g"); HDirectory 40 [129; 3]; HByte 255; HAssertion (lit "1 == 2")] /\
  stdout whole colourless mixed = lit "calling g" ++ 10 :: lit "Ins: 28, dir: [129, 3]" ++ 10 :: lit "255" ++ 10 :: lit "Assertion failed: 1 == 2" ++ [10].
Proof. split; [repeat constructor; apply one_line_lit; reflexivity|]. split; reflexivity. Qed.

(** C104: so two runs print the same exactly if there was the same to be said. *)
Theorem C104_same : forall E C es ks, codes_ok C -> debug_ok E -> Forall (silent E) es -> Forall (silent E) ks ->
  (stdout E C es = stdout E C ks <-> flat_map to_hear es = flat_map to_hear ks).
Proof.
  intros E C es ks Hc He Hs Hk. split; [intros H; apply (heard_one C (stdout E C es)); [exact Hc|now apply stdout_heard|rewrite H; now apply stdout_heard]|].
  intros H. now rewrite (stdout_spelled E C es Hs), (stdout_spelled E C ks Hk), H.
Qed.
Print Assumptions C104_same.
Definition mixed_more : list (shown whole) := [WFile fmpfile_new; WTests (OfRunner whole (LCalling (lit "g"))); WAssembler (NDirectory 40 [129; 3]); WTests (OfRunner whole LScope); WDecompiler (RByte 255); WTests (OfRunner whole (LAssertion (lit "1 == 2")))].
Example C104_same_ex : mixed <> mixed_more /\ Forall (silent whole) mixed_more /\ stdout whole ansi mixed = stdout whole ansi mixed_more.
Proof. split; [discriminate|]. split; [repeat constructor; apply one_line_lit; reflexivity|reflexivity]. Qed.

(** C104: for the whole program, where every schema text given to it has only texts on one line and no dialogs. *)
Theorem C104_compile : forall E C order fuel no_testing tests inputs, codes_ok C -> debug_ok E -> (forall f, reordered f (order f)) ->
  (forall i f, In i (tests ++ inputs) -> compile_burn E (snd i) = Ok f -> calm f) ->
  heard_as C (stdout E C (fst (whole_compile E order fuel no_testing tests inputs))) (flat_map to_hear (fst (whole_compile E order fuel no_testing tests inputs))).
Proof. intros. apply stdout_heard; auto. now apply compile_silent. Qed.
Print Assumptions C104_compile.
Example C104_compile_ex : (forall f, reordered f (same f)) /\ (forall i f, In i ([] ++ [odd_input]) -> compile_burn whole (snd i) = Ok f -> calm f) /\
  firstn 4 (flat_map to_hear (fst (whole_compile whole same 50 false [] [odd_input]))) = [HRunning (lit "T"); HTree (lit "node"); HPopping (lit "g"); HOutcome (lit "T") true].
Proof. split; [exact same_order|]. split; [intros i f [<-|[]]; apply odd_calm|]. rewrite odd_runs. unfold odd_shown. cbn [fst]. generalize (TraceSpec.all_lines odd_file), (image odd_file). intros al im. reflexivity. Qed.

(** C104: the same for a session with -d, where the stored files have such texts. *)
Theorem C104_decompile : forall E C order segment_order fuel no_testing tests inputs, codes_ok C -> debug_ok E -> (forall f, reordered f (order f)) ->
  (forall i f, In i tests -> compile_burn E (snd i) = Ok f -> calm f) -> (forall i f, In i inputs -> DecompModel.decompile segment_order fuel (snd i) = Ok f -> calm f) ->
  heard_as C (stdout E C (fst (whole_decompile E order segment_order fuel no_testing tests inputs))) (flat_map to_hear (fst (whole_decompile E order segment_order fuel no_testing tests inputs))).
Proof. intros. apply stdout_heard; auto. now apply decompile_silent. Qed.
Print Assumptions C104_decompile.
Example C104_decompile_ex : let inputs := [(lit "a.fmp12", DecompRecoverSpec.file_of [ReportProps.demo_lines]); (lit "b.fmp12", ReportProps.demo_unknown)] in
  (forall i f, In i inputs -> DecompModel.decompile (fun l => l) (N.to_nat 500) (snd i) = Ok f -> calm f) /\
  existsb (fun h => match h with HByte _ => true | _ => false end) (flat_map to_hear (fst (whole_decompile whole same (fun l => l) (N.to_nat 500) false [odd_input] inputs))) = true.
Proof. intros inputs. split; [exact (proj1 C103_decompile_ex)|]. unfold inputs. rewrite (proj2 C100_decompile_ex). reflexivity. Qed.

(** C104: the lines of the assembler tell the numbers of the tables, and nothing else about the schema. *)
Lemma be4_inj n m : n < 2 ^ 24 -> m < 2 ^ 24 -> be4 n = be4 m -> n = m.
Proof.
  intros A B H. unfold be4 in H. assert (H1 := f_equal (fun l => nth 1 l 0) H). assert (H2 := f_equal (fun l => nth 2 l 0) H). assert (H3 := f_equal (fun l => nth 3 l 0) H). cbn [nth] in H1, H2, H3. clear H.
  assert (n / 256 = n / 65536 * 256 + (n / 256) mod 256) by lia. lia.
Qed.
Theorem C104_assembler : forall E C f l img g k img', codes_ok C -> debug_ok E -> assemble_noted f = (l, Ok img) -> assemble_noted g = (k, Ok img') ->
  (stdout E C (map WAssembler l) = stdout E C (map WAssembler k) <-> map fst (f_tables f) = map fst (f_tables g)).
Proof.
  intros E C f l img g k img' Hc He F G. assert (S : forall n : list note, Forall (silent E) (map WAssembler n)) by (intros n; apply Forall_forall; intros x K; apply in_map_iff in K as (y & <- & _); exact I).
  rewrite (C104_same E C) by auto. pose proof (TraceProps.C98_tables _ _ _ F) as TF. pose proof (TraceProps.C98_tables _ _ _ G) as TG. apply TraceProps.C98_lines in F as ((_ & BF & _) & _ & ->), G as ((_ & BG & _) & _ & ->). split.
  - intros H. set (num := fun h => match h with HTable b => [b] | _ => [] end : list (list N)).
    assert (N0 : forall ns, flat_map num (flat_map (@to_hear E) (map WAssembler ns)) = flat_map TraceProps.table_number ns) by (induction ns as [|[]]; cbn; congruence || (f_equal; assumption)).
    apply (f_equal (flat_map num)) in H. rewrite !N0, TF, TG in H. revert BF BG H. generalize (f_tables f) as a, (f_tables g) as b. clear.
    induction a as [|x a IH]; intros [|y b] BF BG H; try discriminate; [reflexivity|]. cbn [map] in *. inversion BF; inversion BG; subst. assert (Q1 := f_equal (hd []) H). assert (Q2 := f_equal (@tl (list N)) H). cbn [hd tl] in Q1, Q2.
    f_equal; [now apply be4_inj|now apply IH].
  - intros H. now rewrite (TraceProps.C98_only_numbers f g H).
Qed.
Print Assumptions C104_assembler.
Example C104_assembler_ex : exists l img k img', assemble_noted AsmProps.demo_file = (l, Ok img) /\ assemble_noted TraceProps.demo_other = (k, Ok img') /\
  f_tables AsmProps.demo_file <> f_tables TraceProps.demo_other /\ map fst (f_tables AsmProps.demo_file) = map fst (f_tables TraceProps.demo_other).
Proof.
  do 4 eexists. split; [apply TraceProps.C98_lines; split; [exact AsmProps.demo_fits|split; reflexivity]|]. split; [|split; [discriminate|reflexivity]].
  apply TraceProps.C98_lines. split; [|split; reflexivity]. split; [reflexivity|]. split; [repeat constructor|]. split; [constructor|]. apply N.leb_le. vm_compute. reflexivity.
Qed.

(** C104: a dialog with a number is read as a byte from a file, though no file is there. *)
Definition counting : list N := lit "test T: script: [ define g { show_custom_dialog(7); } ] end test; ".
Theorem C104_dialog_refuted : exists f ls s', compile_burn whole counting = Ok f /\ tests_spoken whole f 20 (f_tests f) vm_new = (ls, Ok s') /\
  heard_as ansi (stdout whole ansi (map WTests ls)) [HRunning (lit "T"); HTree (lit "node"); HByte 7; HPopping (lit "g"); HOutcome (lit "T") true] /\
  ~ In (HByte 7) (flat_map to_hear (map WTests ls)).
Proof.
  do 3 eexists. split; [vm_compute; reflexivity|]. split; [vm_compute; reflexivity|]. split.
  - match goal with |- heard_as _ ?t _ => let l := eval vm_compute in (cut [] t) in exists l end. split.
    + match goal with |- text_lines ?t _ => exact (cut_ok t (put_out_ended _ _) [] ltac:(intros []) (or_intror eq_refl)) end.
    + constructor; [exact (SyRunning ansi (lit "T"))|]. constructor; [exact (SyTree ansi (lit "node"))|]. constructor; [exact (SyByte ansi _ _ (digits_numeral 7))|].
      constructor; [exact (SyPopping ansi (lit "g"))|]. constructor; [exact (SyOutcome ansi _ (lit "T") true eq_refl)|constructor].
  - cbn. intros H. repeat (destruct H as [H|H]; [discriminate|]). destruct H.
Qed.
Print Assumptions C104_dialog_refuted.
