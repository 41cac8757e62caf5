(** C55, C71, C72: the program as a whole. *)
From Coq Require Import Ascii String NArith List Bool Lia Arith Permutation.
From Verif Require DecompRecoverSpec DecompRecover2.
From Verif Require Import Prelude PreludeFacts InstrModel ComponentModel CalcModel DbModel DbGenSpec EvalModel EvalSpec VmModel VmSpec VmTestSpec AsmModel AsmSpec AsmProps DecompModel SchemaModel SchemaSpec SchemaParse DecompMaps CalcDemo DecompRecoverProps DecompSpec DecompProps VmProps SchemaProps MainModel MainSpec MainProofs.
Import ListNotations.
Local Open Scope N_scope.

(** C55: the file that is tested and assembled has for every id the component of the last input file that has one under that id; the tests
    are those of the test files and then of the input files, in order.  Nothing else is in it. *)
Theorem C55_compile : forall E order fuel no_testing tests inputs es f, main_compile E order fuel no_testing tests inputs = (es, Ok f) ->
  exists ts fs, Forall2 (fun i t => compile_burn E (snd i) = Ok t) tests ts /\ Forall2 (fun i t => compile_burn E (snd i) = Ok t) inputs fs /\ collected ts fs f.
Proof.
  intros E order fuel nt tests inputs es f H. unfold main_compile in H. apply and_then_ok in H as (f0 & e1 & e2 & H1 & H2 & ->). apply lift_ok in H1 as [-> H1].
  destruct (tests_read E tests fmpfile_new f0 H1) as (ts & F & Q). apply (compile_inputs E order fuel nt ts inputs [] f0 e2 (Ok f)) in H2; [|now apply collected_start].
  exists ts. assert (K : forall done inputs es r, compile_session E order fuel nt ts done inputs es r -> forall f, r = Ok f -> exists fs, Forall2 (fun i t => compile_burn E (snd i) = Ok t) inputs fs /\ collected ts (done ++ fs) f).
  { clear. induction 1 as [done f C| | |done name code f g reports r| |done name code f g reports inputs es last C G N T A S IH]; intros f' Q; try discriminate.
    - inversion Q; subst. exists []. split; [constructor|]. now rewrite app_nil_r.
    - destruct r; discriminate.
    - destruct (IH f' Q) as (fs & F & L). exists (f :: fs). split; [constructor; auto|]. now rewrite <- app_assoc in L. }
  destruct (K _ _ _ _ H2 f eq_refl) as (fs & F2 & L). exists fs. auto.
Qed.
Print Assumptions C55_compile.
Example C55_compile_ex : exists es f, main_compile whole (fun f => f) 50 true [] [] = (es, Ok f) /\ collected [] [] f.
Proof.
  do 2 eexists. split; [reflexivity|]. destruct (C55_compile whole (fun f => f) 50 true [] [] _ _ eq_refl) as (ts & fs & F1 & F2 & C).
  inversion F1; subst. inversion F2; subst. exact C.
Qed.
(** C55: the same for files that are decompiled. *)
Theorem C55_decompile : forall E order segment_order fuel no_testing tests inputs es f, main_decompile E order segment_order fuel no_testing tests inputs = (es, Ok f) ->
  exists ts fs, Forall2 (fun i t => compile_burn E (snd i) = Ok t) tests ts /\ Forall2 (fun i t => decompile segment_order fuel (snd i) = Ok t) inputs fs /\ collected ts fs f.
Proof.
  intros E order sorder fuel nt tests inputs es f H. unfold main_decompile in H. apply and_then_ok in H as (f0 & e1 & e2 & H1 & H2 & ->). apply lift_ok in H1 as [-> H1].
  destruct (tests_read E tests fmpfile_new f0 H1) as (ts & F & Q). apply (decompile_inputs E order sorder fuel nt ts inputs [] f0 e2 (Ok f)) in H2; [|now apply collected_start].
  exists ts. assert (K : forall done inputs es r, decompile_session E order fuel nt sorder ts done inputs es r -> forall f, r = Ok f -> exists fs, Forall2 (fun i t => decompile sorder fuel (snd i) = Ok t) inputs fs /\ collected ts (done ++ fs) f).
  { clear. induction 1 as [done f C|done name buffer r|done name buffer f g reports r|done name buffer f g reports inputs es last C G T S IH]; intros f' Q.
    - inversion Q; subst. exists []. split; [constructor|]. now rewrite app_nil_r.
    - destruct r; discriminate.
    - destruct r; discriminate.
    - destruct (IH f' Q) as (fs & F & L). exists (f :: fs). split; [constructor; auto|]. now rewrite <- app_assoc in L. }
  destruct (K _ _ _ _ H2 f eq_refl) as (fs & F2 & L). exists fs. auto.
Qed.
Print Assumptions C55_decompile.
Lemma decompile_alone so fuel name bytes f : decompile so fuel bytes = Ok f ->
  main_decompile whole (fun f => f) so fuel true [] [(name, bytes)] = ([EInspect f], Ok (absorb fmpfile_new f)).
Proof. intros H. unfold main_decompile, and_then, lift. cbn [test_files for_inputs fst snd]. unfold decompile_one, and_then, lift, say. cbn [snd fst]. rewrite H. reflexivity. Qed.
Example C55_decompile_ex : exists f, main_decompile whole (fun f => f) (fun l => l) (N.to_nat 5000) true [] [(lit "a.fmp12", DecompRecoverSpec.file_of [DecompRecoverSpec.stored demo_schema])] = ([EInspect f], Ok (absorb fmpfile_new f)) /\
  f_tables f = DecompRecoverSpec.tables_back demo_schema /\ f_scripts f <> [].
Proof.
  destruct stored_schema_recovered_ex as (H1 & H2 & H3 & H4 & H5 & _). eexists. split; [apply decompile_alone|split].
  - apply (stored_schema_recovered (fun l => l) (N.to_nat 5000) demo_schema [(5, demo_source)] [DecompRecoverSpec.stored demo_schema]); auto; [reflexivity|cbn [length]; lia].
  - reflexivity.
  - vm_compute. discriminate.
Qed.

(** C55: so of compiled files the [i]-th table is the [i]-th one of the last file with so many tables, and there are as many tables as in the
    file with the most. *)
Theorem C55_tables : forall E order fuel no_testing tests inputs es f, main_compile E order fuel no_testing tests inputs = (es, Ok f) ->
  exists css, Forall2 (fun i cs => exists toks, sreads E 0 [] (snd i) toks /\ program E toks cs) inputs css /\
    (forall i t, nget (f_tables f) (1 + N.of_nat i) = Some t <-> exists before cs after, css = before ++ cs :: after /\ nth_error (tables_of cs) i = Some t /\
       Forall (fun cs' => (length (tables_of cs') <= i)%nat) after) /\
    length (f_tables f) = list_max (map (fun cs => length (tables_of cs)) css).
Proof.
  intros E order fuel nt tests inputs es f H. apply C55_compile in H as (ts & fs & _ & F & (G & _)). clear es ts tests.
  assert (exists css, Forall2 (fun i cs => exists toks, sreads E 0 [] (snd i) toks /\ program E toks cs) inputs css /\ Forall2 holds css fs) as (css & F1 & F2).
  { clear G f. induction F as [|i g inputs fs Hc F (css & A & B)]; [exists []; split; constructor|].
    destruct (C53_compiled E (snd i) g Hc) as (toks & cs & Ht & Hp & Hh). exists (cs :: css). split; constructor; eauto. }
  exists css. split; [exact F1|]. clear F F1 inputs.
  assert (T : forall cs g, holds cs g -> forall i, nget (f_tables g) (1 + N.of_nat i) = nth_error (tables_of cs) i).
  { intros cs g (_ & _ & _ & (_ & K & _) & _). exact K. }
  assert (T0 : forall cs g, holds cs g -> nget (f_tables g) 0 = None).
  { intros cs g (_ & _ & _ & (_ & _ & K) & _). apply K. lia. }
  assert (I : forall i t, nget (f_tables f) (1 + N.of_nat i) = Some t <-> exists before cs after, css = before ++ cs :: after /\ nth_error (tables_of cs) i = Some t /\ Forall (fun cs' => (length (tables_of cs') <= i)%nat) after).
  { intros i t. rewrite (proj2 G). split.
    - intros (b & g & a & -> & Hg & Fa). apply Forall2_app_inv_r in F2 as (b' & r' & _ & Hr & ->). inversion Hr as [|cs ? a' ? Hh Ha]; subst. exists b', cs, a'. split; auto.
      split; [now rewrite <- (T cs g)|]. clear - T Ha Fa. induction Ha as [|c g a' a H Ha IH]; constructor; inversion Fa; subst; auto.
      apply nth_error_None. now rewrite <- (T c g).
    - intros (b & cs & a & -> & Hn & Fa). apply Forall2_app_inv_l in F2 as (b' & r' & _ & Hr & ->). inversion Hr as [|? g ? a' Hh Ha]; subst. exists b', g, a'. split; auto.
      split; [now rewrite (T cs g)|]. clear - T Ha Fa. induction Ha as [|c g a a' H Ha IH]; constructor; inversion Fa; subst; auto.
      rewrite (T c g) by auto. now apply nth_error_None. }
  split; [exact I|].
  assert (Z : nget (f_tables f) 0 = None).
  { destruct (nget (f_tables f) 0) as [t|] eqn:Q; auto. apply G in Q as (b & g & a & -> & Hg & _). apply Forall2_app_inv_r in F2 as (b' & r' & _ & Hr & _). inversion Hr; subst.
    rewrite (T0 x g) in Hg by auto. discriminate. }
  set (M := list_max (map (fun cs => length (tables_of cs)) css)).
  assert (D : forall i, nget (f_tables f) (1 + N.of_nat i) = None <-> (M <= i)%nat).
  { intros i. subst M. rewrite list_max_le, Forall_map. destruct (nget (f_tables f) (1 + N.of_nat i)) as [t|] eqn:Q.
    - split; [discriminate|]. intros Hf. apply I in Q as (b & cs & a & -> & Hn & _). apply Forall_app in Hf as [_ Hf]. inversion Hf; subst. assert (nth_error (tables_of cs) i <> None) by congruence. apply nth_error_Some in H. lia.
    - split; auto. intros _. assert (Ht : forall t, ~ exists before cs after, css = before ++ cs :: after /\ nth_error (tables_of cs) i = Some t /\ Forall (fun cs' => (length (tables_of cs') <= i)%nat) after).
      { intros t K. apply I in K. congruence. }
      clear - Ht. induction css as [|cs css IH] using rev_ind; [constructor|]. destruct (nth_error (tables_of cs) i) as [t|] eqn:Q.
      + elim (Ht t). exists css, cs, []. auto.
      + apply nth_error_None in Q. apply Forall_app. split; [|auto]. apply IH. intros t (b & c & a & -> & H1 & H2). apply (Ht t). exists b, c, (a ++ [cs]). split; [now rewrite <- app_assoc|]. split; auto. apply Forall_app. auto. }
  assert (P : Permutation (keys (f_tables f)) (map (fun i => 1 + N.of_nat i) (seq 0 M))).
  { apply NoDup_Permutation; [apply G| |].
    - apply FinFun.Injective_map_NoDup; [intros x y; lia|apply seq_NoDup].
    - intros k. rewrite in_map_iff. transitivity (nget (f_tables f) k <> None); [rewrite nget_none; split; [tauto|]; intros H; destruct (in_dec N.eq_dec k (keys (f_tables f))); tauto|].
      destruct (N.eq_dec k 0) as [->|Hk].
      + split; [congruence|]. intros (x & Hx & _). lia.
      + replace k with (1 + N.of_nat (N.to_nat (k - 1))) by lia. rewrite D. split.
        * intros H. exists (N.to_nat (k - 1)). split; auto. apply in_seq. lia.
        * intros (x & Hx & Hs). apply in_seq in Hs. lia. }
  apply Permutation_length in P. unfold keys in P. now rewrite !map_length, seq_length in P.
Qed.
Print Assumptions C55_tables.

Definition same : fmpfile -> fmpfile := fun f => f.
Definition first_input : list N * list N := (lit "one.burn", lit "table A: x: Text, end table; table B: end table; test T: script: [ define t() { set_variable(x, 1); } ], end test;").
Definition second_input : list N * list N := (lit "two.burn", lit "table C: y: Text, end table;").
Definition events (r : ran fmpfile) : list event := fst r.
Definition shown (e : event) : list N * list (list N * bool) :=
  match e with EInspect f => (map (fun t => N.of_nat (length (tb_name (snd t)))) (f_tables f), []) | ERunning t => (t, []) | EReport t p => ([], [(t, p)]) | EWritten n _ => (n, []) end.

Definition two_files : ran fmpfile := main_compile whole same 50 false [] [first_input; second_input].

Lemma compile_one_runs E order fuel nt f i t n g rs : compile_burn E (snd i) = Ok t -> strip_suffix (lit ".burn") (fst i) = Some n -> absorb (set_name f n) t = g ->
  testing E order fuel nt g = (rs, Ok tt) -> fits (order g) -> compile_one E order fuel nt f i = (EInspect g :: rs ++ [EWritten (f_name g ++ lit ".fmp12") (image (order g))], Ok g).
Proof.
  intros C S A T F. unfold compile_one, and_then, lift, say. rewrite C. cbn [fst snd]. rewrite S. cbn [unwrap fst snd]. rewrite A. rewrite T. cbn [fst snd].
  rewrite (proj1 (assembled_image (order g)) F). cbn [fst snd app]. now rewrite ?app_nil_r.
Qed.
Lemma main_runs E order fuel nt i1 i2 f1 f2 n1 n2 g1 g2 rs1 rs2 : compile_burn E (snd i1) = Ok f1 -> strip_suffix (lit ".burn") (fst i1) = Some n1 -> absorb (set_name fmpfile_new n1) f1 = g1 ->
  testing E order fuel nt g1 = (rs1, Ok tt) -> fits (order g1) -> compile_burn E (snd i2) = Ok f2 -> strip_suffix (lit ".burn") (fst i2) = Some n2 -> absorb (set_name g1 n2) f2 = g2 ->
  testing E order fuel nt g2 = (rs2, Ok tt) -> fits (order g2) ->
  main_compile E order fuel nt [] [i1; i2] = ((EInspect g1 :: rs1 ++ [EWritten (f_name g1 ++ lit ".fmp12") (image (order g1))]) ++ (EInspect g2 :: rs2 ++ [EWritten (f_name g2 ++ lit ".fmp12") (image (order g2))]), Ok g2).
Proof.
  intros H1 H2 H3 H4 H5 K1 K2 K3 K4 K5. pose proof (compile_one_runs E order fuel nt fmpfile_new i1 f1 n1 g1 rs1 H1 H2 H3 H4 H5) as R1.
  pose proof (compile_one_runs E order fuel nt g1 i2 f2 n2 g2 rs2 K1 K2 K3 K4 K5) as R2. unfold main_compile. cbn [test_files for_inputs].
  unfold and_then, lift. cbv zeta. cbn [fst snd]. rewrite !R1. cbn [fst snd]. rewrite !R2. cbn [fst snd app]. rewrite ?app_nil_r, <- ?app_assoc. reflexivity.
Qed.
Definition first_file : fmpfile := Eval vm_compute in match compile_burn whole (snd first_input) with Ok f => set_name f (lit "one") | _ => fmpfile_new end.
Definition second_file : fmpfile := Eval vm_compute in match compile_burn whole (snd second_input) with Ok f => f | _ => fmpfile_new end.
Definition both_files : fmpfile := Eval vm_compute in absorb (set_name first_file (lit "two")) second_file.
Ltac fit := split; [vm_compute; reflexivity|]; split; [repeat constructor|]; split; [repeat constructor|]; apply N.leb_le; vm_compute; reflexivity.
Lemma two_files_run : two_files = ((EInspect first_file :: [ERunning (lit "T"); EReport (lit "T") true] ++ [EWritten (f_name first_file ++ lit ".fmp12") (image (same first_file))]) ++
  (EInspect both_files :: [ERunning (lit "T"); EReport (lit "T") true] ++ [EWritten (f_name both_files ++ lit ".fmp12") (image (same both_files))]), Ok both_files).
Proof.
  apply (main_runs whole same 50 false first_input second_input (set_name first_file []) second_file (lit "one") (lit "two") first_file both_files [ERunning (lit "T"); EReport (lit "T") true] [ERunning (lit "T"); EReport (lit "T") true]);
    first [fit | vm_compute; reflexivity].
Qed.

(** C55: not every component is kept: the second file's table replaces the first table of the first file. *)
Theorem C55_all_kept_refuted : exists es f, two_files = (es, Ok f) /\ f_tables f = [(1, mkTable (lit "C") [] [] [] false); (2, mkTable (lit "B") [] [] [] false)].
Proof. rewrite two_files_run. do 2 eexists. split; reflexivity. Qed.
Print Assumptions C55_all_kept_refuted.
Example C55_example : exists es f, two_files = (es, Ok f) /\ lenN (f_tests f) = 1 /\ f_name f = lit "two".
Proof. rewrite two_files_run. do 2 eexists. split; [reflexivity|]. split; reflexivity. Qed.

Lemma reordered_get {V} (l m : list (N * V)) k : Permutation l m -> NoDup (keys l) -> nget l k = nget m k.
Proof.
  intros P. induction P as [|[a b] l m P IH|[a b] [c d] l|l m o P1 IH1 P2 IH2]; intros H; auto.
  - inversion H; subst. change (nget ((a, b) :: l) k) with (if a =? k then Some b else nget l k).
    change (nget ((a, b) :: m) k) with (if a =? k then Some b else nget m k). now rewrite IH.
  - inversion H as [|? ? H1 H2]; subst. change (nget ((a, b) :: (c, d) :: l) k) with (if a =? k then Some b else if c =? k then Some d else nget l k).
    change (nget ((c, d) :: (a, b) :: l) k) with (if c =? k then Some d else if a =? k then Some b else nget l k).
    destruct (N.eqb_spec a k) as [->|]; [|reflexivity]. destruct (N.eqb_spec c k) as [->|]; [|reflexivity]. elim H1. now left.
  - rewrite IH1 by auto. apply IH2. unfold keys in *. eapply Permutation_NoDup; [apply Permutation_map; exact P1|exact H].
Qed.
Lemma gathered_reordered {V} (part : fmpfile -> list (N * V)) fs f g : Permutation (part f) (part g) -> gathered part fs f -> gathered part fs g.
Proof.
  intros P [N1 G]. split; [unfold keys in *; eapply Permutation_NoDup; [apply Permutation_map; exact P|exact N1]|].
  intros k v. rewrite <- (reordered_get _ _ k P N1). apply G.
Qed.
Lemma collected_reordered ts fs f g : reordered f g -> collected ts fs f -> collected ts fs g.
Proof.
  intros (R0 & R1 & R2 & R3 & R4 & R5 & R6 & R7 & R8) (H1 & H2 & H3 & H4 & H5 & H6 & H7 & H8).
  split; [eapply gathered_reordered; eauto|]. split; [eapply gathered_reordered; eauto|]. split; [eapply gathered_reordered; eauto|]. split; [eapply gathered_reordered; eauto|].
  split; [eapply gathered_reordered; eauto|]. split; [eapply gathered_reordered; eauto|]. split; [|congruence]. rewrite H7 in R7. now apply Permutation_nil in R7.
Qed.

(** C71: compiling goes through the input files in order.  For each one, the file collected so far, with the tests of all files so far, is shown,
    tested and assembled, and written under the name of this input, whose ending must be .burn.  The program ends early with a panic when an input
    does not compile, has another ending, or makes the file too large, and when a test panics; what was written before stays.  With a test file that
    does not compile nothing happens. *)
Theorem C71_compile : forall E order fuel no_testing tests inputs es r, main_compile E order fuel no_testing tests inputs = (es, r) ->
  (es = [] /\ r = Panic /\ exists i, In i tests /\ compile_burn E (snd i) = Panic) \/
  (exists ts, Forall2 (fun i t => compile_burn E (snd i) = Ok t) tests ts /\ compile_session E order fuel no_testing ts [] inputs es r).
Proof.
  intros E order fuel nt tests inputs es r H. unfold main_compile in H. destruct (tests_end E tests fmpfile_new) as [(f0 & H1)|(H1 & i & Hi & Hp)]; rewrite H1 in H.
  - right. destruct (tests_read E tests fmpfile_new f0 H1) as (ts & F & Q). exists ts. split; auto. unfold and_then, lift in H. cbn [fst snd app] in H.
    apply (compile_inputs E order fuel nt ts inputs [] f0); [now apply collected_start|]. now destruct (for_inputs (compile_one E order fuel nt) inputs f0).
  - left. inversion H; subst. eauto.
Qed.
Print Assumptions C71_compile.
Example C71_compile_ex : exists es f, two_files = (es, Ok f) /\ compile_session whole same 50 false [] [] [first_input; second_input] es (Ok f).
Proof.
  rewrite two_files_run. do 2 eexists. split; [reflexivity|].
  destruct (C71_compile whole same 50 false [] [first_input; second_input] _ _ two_files_run) as [(H & _)|(ts & F & S)]; [discriminate|].
  inversion F; subst. exact S.
Qed.
(** C71: decompiling: the decompiled file itself is shown, and everything collected is tested; nothing is written. *)
Theorem C71_decompile : forall E order segment_order fuel no_testing tests inputs es r, main_decompile E order segment_order fuel no_testing tests inputs = (es, r) ->
  (es = [] /\ r = Panic /\ exists i, In i tests /\ compile_burn E (snd i) = Panic) \/
  (exists ts, Forall2 (fun i t => compile_burn E (snd i) = Ok t) tests ts /\ decompile_session E order fuel no_testing segment_order ts [] inputs es r).
Proof.
  intros E order sorder fuel nt tests inputs es r H. unfold main_decompile in H. destruct (tests_end E tests fmpfile_new) as [(f0 & H1)|(H1 & i & Hi & Hp)]; rewrite H1 in H.
  - right. destruct (tests_read E tests fmpfile_new f0 H1) as (ts & F & Q). exists ts. split; auto. unfold and_then, lift in H. cbn [fst snd app] in H.
    apply (decompile_inputs E order sorder fuel nt ts inputs [] f0); [now apply collected_start|]. now destruct (for_inputs (decompile_one E order sorder fuel nt) inputs f0).
  - left. inversion H; subst. eauto.
Qed.
Print Assumptions C71_decompile.
Example C71_decompile_ex : exists f g, main_decompile whole (fun f => f) (fun l => l) (N.to_nat 5000) true [] [(lit "a.fmp12", DecompRecoverSpec.file_of [DecompRecoverSpec.stored demo_schema])] = ([EInspect f], Ok g) /\
  decompile_session whole (fun f => f) (N.to_nat 5000) true (fun l => l) [] [] [(lit "a.fmp12", DecompRecoverSpec.file_of [DecompRecoverSpec.stored demo_schema])] [EInspect f] (Ok g).
Proof.
  destruct C55_decompile_ex as (f & H & _). exists f. eexists. split; [exact H|].
  destruct (C71_decompile _ _ _ _ _ _ _ _ _ H) as [(K & _)|(ts & F & S)]; [discriminate|]. inversion F; subst. exact S.
Qed.

(** C71: what is tested and assembled is the collected file whatever the order in which its maps are visited: it is collected too. *)
Theorem C71_any_order : forall ts fs f g, reordered f g -> collected ts fs f -> collected ts fs g.
Proof. exact collected_reordered. Qed.
Print Assumptions C71_any_order.

Lemma and_then_then {A B C} (x : ran A) (k : A -> ran B) (h : B -> ran C) : and_then (and_then x k) h = and_then x (fun a => and_then (k a) h).
Proof.
  unfold and_then. destruct x as [e [a| |]]; cbn [fst snd]; cbv zeta; auto. destruct (k a) as [e2 [b| |]]; cbn [fst snd]; auto. now rewrite app_assoc.
Qed.
Lemma and_then_same {A B} (x : ran A) (k h : A -> ran B) : (forall a, k a = h a) -> and_then x k = and_then x h.
Proof. intros H. unfold and_then. destruct x as [e [a| |]]; cbn [fst snd]; auto. now rewrite H. Qed.
Lemma inputs_app body a : forall b f, for_inputs body (a ++ b) f = and_then (for_inputs body a f) (for_inputs body b).
Proof.
  induction a as [|i a IH]; intros b f; cbn [app for_inputs].
  - unfold and_then, lift. cbn. now destruct (for_inputs body b f).
  - rewrite and_then_then. apply and_then_same. intros g. apply IH.
Qed.
Lemma main_app E order fuel nt tests a b : main_compile E order fuel nt tests (a ++ b) = and_then (main_compile E order fuel nt tests a) (for_inputs (compile_one E order fuel nt) b).
Proof. unfold main_compile. rewrite and_then_then. apply and_then_same. intros f. apply inputs_app. Qed.
(** C71: an input that does not compile, or whose name does not end in .burn, ends the program with a panic; what was written for the inputs before it stays, and
    nothing is written for it and the inputs after it. *)
Theorem C71_bad_input : forall E order fuel no_testing tests inputs es f name code rest, main_compile E order fuel no_testing tests inputs = (es, Ok f) ->
  compile_burn E code = Panic \/ (forall n, name <> n ++ lit ".burn") ->
  main_compile E order fuel no_testing tests (inputs ++ (name, code) :: rest) = (es, Panic).
Proof.
  intros E order fuel nt tests inputs es f name code rest H B. rewrite main_app, H. unfold and_then at 1. cbn [fst snd for_inputs].
  assert (K : compile_one E order fuel nt f (name, code) = ([], Panic)).
  { unfold compile_one. cbn [fst snd]. destruct (C53_ends E code) as [->|(g & Hg)]; [reflexivity|]. destruct B as [B|B]; [congruence|]. rewrite Hg.
    destruct (strip_suffix (lit ".burn") name) as [n|] eqn:S; [apply strip_ok in S; now elim (B n)|]. reflexivity. }
  rewrite K. cbn. now rewrite app_nil_r.
Qed.
Print Assumptions C71_bad_input.
Example C71_bad_input_ex : main_compile whole same 50 false [] ([first_input; second_input] ++ [(lit "notes.txt", lit "table ;")]) = (fst two_files, Panic).
Proof.
  pose proof two_files_run as R. unfold two_files in R. rewrite (C71_bad_input whole same 50 false [] [first_input; second_input] _ _ (lit "notes.txt") (lit "table ;") [] R).
  - now rewrite two_files_run.
  - left. vm_compute. reflexivity.
Qed.
(** C71: a test file that does not compile ends the program before anything else. *)
Theorem C71_bad_test_file : forall E order fuel no_testing before name code rest inputs, Forall (fun i => exists t, compile_burn E (snd i) = Ok t) before -> compile_burn E code = Panic ->
  main_compile E order fuel no_testing (before ++ (name, code) :: rest) inputs = ([], Panic).
Proof.
  intros E order fuel nt before name code rest inputs F C. unfold main_compile. assert (K : forall f, test_files E (before ++ (name, code) :: rest) f = Panic).
  { induction F as [|i before (t & Ht) F IH]; intros f; cbn [app test_files snd].
    - now rewrite C.
    - rewrite Ht. cbn [bind]. apply IH. }
  now rewrite K.
Qed.
Print Assumptions C71_bad_test_file.
Lemma collected_one f : keyed f -> f_sources f = [] -> collected [] [f] f.
Proof.
  intros K S. assert (L : forall V (part : fmpfile -> list (N * V)), NoDup (keys (part f)) -> gathered part [f] f).
  { intros V part N1. split; auto. intros k v. split; [intros H; exists [], f, []; auto|]. intros ([|x b] & y & a & Q & H & _); [now inversion Q; subst|destruct b; discriminate]. }
  destruct K as (K1 & K2 & K3 & K4 & K5 & K6). repeat (split; [now apply L|]). split; [exact S|]. cbn. now rewrite app_nil_r.
Qed.
Example C71_any_order_example : let f := mkFile [] [(1, mkTable (lit "A") [] [] [] false); (2, mkTable (lit "B") [] [] [] false)] [] [] [] [] [] [] [] in
  let g := mkFile [] [(2, mkTable (lit "B") [] [] [] false); (1, mkTable (lit "A") [] [] [] false)] [] [] [] [] [] [] [] in reordered f g /\ collected [] [f] f.
Proof.
  split; [|apply collected_one; [|reflexivity]].
  - unfold reordered. cbn. repeat split; auto. apply perm_swap.
  - unfold keyed. cbn. repeat split; repeat constructor; cbn; intuition discriminate.
Qed.
Example C71_example : map shown (events two_files) = [([1; 1], []); (lit "T", []); ([], [(lit "T", true)]); (lit "one.fmp12", []); ([1; 1], []); (lit "T", []); ([], [(lit "T", true)]); (lit "two.fmp12", [])] /\
  fits (same both_files).
Proof. split; [rewrite two_files_run; cbn [events fst map shown app]; reflexivity|fit]. Qed.
Example C71_bad_example : compile_burn whole (lit "table ;") = Panic /\ (forall n, lit "notes.txt" <> n ++ lit ".burn").
Proof.
  split; [vm_compute; reflexivity|]. intros n H. apply strip_ok in H. vm_compute in H. discriminate.
Qed.
(** C71: a test of the first file is not run just once, but again after each further file. *)
Theorem C71_tested_once_refuted : flat_map (fun e => match e with EReport t p => [(t, p)] | _ => [] end) (events two_files) = [(lit "T", true); (lit "T", true)].
Proof. rewrite two_files_run. cbn [events fst flat_map app]. reflexivity. Qed.
Print Assumptions C71_tested_once_refuted.

Lemma then_end {A B} (x : ran A) (k : A -> ran B) a : snd x = Ok a -> snd (and_then x k) = snd (k a).
Proof. unfold and_then. now intros ->. Qed.
Lemma end_then {A B} (x : ran A) (k : A -> ran B) : snd x = NoFuel -> snd (and_then x k) = NoFuel.
Proof. unfold and_then. now intros ->. Qed.
Lemma compile_one_hangs E order fuel nt f i t n : compile_burn E (snd i) = Ok t -> strip_suffix (lit ".burn") (fst i) = Some n ->
  snd (testing E order fuel nt (absorb (set_name f n) t)) = NoFuel -> snd (compile_one E order fuel nt f i) = NoFuel.
Proof.
  intros C S T. unfold compile_one. rewrite (then_end _ _ t) by exact C. rewrite (then_end _ _ n) by (unfold lift; cbn [snd]; now rewrite S). cbv zeta.
  rewrite (then_end _ _ tt) by reflexivity. now apply end_then.
Qed.
Lemma testing_hangs E order fuel f s t l : f_tests f <> [] -> generate_test_environment (order f) vm_new = Ok s -> f_tests (order f) = t :: l ->
  run_test E (order f) fuel (load_test s t) = NoFuel -> snd (testing E order fuel false f) = NoFuel.
Proof.
  intros T G Q R. unfold testing. destruct (f_tests f) as [|t' l']; [now elim T|]. cbn [negb andb]. rewrite (then_end _ _ s) by exact G. apply end_then.
  rewrite Q. cbn [print_tests]. rewrite (then_end _ _ tt) by reflexivity. apply end_then. exact R.
Qed.

Lemma main_hangs E order fuel i1 i2 f1 f2 n f3 s t l : snd (compile_one E order fuel false fmpfile_new i1) = Ok f1 -> compile_burn E (snd i2) = Ok f2 ->
  strip_suffix (lit ".burn") (fst i2) = Some n -> absorb (set_name f1 n) f2 = f3 -> generate_test_environment (order f3) vm_new = Ok s -> f_tests f3 = t :: l -> f_tests (order f3) = t :: l ->
  run_test E (order f3) fuel (load_test s t) = NoFuel -> snd (main_compile E order fuel false [] [i1; i2]) = NoFuel.
Proof.
  intros C1 C2 S A G T1 T2 R. unfold main_compile. cbn [test_files for_inputs]. rewrite (then_end _ _ fmpfile_new) by reflexivity. rewrite (then_end _ _ f1) by exact C1.
  apply end_then. apply (compile_one_hangs _ _ _ _ _ _ f2 n); auto. rewrite A. apply (testing_hangs _ _ _ _ s t l); auto. congruence.
Qed.

(** C71: files that are fine on their own can make the program run for ever together: a script of the second file takes the place of the script
    that a test calls, and the runner waits for it for ever.  Without that script the test passes. *)
Definition library_input : list N * list N := (lit "lib.burn", lit "script: [ define f() { exit_script(1); } ]").
Definition caller_input : list N * list N := (lit "use.burn", lit "test T: script: [ define t() { perform_script(""f""); } ], end test;").
Definition clash_input : list N * list N := (lit "use.burn", lit "script: [ define g() { exit_script(1); } ] test T: script: [ define t() { perform_script(""f""); } ], end test;").
Definition clash_f1 := Eval vm_compute in match compile_burn whole (snd library_input) with Ok f => set_name f (lit "lib") | _ => fmpfile_new end.
Definition clash_f2 := Eval vm_compute in match compile_burn whole (snd clash_input) with Ok f => f | _ => fmpfile_new end.
Definition clash_f3 := Eval vm_compute in absorb (set_name clash_f1 (lit "use")) clash_f2.
Definition clash_s0 := Eval vm_compute in match generate_test_environment clash_f3 vm_new with Ok s => s | _ => vm_new end.
Definition clash_t := Eval vm_compute in match f_tests clash_f3 with t :: _ => t | [] => mkTest [] script_new [] [] [] end.
Definition clash_cur := Eval vm_compute in match sc_steps (te_script clash_t) with c :: _ => c | [] => mkStep ILoop 0 [] end.
Theorem C71_name_clash_refuted : (forall fuel, snd (main_compile whole same fuel false [] [library_input; clash_input]) = NoFuel) /\
  map shown (events (main_compile whole same 50 false [] [library_input; caller_input])) = [([], []); (lit "lib.fmp12", []); ([], []); (lit "T", []); ([], [(lit "T", true)]); (lit "use.fmp12", [])].
Proof.
  split; cycle 1.
  { rewrite (main_runs whole same 50 false library_input caller_input (set_name clash_f1 []) (mkFile [] [] [] [] [] [] [] [] (f_tests clash_f2)) (lit "lib") (lit "use") clash_f1
      (mkFile (lit "use") [] [] [] [] (f_scripts clash_f1) [] [] (f_tests clash_f2)) [] [ERunning (lit "T"); EReport (lit "T") true]);
    [cbn [events fst map shown app]; reflexivity | first [fit | vm_compute; reflexivity] ..]. }
  intros fuel.
  apply (main_hangs whole same fuel library_input clash_input clash_f1 clash_f2 (lit "use") clash_f3 clash_s0 clash_t []);
  [rewrite (compile_one_runs whole same fuel false fmpfile_new library_input (set_name clash_f1 []) (lit "lib") clash_f1 []);
    [reflexivity|vm_compute; reflexivity|vm_compute; reflexivity|vm_compute; reflexivity|reflexivity|fit]|vm_compute; reflexivity|vm_compute; reflexivity|vm_compute; reflexivity|vm_compute; reflexivity|reflexivity|reflexivity|].
  change (same clash_f3) with clash_f3. apply (C49_unknown_script whole clash_f3 (load_test clash_s0 clash_t) clash_cur (lit """f""") [] (lit "f") fuel); [| | |computed| |reflexivity|vm_compute; discriminate].
  - do 5 eexists. split; [reflexivity|]. split; [reflexivity|]. split; [|reflexivity]. reflexivity.
  - reflexivity.
  - reflexivity.
  - intros sc (b & a & Q & N1 & _). destruct b as [|x b]; [|destruct b; discriminate]. inversion Q; subst. discriminate.
Qed.
Print Assumptions C71_name_clash_refuted.

(** C72: every decompiled file is in order: no id is used twice in any of its maps, the occurrences and relationships have the ids 1, 2, 3, ..., the
    fields of each table come in ascending order. *)
Theorem C72_decompiled : forall segment_order fuel buffer f, decompile segment_order fuel buffer = Ok f -> fine f.
Proof. exact decompiled_fine. Qed.
Print Assumptions C72_decompiled.
Example C72_example : exists buffer f, decompile (fun l => l) (N.to_nat 5000) buffer = Ok f /\ map fst (f_occurrences f) = [1; 2; 3] /\ map fst (f_relationships f) = [1; 2] /\
  map (fun e => map fst (tb_fields (snd e))) (f_tables f) = [[]; [1; 2]].
Proof.
  destruct stored_schema_recovered_ex as (W & S & C & B & L & T & R & O). exists (DecompRecoverSpec.file_of [DecompRecoverSpec.stored demo_schema]). eexists.
  split; [apply (stored_schema_recovered (fun l => l) (N.to_nat 5000) demo_schema [(5, demo_source)] [DecompRecoverSpec.stored demo_schema]); auto; try reflexivity; cbn; lia|].
  cbn [f_occurrences f_relationships f_tables]. rewrite T, R, O. auto.
Qed.

(** C72: so what is collected from compiled and decompiled files never has an id twice either, and has the form the database of the test runner
    needs: [maps_ok], which the theorems for C28 to C33 and C67 suppose. *)
Theorem C72_collected : forall E segment_order fuel ts fs f g, collected ts fs f -> reordered f g ->
  Forall (fun x => (exists code, compile_burn E code = Ok x) \/ (exists buffer, decompile segment_order fuel buffer = Ok x)) fs -> keyed g /\ maps_ok g.
Proof.
  intros E sorder fuel ts fs f g C R F. apply (collected_reordered _ _ _ _ R) in C. clear f R. destruct C as ((N1 & G) & (N2 & _) & (N3 & _) & (N4 & _) & (N5 & _) & (N6 & _) & _).
  split; [repeat split; auto|]. split; auto. split; auto. split; auto. intros i t Hi. assert (Q : nget (f_tables g) i = Some t) by (apply DecompRecover2.nget_of_in; auto). apply G in Q as (b & x & a & -> & Q & _).
  apply Forall_app in F as [_ F]. inversion F as [|? ? [(code & Hx)|(buffer & Hx)] _]; subst.
  - destruct (C53_compiled E code x Hx) as (toks & cs & _ & _ & (_ & _ & _ & (M1 & M2 & M3) & _)). destruct (N.eq_dec i 0) as [->|Hn]; [rewrite M3 in Q by lia; discriminate|].
    replace i with (1 + N.of_nat (N.to_nat (i - 1))) in Q by lia. rewrite M2 in Q. apply nth_error_In in Q. unfold tables_of in Q. apply in_flat_map in Q as (c & _ & Q).
    destruct c; cbn in Q; try tauto. destruct Q as [<-|[]]. constructor.
  - apply decompiled_fine in Hx. apply fine_keyed in Hx as (_ & (_ & _ & _ & Hf)). apply (Hf i t). exact (mget_In N.eqb N.eqb_spec _ _ _ Q).
Qed.
Print Assumptions C72_collected.
Example C72_collected_example : exists f g, compile_burn whole (lit "table A: end table; table B: end table;") = Ok f /\ collected [] [f] f /\ reordered f g /\ f <> g.
Proof.
  exists (mkFile [] [(1, mkTable (lit "A") [] [] [] false); (2, mkTable (lit "B") [] [] [] false)] [] [] [] [] [] [] []),
    (mkFile [] [(2, mkTable (lit "B") [] [] [] false); (1, mkTable (lit "A") [] [] [] false)] [] [] [] [] [] [] []).
  split; [vm_compute; reflexivity|]. destruct C71_any_order_example as [R C]. split; [exact C|]. split; [exact R|discriminate].
Qed.

Lemma session_written E order fuel nt ts done inputs es r n c : compile_session E order fuel nt ts done inputs es r -> In (EWritten n c) es ->
  exists g fs, fits (order g) /\ c = image (order g) /\ collected ts (done ++ fs) g /\ Forall (fun x => exists i, In i inputs /\ compile_burn E (snd i) = Ok x) fs.
Proof.
  assert (Tn : forall g rs o, tested E order fuel nt g rs o -> ~ In (EWritten n c) rs).
  { assert (Sh : forall rs, ~ In (EWritten n c) (shows rs)) by (induction rs as [|x rs IH]; cbn; intuition discriminate).
    intros g rs o [ | | | ]; try (cbn; intuition discriminate); auto. intros Hi. apply in_app_or in Hi as [Hi|Hi]; [now apply Sh in Hi|cbn in Hi; intuition discriminate]. }
  induction 1 as [done f C| | |done name code f g reports r inputs C G N T|done name code f g reports inputs C G N T|done name code f g reports inputs es last C G N T F S IH]; intros Hi; try destruct Hi as [Hi|Hi]; try discriminate; try contradiction.
  - now elim (Tn _ _ _ T).
  - now elim (Tn _ _ _ T).
  - apply in_app_or in Hi as [Hi|[Hi|Hi]].
    + now elim (Tn _ _ _ T).
    + inversion Hi; subst. exists g, [f]. split; auto. split; auto. split; auto. constructor; [|constructor]. exists (f_name g ++ lit ".burn", code). split; [now left|exact C].
    + destruct (IH Hi) as (g' & fs & H1 & H2 & H3 & H4). exists g', (f :: fs). split; auto. split; auto. split; [now rewrite <- app_assoc in H3|]. constructor.
      * exists (name ++ lit ".burn", code). split; [now left|exact C].
      * eapply Forall_impl; [|exact H4]. cbn. intros x (i & K1 & K2). exists i. split; auto.
Qed.
(** C73: what the program writes for a schema is lost on the way back: decompiling any file the compiler has written gives an empty file, with
    no tables, occurrences or scripts.  Only names of more than 125 characters are left out here. *)
Theorem C73_written_is_empty : forall E order segment_order fuel fuel' no_testing tests inputs es r n c, main_compile E order fuel no_testing tests inputs = (es, r) -> In (EWritten n c) es ->
  (forall f, reordered f (order f)) -> segment_order [] = [] -> (N.to_nat 5000 <= fuel')%nat ->
  (forall i f, In i inputs -> compile_burn E (snd i) = Ok f -> short_names f) -> decompile segment_order fuel' c = Ok fmpfile_new.
Proof.
  intros E order sorder fuel fuel' nt tests inputs es r n c H Hw Ho Hs Hf Hn. apply C71_compile in H as [(-> & _)|(ts & _ & H)]; [destruct Hw|].
  destruct (session_written _ _ _ _ _ _ _ _ _ _ _ H Hw) as (g & fs & F & -> & C & K). apply (collected_reordered _ _ _ _ (Ho g)) in C. cbn [app] in C.
  apply (decompiled_assembly_is_empty sorder fuel' (order g)); auto. destruct C as ((N1 & G1) & _ & _ & _ & _ & (N2 & G2) & _).
  rewrite Forall_forall in K. split; apply Forall_forall; intros [k v] Hi.
  - assert (Q : nget (f_tables (order g)) k = Some v) by (apply DecompRecover2.nget_of_in; auto). apply G1 in Q as (b & x & a & -> & Q & _).
    destruct (K x) as (i & Ii & Ci); [apply in_or_app; right; now left|]. destruct (Hn i x Ii Ci) as [S1 _]. rewrite Forall_forall in S1. apply (S1 (k, v)). exact (mget_In N.eqb N.eqb_spec _ _ _ Q).
  - assert (Q : nget (f_occurrences (order g)) k = Some v) by (apply DecompRecover2.nget_of_in; auto). apply G2 in Q as (b & x & a & -> & Q & _).
    destruct (K x) as (i & Ii & Ci); [apply in_or_app; right; now left|]. destruct (Hn i x Ii Ci) as [_ S1]. rewrite Forall_forall in S1. apply (S1 (k, v)). exact (mget_In N.eqb N.eqb_spec _ _ _ Q).
Qed.
Print Assumptions C73_written_is_empty.
Example C73_example : exists n c, In (EWritten n c) (events two_files) /\ (forall f, reordered f (same f)) /\
  (forall i f, In i [first_input; second_input] -> compile_burn whole (snd i) = Ok f -> short_names f).
Proof.
  do 2 eexists. split; [rewrite two_files_run; cbn [events fst app]; do 3 right; left; reflexivity|]. split.
  - intros f. unfold reordered, same. repeat (split; [first [reflexivity|apply Permutation_refl]|]). reflexivity.
  - intros i f [<-|[<-|[]]] H.
    + replace (compile_burn whole (snd first_input)) with (Ok (set_name first_file [])) in H by (vm_compute; reflexivity). inversion H; subst. split; repeat constructor; intro Q; vm_compute in Q; discriminate Q.
    + replace (compile_burn whole (snd second_input)) with (Ok second_file) in H by (vm_compute; reflexivity). inversion H; subst. split; repeat constructor; intro Q; vm_compute in Q; discriminate Q.
Qed.
