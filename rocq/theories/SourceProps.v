(** C97: what is complained about when a schema text is compiled. *)
From Coq Require Import Ascii String NArith ZArith List Bool Arith Lia.
From Verif Require Import Prelude PreludeFacts InstrModel ComponentModel CalcModel CalcDemo BurnModel SchemaModel SchemaSpec SchemaLex SchemaParse SchemaProps GripeModel GripeSpec SourceModel SourceSpec Source HaltSpec HaltSource.
From Verif Require BurnSpec Scripts Gripe GripeProps.
Import ListNotations.
Local Open Scope N_scope.

(** C97: the complaints about a text that is compiled are exactly those about its script texts, in their order. *)
Theorem C97_lines : forall E code g f, source_told E code = (g, Ok f) -> exists ts cs, sreads E 0 [] code ts /\ program_says E ts cs g /\ holds cs f.
Proof.
  intros E code g f H. apply hears_inv in H as (g1 & ts & g2 & T & H & ->). apply mum_inv in T as (T & ->). apply hears_inv in H as (g3 & [h|e] & g4 & C & H & ->); [|discriminate].
  apply mum_inv in H as (H & ->). inversion H; subst. rewrite app_nil_r. apply program_heard in C as (cs & P & ->). exists ts, cs. split; [now apply schema_tokens_exact|]. split; auto. apply adds_hold.
Qed.
Print Assumptions C97_lines.
Definition two_scripts : list N := lit "table A: end table; script: [ define f { jump; } ] test T: script: [ define g { run; } ] end test; script: [ x ] ".
Example C97_lines_ex : exists f, source_told whole two_scripts = ([GStep (lit "jump"); GToken (btok BSemiColon); GStep (lit "run"); GToken (btok BSemiColon); GBetween], Ok f) /\ length (f_scripts f) = 1%nat /\ length (f_tests f) = 1%nat.
Proof. eexists. split; [vm_compute; reflexivity|split; reflexivity]. Qed.
Theorem C97_told : forall E code ts cs g, sreads E 0 [] code ts -> program_says E ts cs g -> exists f, source_told E code = (g, Ok f) /\ holds cs f.
Proof.
  intros E code ts cs g R P. exists (adds cs fmpfile_new). split; [|apply adds_hold]. unfold source_told. rewrite (proj2 (schema_tokens_exact E code ts) R), mum_ok.
  rewrite (program_tells E ts cs g P) by lia. rewrite hears_ok. unfold mum, first. cbn [fst snd]. now rewrite app_nil_r.
Qed.
Print Assumptions C97_told.
Example C97_told_ex : exists ts cs, sreads whole 0 [] two_scripts ts /\ program_says whole ts cs [GStep (lit "jump"); GToken (btok BSemiColon); GStep (lit "run"); GToken (btok BSemiColon); GBetween].
Proof. destruct C97_lines_ex as (f & H & _). apply C97_lines in H as (ts & cs & R & P & _). eauto. Qed.

(** C97: they change nothing, and there is one list of them for each text. *)
Theorem C97_same : forall E code, snd (source_told E code) = compile_burn E code.
Proof. exact source_snd. Qed.
Print Assumptions C97_same.
Example C97_same_ex : source_told whole (lit "script: [ x define f { jump; } define ] table ; ") = ([GBetween; GStep (lit "jump"); GToken (btok BSemiColon)], Panic).
Proof. vm_compute. reflexivity. Qed.
Theorem C97_one : forall E ts cs cs' g g', program_says E ts cs g -> program_says E ts cs' g' -> g = g'.
Proof.
  intros E ts cs cs' g g' P Q. pose proof (program_tells E ts cs g P (S (length ts)) fmpfile_new ltac:(lia)) as A. rewrite (program_tells E ts cs' g' Q (S (length ts)) fmpfile_new) in A by lia.
  now inversion A.
Qed.
Print Assumptions C97_one.
Example C97_one_ex : exists ts cs, sreads whole 0 [] (lit "script: [ x define f { } ] ") ts /\ program_says whole ts cs [GBetween].
Proof.
  destruct (C97_lines whole (lit "script: [ x define f { } ] ") [GBetween] (put_scripts fmpfile_new [(1, mkScript (lit "f") [] [] [] [])])) as (ts & cs & R & P & _); [vm_compute; reflexivity|]. eauto.
Qed.

(** C97: whatever stands after complete components, and also if compiling breaks off there: their complaints come first. *)
Theorem C97_begins : forall E code parts cs b, sreads E 0 [] code (concat (map fst parts) ++ b) -> Forall2 (fun p c => component_says E true (fst p) c (snd p)) parts cs ->
  exists more, fst (source_told E code) = concat (map snd parts) ++ more.
Proof.
  intros E code parts cs b R F. unfold source_told. rewrite (proj2 (schema_tokens_exact E code _) R), mum_ok.
  destruct (program_begins E parts cs F b (S (length (concat (map fst parts) ++ b))) fmpfile_new) as (m & _ & ->); [rewrite app_length; lia|].
  destruct (components_told E m b (adds cs fmpfile_new)) as [g [[f|e]| |]]; exists g; unfold hears, mum, first; cbn [fst snd]; rewrite ?app_nil_r; reflexivity.
Qed.
Print Assumptions C97_begins.
Definition broken_off : list N := lit "script: [ x define f { } ] table ; ".
Example C97_begins_ex : exists a b c, sreads whole 0 [] broken_off (concat (map fst [(a, [GBetween])]) ++ b) /\ component_says whole true a c [GBetween] /\ source_told whole broken_off = ([GBetween], Panic).
Proof.
  exists [tk KScript; tk KColon; tk KOpenSquare; mkStok KScript (lit "x define f { } "); tk KCloseSquare], [tk KTable; tk KSemiColon], (CScripts [mkScript (lit "f") [] [] [] []]).
  split; [apply schema_tokens_exact; vm_compute; reflexivity|]. split; [|vm_compute; reflexivity]. apply CsScripts; try reflexivity. apply script_fwd. vm_compute. reflexivity.
Qed.

(** C97: the complaints about a text that is no schema are exactly those about its complete components, and those about the one it breaks off in. *)
Theorem C97_breaks : forall E code g, source_told E code = (g, Panic) <-> schema_breaks E code g.
Proof. exact source_halts. Qed.
Print Assumptions C97_breaks.
Example C97_breaks_ex : schema_breaks whole (lit "table A: end table; script: [ x define f { jump; } ] test T: script: [ y define g { } ] assertions: a ; script: [ z define h { assert else } ] end test; ")
    [GBetween; GStep (lit "jump"); GToken (btok BSemiColon); GBetween; GBetween] /\
  schema_breaks whole broken_off [GBetween] /\ schema_breaks whole (lit "script: [ x define f { } ] test T: script: [ y ] ") [GBetween; GBetween] /\ schema_breaks whole (lit "script: [ x ") [].
Proof. split; [|split; [|split]]; apply C97_breaks; vm_compute; reflexivity. Qed.

(** What the components are is what SchemaSpec.v says, and each has its complaints. *)
Lemma script_said E code l : text_scripts E code l -> exists g, script_says E code l g.
Proof. intros H. apply Scripts.text_exact in H. rewrite <- Gripe.compile_snd in H. exists (fst (compile_told E code)). apply script_fwd. destruct (compile_told E code). cbn in *. now subst. Qed.
Lemma test_said E b v ts v' : test_body E b v ts v' -> exists g, test_says E b v ts v' g.
Proof.
  induction 1 as [b v|b v t ts v' Ht H (g & IH)|b v w c o x sc ts v' Hw Hc Ho Hx H (g & IH)|b v w c l z ts v' Hw Hc Hl Hz H (g & IH)|v w c l Hw Hc Hl].
  - eexists. constructor.
  - eexists. constructor; eauto.
  - apply script_said in Hx as (gs & Hx). eexists. eapply TsScript; eauto.
  - eexists. eapply TsAsserts; eauto.
  - eexists. now constructor.
Qed.
Theorem C97_said : forall E b a c, component_reads E b a c <-> exists g, component_says E b a c g.
Proof.
  intros E b a c. split; [|intros (g & H); eapply component_rules; eauto].
  intros H. destruct H as [b w n body fin Hw Hn F C|b w n body fin Hw Hn F C|b w d body v fin Hw Hd F C|b w n body v fin Hw Hn F C|w d o x q l Hw Hd Ho Hx Hq|b w n body v fin Hw Hn F C].
  1-4: exists []; apply CsOther; [unfold none_of, is in *; rewrite Hw; cbn; intuition discriminate|econstructor; eauto].
  - apply script_said in Hx as (g & Hx). exists g. now constructor.
  - apply test_said in F as (g & F). exists g. now constructor.
Qed.
Print Assumptions C97_said.
Example C97_said_ex : component_reads whole true [tk KScript; tk KColon; tk KOpenSquare; mkStok KScript (lit "x define f { } "); tk KCloseSquare] (CScripts [mkScript (lit "f") [] [] [] []]) /\
  exists c, component_reads whole true [tk KTable; mkStok KIdentifier (lit "A"); tk KColon; tk KEnd; tk KTable; tk KSemiColon] c.
Proof.
  split; [apply (component_rules whole true _ _ [GBetween]), CsScripts; try reflexivity; apply script_fwd; vm_compute; reflexivity|].
  eexists. apply (CrTable whole true (tk KTable) (mkStok KIdentifier (lit "A")) [tk KColon] [tk KEnd; tk KTable; tk KSemiColon]); try reflexivity; [repeat constructor; intros [Q|[]]; discriminate|constructor; reflexivity].
Qed.

(** C97: without the word script there is no complaint. *)
Lemma test_mum E b v ts v' g : test_says E b v ts v' g -> Forall (fun t => ~ is KScript t) ts -> g = [].
Proof.
  induction 1 as [b v|b v t ts v' g Ht H IH|b v w c o x sc ts v' gs g Hw Hc Ho Hx H IH|b v w c l z ts v' g Hw Hc Hl Hz H IH|v w c l Hw Hc Hl]; intros F; auto; inversion F as [|t' l' F1 F2]; subst; auto; [contradiction|].
  inversion F2 as [|t' l' _ F4]; subst. apply Forall_app in F4 as [_ F4]. inversion F4; subst; auto.
Qed.
Theorem C97_none : forall E ts cs g, program_says E ts cs g -> Forall (fun t => ~ is KScript t) ts -> g = [].
Proof.
  assert (C : forall E b a c g, component_says E b a c g -> Forall (fun t => ~ is KScript t) a -> g = []).
  { intros E b a c g [w d o x q l g' Hw Hd Ho Hx Hq|b' w n body v fin g' Hw Hn F C|b' w u c' H R] Q; auto; inversion Q as [|t' l' Q1 Q2]; subst; [contradiction|].
    inversion Q2 as [|t' l' _ Q4]; subst. apply Forall_app in Q4 as [Q4 _]. eapply test_mum; eauto. }
  induction 1 as [|a c b cs g gs Hc P IH|a c g Hc]; intros Q; auto; [|eapply C; eauto]. apply Forall_app in Q as [Qa Qb]. rewrite (C E true a c g) by auto. rewrite IH; auto.
Qed.
Print Assumptions C97_none.
Example C97_none_ex : exists ts cs, sreads whole 0 [] (lit "table A: junk 5 end table; test T: end test; ") ts /\ program_says whole ts cs [] /\ Forall (fun t => ~ is KScript t) ts.
Proof.
  destruct (C97_lines whole (lit "table A: junk 5 end table; test T: end test; ") [] (mkFile [] [(1, mkTable (lit "A") [] [] [] false)] [] [] [] [] [] [] [mkTest (lit "T") script_new [] [] []])) as (ts & cs & R & P & _); [vm_compute; reflexivity|].
  exists ts, cs. split; auto. split; auto. apply schema_tokens_exact in R. vm_compute in R. inversion R; subst. repeat (constructor; [discriminate|]). constructor.
Qed.

Lemma block_first E b' a d g : component_says E b' a d g -> forall r w c o x b, a ++ r = w :: c :: o :: x :: b -> is KScript w -> exists l, d = CScripts l /\ script_says E (k_text x) l g.
Proof.
  intros [w' d' o' x' q l g' Hw' Hd Ho Hx Hq|b'' w' n body v fin g' Hw' Hn Ft C|b'' w' u c' Hn Rd] r w c o x b Q' Hw; cbn [app] in Q'; inversion Q'; subst; [eauto|unfold is in *; congruence|].
  elim Hn. unfold is in Hw. rewrite Hw. now left.
Qed.
Lemma first_block E ts cs g : program_says E ts cs g -> g = [] -> forall w c o x b, ts = w :: c :: o :: x :: b -> is KScript w -> exists l cs', cs = CScripts l :: cs' /\ script_says E (k_text x) l [].
Proof.
  intros [|a d b' cs' g1 gs Hc P|a d g1 Hc] G w c o x b Q Hw; [discriminate| |].
  - apply app_eq_nil in G as [-> _]. destruct (block_first _ _ _ _ _ Hc _ _ _ _ _ _ Q Hw) as (l & -> & S). eauto.
  - subst g1. destruct (block_first _ _ _ _ _ Hc [] w c o x b) as (l & -> & S); [now rewrite app_nil_r|auto|eauto].
Qed.

(** C97: in a file compiled without complaint, every step that is written out in a script block is a step of one of its scripts. *)
Theorem C97_kept : forall E code f parts cs w c o x b us before y after st,
  source_told E code = ([], Ok f) -> sreads E 0 [] code (concat parts ++ w :: c :: o :: x :: b) -> Forall2 (component_reads E true) parts cs -> is KScript w ->
  BurnSpec.reads E (k_text x) us -> stands us before y after -> becomes y after st ->
  exists k sc, nget (f_scripts f) k = Some sc /\ In st (sc_steps sc).
Proof.
  intros E code f parts cs w c o x b us before y after st H R F Hw U St Bc.
  assert (K : exists pp, Forall2 (fun p c => component_says E true (fst p) c (snd p)) pp cs /\ concat parts = concat (map fst pp)).
  { clear - F. induction F as [|a d parts cs H F (pp & Fp & Q)]; [exists []; split; auto|]. apply C97_said in H as (g & H). exists ((a, g) :: pp). split; [now constructor|]. cbn. now rewrite Q. }
  destruct K as (pp & Fp & Q). rewrite Q in R. set (ts := w :: c :: o :: x :: b) in *. unfold source_told in H. rewrite (proj2 (schema_tokens_exact E code _) R), mum_ok in H.
  destruct (program_begins E pp cs Fp ts (S (length (concat (map fst pp) ++ ts))) fmpfile_new) as (m & _ & T'); [rewrite app_length; lia|]. rewrite T' in H.
  destruct (components_told E m ts (adds cs fmpfile_new)) as [g [[h|e]| |]] eqn:Tm; try discriminate. unfold first in H. cbn [fst snd] in H. rewrite hears_ok in H. unfold mum, first in H. cbn [fst snd] in H.
  inversion H as [[G G']]. subst h. rewrite app_nil_r in G. apply app_eq_nil in G as [_ ->].
  apply program_heard in Tm as (cs2 & P2 & Ea). destruct (first_block E _ _ _ P2 eq_refl w c o x b eq_refl Hw) as (l & cs3 & -> & S). pose proof (proj1 (script_fwd E _ _ _) S) as S'.
  destruct (GripeProps.C96_kept E (k_text x) l us before y after st S' U St Bc) as (sc & I & J).
  assert (Eq : f = adds (cs ++ CScripts l :: cs3) fmpfile_new) by (rewrite Ea; unfold adds; now rewrite fold_left_app).
  destruct (adds_hold (cs ++ CScripts l :: cs3)) as (_ & _ & _ & _ & _ & (_ & Hs & _) & _). rewrite <- Eq in Hs.
  assert (I' : In sc (scripts_of (cs ++ CScripts l :: cs3))) by (apply in_flat_map; exists (CScripts l); split; [apply in_or_app; right; now left|exact I]).
  apply In_nth_error in I' as (i & Hi). exists (1 + N.of_nat i), sc. rewrite Hs. auto.
Qed.
Print Assumptions C97_kept.
Definition clean : list N := lit "table A: end table; script: [ define f(x) { if(a) { assert(b); } } ] ".
Definition clean_text : list N := lit "define f(x) { if(a) { assert(b); } } ".
Definition clean_tokens : list btoken := match get_tokens whole clean_text with Ok l => l | _ => [] end.
Example C97_kept_ex : exists f cs w c o b before after, source_told whole clean = ([], Ok f) /\
  sreads whole 0 [] clean (concat [[tk KTable; mkStok KIdentifier (lit "A"); tk KColon; tk KEnd; tk KTable; tk KSemiColon]] ++ w :: c :: o :: mkStok KScript clean_text :: b) /\
  Forall2 (component_reads whole true) [[tk KTable; mkStok KIdentifier (lit "A"); tk KColon; tk KEnd; tk KTable; tk KSemiColon]] cs /\ is KScript w /\ BurnSpec.reads whole clean_text clean_tokens /\
  stands clean_tokens before (mkBtok BIdentifier (lit "assert")) after /\ becomes (mkBtok BIdentifier (lit "assert")) after (mkStep IAssert 0 [lit "b"]).
Proof.
  eexists. exists [CTable (lit "A")], (tk KScript), (tk KColon), (tk KOpenSquare), [tk KCloseSquare], (firstn 7 clean_tokens), (skipn 8 clean_tokens).
  split; [vm_compute; reflexivity|]. split; [apply schema_tokens_exact; vm_compute; reflexivity|].
  split; [constructor; [apply (CrTable whole true (tk KTable) (mkStok KIdentifier (lit "A")) [tk KColon] [tk KEnd; tk KTable; tk KSemiColon]); try reflexivity; [repeat constructor; intros [Q|[]]; discriminate|constructor; reflexivity]|constructor]|].
  split; [reflexivity|]. split; [apply BurnLex.tokens_exact; vm_compute; reflexivity|]. split; [split; [vm_compute; reflexivity|]|].
  - intros p d H K. change (firstn 7 clean_tokens) with (firstn 6 clean_tokens ++ [btok BOpenBracket]) in H. apply app_inj_tail in H as [_ <-]. discriminate K.
  - change (skipn 8 clean_tokens) with (BurnSpec.args [lit "b"] ++ btok BSemiColon :: skipn 10 clean_tokens). apply BcStep; [reflexivity| |reflexivity]. exists "assert"%string. split; [cbn; tauto|reflexivity].
Qed.

(** C97: it is not true that every word that means nothing is complained about: in tables, and in tests outside their scripts, none is. *)
Theorem C97_words_refuted : exists f, source_told whole (lit "table A: Txet, nonsense end table; test T: scirpt: asert end test; ") = ([], Ok f) /\ length (f_tables f) = 1%nat /\ length (f_tests f) = 1%nat.
Proof. eexists. split; [vm_compute; reflexivity|split; reflexivity]. Qed.
Print Assumptions C97_words_refuted.
(** C97: nor that a test whose script cannot be used is complained about only by its panic: the complaints about the script come before it. *)
Theorem C97_late_refuted : exists g, source_told whole (lit "test T: script: [ define f { jump; } define g { } ] end test; ") = (g, Panic) /\ g <> [].
Proof. eexists. split; [vm_compute; reflexivity|discriminate]. Qed.
Print Assumptions C97_late_refuted.
