(** C96: what the script compiler complains about. *)
From Coq Require Import Ascii String NArith ZArith List Bool Arith Lia.
From Verif Require Import Prelude PreludeFacts InstrModel ComponentModel CalcModel CalcDemo BurnModel VmSpec BurnSpec BurnLex BurnParse ScriptsSpec Scripts ScriptsProps GripeModel GripeSpec Gripe HaltSpec Halt.
Import ListNotations.
Local Open Scope N_scope.

(** C96: the complaints about a text that is compiled are exactly those of its tokens, in their order. *)
Theorem C96_lines : forall E code g scs, compile_told E code = (g, Ok scs) <-> exists ts, reads E code ts /\ text_says [] ts scs g.
Proof. exact compile_gripes. Qed.
Print Assumptions C96_lines.
Example C96_lines_ex : compile_told whole (lit "let define f(x) go , (y) { jump; loop { + exit_loop_if(a); } } ; "%string) =
  ([GBetween; GHead; GStep (lit "jump"); GToken (btok BSemiColon); GToken (btok BPlus); GBetween],
   Ok [mkScript (lit "f") [] [] [lit "x"; lit "y"] [mkStep ILoop 0 []; mkStep IExitLoopIf 0 [lit "a"]; mkStep IEndLoop 0 []]]).
Proof. vm_compute. reflexivity. Qed.

(** C96: they change nothing, and there is one list of them for each text. *)
Theorem C96_same : forall E code, snd (compile_told E code) = compile_burn_script E code.
Proof. exact compile_snd. Qed.
Print Assumptions C96_same.
Example C96_same_ex : fst (compile_told whole (lit "x define f { } "%string)) = [GBetween] /\ snd (compile_told whole (lit "x define f { assert } "%string)) = Panic.
Proof. split; vm_compute; reflexivity. Qed.
Theorem C96_one : forall ts scs scs' g g', text_says [] ts scs g -> text_says [] ts scs' g' -> scs = scs' /\ g = g'.
Proof.
  intros ts scs scs' g g' H K. split; [apply (C81_one ts); eapply text_rules; eauto|].
  rewrite <- (text_back _ _ _ _ H (S (length ts)) []) by lia. now rewrite <- (text_back _ _ _ _ K (S (length ts)) []) by lia.
Qed.
Print Assumptions C96_one.
Example C96_one_ex : exists ts scs, reads whole (lit "y define f { go ; } "%string) ts /\ text_says [] ts scs [GBetween; GStep (lit "go"); GToken (btok BSemiColon)].
Proof.
  destruct (proj1 (C96_lines whole (lit "y define f { go ; } "%string) [GBetween; GStep (lit "go"); GToken (btok BSemiColon)] [mkScript (lit "f") [] [] [] []])) as (ts & R & S);
    [vm_compute; reflexivity|]. eauto.
Qed.

(** C96: the complaints about a text that is not compiled are exactly those before the place where it breaks off. *)
Theorem C96_breaks : forall E code g, compile_told E code = (g, Panic) <-> script_breaks E code g.
Proof. exact script_halts. Qed.
Print Assumptions C96_breaks.
Example C96_breaks_ex : script_breaks whole (lit "go define f { jump; assert(a) loop { } } + "%string) [GBetween; GStep (lit "jump"); GToken (btok BSemiColon)] /\
  script_breaks whole (lit "define f ; { } else define "%string) [GHead; GBetween] /\ script_breaks whole (lit "+ define f { + } a !"%string) [].
Proof. split; [|split]; apply C96_breaks; vm_compute; reflexivity. Qed.

(** C96: where there is no complaint, no word is misspelt, every step that is written out is in a script, and every definition is a script of its own. *)
Theorem C96_misspelt : forall E code g scs ts before x after, compile_told E code = (g, Ok scs) -> reads E code ts -> stands ts before x after ->
  kind BIdentifier x -> unknown (bt_value x) -> g <> [].
Proof.
  intros E code g scs ts b x a H R (Q & Nn) I U G. apply C96_lines in H as (ts' & R' & S). assert (ts' = ts) as -> by (apply tokens_exact in R, R'; congruence).
  destruct (text_find _ _ _ _ S G b x a Q Nn) as (_ & F & _); [unfold kind_in; rewrite I; cbn; auto|]. apply F. auto.
Qed.
Print Assumptions C96_misspelt.
Lemma shown E code g scs : compile_told E code = (g, Ok scs) -> exists ts, get_tokens E code = Ok ts /\ reads E code ts.
Proof. intros H. apply C96_lines in H as (ts & R & _). exists ts. split; [now apply tokens_exact|exact R]. Qed.
Example C96_misspelt_ex : exists g scs ts before after, compile_told whole (lit "define f { asert(x); } "%string) = (g, Ok scs) /\ reads whole (lit "define f { asert(x); } "%string) ts /\
  stands ts before (mkBtok BIdentifier (lit "asert")) after /\ unknown (lit "asert").
Proof.
  do 2 eexists. exists [btok BDefine; mkBtok BIdentifier (lit "f"); btok BOpenBracket; mkBtok BIdentifier (lit "asert"); mkBtok BArgument (lit "x"); btok BSemiColon; btok BCloseBracket].
  exists [btok BDefine; mkBtok BIdentifier (lit "f"); btok BOpenBracket]. eexists. split; [vm_compute; reflexivity|]. split; [apply tokens_exact; vm_compute; reflexivity|].
  split; [split; [reflexivity|]|].
  - intros p d H K. change [btok BDefine; mkBtok BIdentifier (lit "f"); btok BOpenBracket] with ([btok BDefine; mkBtok BIdentifier (lit "f")] ++ [btok BOpenBracket]) in H.
    apply app_inj_tail in H as [_ <-]. discriminate K.
  - intros op (k & Hi & Hk). apply (proj1 (words_none (lit "asert")) ltac:(vm_compute; reflexivity) k op Hi Hk).
Qed.
Theorem C96_kept : forall E code scs ts before x after st, compile_told E code = ([], Ok scs) -> reads E code ts -> stands ts before x after -> becomes x after st ->
  exists sc, In sc scs /\ In st (sc_steps sc).
Proof.
  intros E code scs ts b x a st H R (Q & Nn) B. apply C96_lines in H as (ts' & R' & S). assert (ts' = ts) as -> by (apply tokens_exact in R, R'; congruence).
  destruct (text_find _ _ _ _ S eq_refl b x a Q Nn) as (_ & _ & F); [|now apply F].
  unfold kind_in. inversion B; unfold kind in *; match goal with H : bt_type x = _ |- _ => rewrite H end; cbn; auto 10.
Qed.
Print Assumptions C96_kept.
Definition tidy : list N := lit "define f(x) { if(a) { assert(b); } } define g { assert(c); } "%string.
Definition tidy_tokens : list btoken := match get_tokens whole tidy with Ok l => l | _ => [] end.
Example C96_kept_ex : exists scs before after, compile_told whole tidy = ([], Ok scs) /\ reads whole tidy tidy_tokens /\
  stands tidy_tokens before (mkBtok BIdentifier (lit "assert")) after /\ becomes (mkBtok BIdentifier (lit "assert")) after (mkStep IAssert 0 [lit "b"]).
Proof.
  eexists. exists (firstn 7 tidy_tokens), (skipn 8 tidy_tokens). split; [vm_compute; reflexivity|]. split; [apply tokens_exact; vm_compute; reflexivity|]. split; [split; [vm_compute; reflexivity|]|].
  - intros p d H K. change (firstn 7 tidy_tokens) with (firstn 6 tidy_tokens ++ [btok BOpenBracket]) in H. apply app_inj_tail in H as [_ <-]. discriminate K.
  - change (skipn 8 tidy_tokens) with (args [lit "b"] ++ btok BSemiColon :: skipn 10 tidy_tokens). apply BcStep; [reflexivity| |reflexivity]. exists "assert"%string. split; [cbn; tauto|reflexivity].
Qed.
Theorem C96_scripts : forall E code scs ts before d after, compile_told E code = ([], Ok scs) -> reads E code ts -> stands ts before d after -> kind BDefine d ->
  exists n a sc, after = n :: a /\ In sc scs /\ name_of n (sc_name sc).
Proof.
  intros E code scs ts b x a H R (Q & Nn) D. apply C96_lines in H as (ts' & R' & S). assert (ts' = ts) as -> by (apply tokens_exact in R, R'; congruence).
  destruct (text_find _ _ _ _ S eq_refl b x a Q Nn) as (F & _ & _); [unfold kind_in; rewrite D; cbn; auto|]. now apply F.
Qed.
Print Assumptions C96_scripts.
Example C96_scripts_ex : exists before after, stands tidy_tokens before (btok BDefine) (mkBtok BIdentifier (lit "g") :: after).
Proof.
  exists (firstn 12 tidy_tokens), (skipn 14 tidy_tokens). split; [vm_compute; reflexivity|].
  intros p d H K. change (firstn 12 tidy_tokens) with (firstn 11 tidy_tokens ++ [btok BCloseBracket]) in H. apply app_inj_tail in H as [_ <-]. discriminate K.
Qed.

(** C96: it is not true that nothing is lost without a complaint: the last step, if its semicolon is missing, is. *)
Theorem C96_lost_refuted : exists sc, compile_told whole (lit "define f { assert(a); assert(b)"%string) = ([], Ok [sc]) /\ sc_steps sc = [mkStep IAssert 0 [lit "a"]].
Proof. eexists. split; vm_compute; reflexivity. Qed.
Print Assumptions C96_lost_refuted.
(** C96: nor that a missing bracket or name is complained about. *)
Theorem C96_bracket_refuted : exists a b, compile_told whole (lit "define f { if(x) { assert(y); }"%string) = ([], Ok [a]) /\ compile_told whole (lit "define { { assert(x); }"%string) = ([], Ok [b]) /\ sc_name b = [] /\
  sc_steps a = [mkStep IIf 0 [lit "x"]; mkStep IAssert 0 [lit "y"]; mkStep IEndIf 0 []].
Proof. do 2 eexists. repeat split; vm_compute; reflexivity. Qed.
Print Assumptions C96_bracket_refuted.
