(** Theorems about the scripts of arbitrary texts. *)
From Coq Require Import Ascii String NArith List Bool Arith Lia.
From Verif Require Import Prelude PreludeFacts InstrModel ComponentModel CalcModel CalcDemo BurnModel VmSpec BurnSpec BurnLex BurnParse ScriptsSpec Scripts.
Import ListNotations.
Local Open Scope N_scope.

(** C81: a text, structured or not, is compiled to exactly the scripts that its tokens stand for. *)
Theorem C81_text : forall E code scs, compile_burn_script E code = Ok scs <-> exists ts, reads E code ts /\ scripts_read [] ts scs.
Proof. exact text_exact. Qed.
Print Assumptions C81_text.
Definition odd_text : list N := lit "let define f(x) , (y) { go; if(a) { assert(b); } elif(c) { } else { loop { exit_loop_if(d); } + } } ; define { assert(e) "%string.
Definition odd_scripts : list script :=
  [mkScript (lit "f") [] [] [lit "x"; lit "y"]
     [mkStep IIf 0 [lit "a"]; mkStep IAssert 0 [lit "b"]; mkStep IElseIf 0 [lit "c"]; mkStep IElse 0 []; mkStep ILoop 0 [];
      mkStep IExitLoopIf 0 [lit "d"]; mkStep IEndLoop 0 []; mkStep IEndIf 0 []];
   mkScript [] [] [] [lit "e"] []].
Example C81_text_ex : exists ts, reads whole odd_text ts /\ scripts_read [] ts odd_scripts /\ length ts = 36%nat.
Proof.
  assert (H : compile_burn_script whole odd_text = Ok odd_scripts) by (vm_compute; reflexivity).
  apply C81_text in H as (ts & R & S). exists ts. repeat split; auto. apply tokens_exact in R.
  assert (G : match get_tokens whole odd_text with Ok l => length l | _ => O end = 36%nat) by (vm_compute; reflexivity). now rewrite R in G.
Qed.
(** C81: the scripts are determined by the tokens, and the compiler stops on exactly the texts that stand for no scripts. *)
Theorem C81_one : forall ts a b, scripts_read [] ts a -> scripts_read [] ts b -> a = b.
Proof. intros ts a b A B. apply scripts_exact in A, B. congruence. Qed.
Print Assumptions C81_one.
Example C81_one_ex : scripts_read [] [btok BDefine; mkBtok BIdentifier (lit "f"); btok BOpenBracket; btok BCloseBracket] [mkScript (lit "f") [] [] [] []].
Proof. apply scripts_exact. reflexivity. Qed.
Theorem C81_aborts : forall E code, compile_burn_script E code = Panic <-> forall ts scs, reads E code ts -> ~ scripts_read [] ts scs.
Proof.
  intros E code. split.
  - intros H ts scs R S. assert (compile_burn_script E code = Ok scs) by (apply C81_text; eauto). congruence.
  - intros H. destruct (compile_burn_script E code) as [scs| |] eqn:C; auto.
    + apply C81_text in C as (ts & R & S). elim (H ts scs R S).
    + exfalso. unfold compile_burn_script in C. destruct (get_tokens E code) as [ts| |] eqn:T; try discriminate; [|now elim (tokens_fuel E code)]. cbn [bind] in C.
      destruct (parse_total ts) as [P|(scs & P)]; rewrite P in C; discriminate.
Qed.
Print Assumptions C81_aborts.
Example C81_aborts_ex : compile_burn_script whole (lit "define f { assert(a) } "%string) = Panic /\ compile_burn_script whole (lit "define f { if(a) assert(b); } "%string) = Panic /\
  compile_burn_script whole (lit "define f { loop "%string) = Panic.
Proof. repeat split; vm_compute; reflexivity. Qed.
(** C81: no step is invented: it is named in the text with its arguments, belongs to a block keyword of the text, or closes a block. *)
Theorem C81_not_invented : forall ts scs sc x, scripts_read [] ts scs -> In sc scs -> In x (sc_steps sc) -> accounted ts x.
Proof. intros ts scs sc x S. apply (scripts_accounted _ _ _ S). Qed.
Print Assumptions C81_not_invented.
Example C81_not_invented_ex : exists ts, scripts_read [] ts odd_scripts /\ In (mkStep IExitLoopIf 0 [lit "d"]) (sc_steps (nth 0 odd_scripts script_new)).
Proof. destruct C81_text_ex as (ts & _ & S & _). exists ts. split; auto. cbn. tauto. Qed.
(** C81: a block that a broken script leaves open is closed in the next script, which then does not end at its own bracket. *)
Theorem C81_next_script_refuted : exists a b,
  compile_burn_script whole (lit "define a { if(x) { loop ; } define b { assert(y); } define c { assert(z); } "%string) = Ok [a; b] /\
  compile_burn_script whole (lit "define b { assert(y); } define c { assert(z); } "%string) = Ok [mkScript (lit "b") [] [] [] [mkStep IAssert 0 [lit "y"]]; mkScript (lit "c") [] [] [] [mkStep IAssert 0 [lit "z"]]] /\
  sc_name b = lit "b" /\ sc_steps b = [mkStep IAssert 0 [lit "y"]; mkStep IEndIf 0 []; mkStep IAssert 0 [lit "z"]].
Proof. eexists _, _. repeat split; vm_compute; reflexivity. Qed.
Print Assumptions C81_next_script_refuted.
