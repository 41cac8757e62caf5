(** C79: the tokens of every calculation text. *)
From Coq Require Import Ascii String NArith ZArith List Bool Lia Arith.
From Verif Require Import Prelude PreludeFacts CalcModel CalcSpec CalcFacts CalcParse CalcDemo CalcProps LexSpec LexProofs DbModel EvalModel EvalSpec
  EvalProofs EvalCycle EvalFuel EvalProps TreeSpec Tree TreeProps TokensSpec Tokens.
Import ListNotations.
Local Open Scope N_scope.

(** C79: a text is tokenised to a list of tokens exactly if the rules divide it so. *)
Theorem C79_tokens : forall E s ts, lex E s = Ok ts <-> splits E s ts.
Proof. exact lex_exact. Qed.
Print Assumptions C79_tokens.
Example C79_tokens_ex : splits whole (lit "A:bc<=!x=" ++ 34 :: lit "--") [ident "A:::c"; tok TLtq; ident "x"] /\
  splits whole (lit "A::b1 != 07") [ident "A::b1"; tok TNeq; num "7"].
Proof. split; apply lex_exact; vm_compute; reflexivity. Qed.

(** C79: white space is what Unicode calls so: tab to carriage return, the blank, the next line, and the spaces and separators of the other planes. *)
Definition white_space : list N :=
  [9; 10; 11; 12; 13; 32; 133; 160; 5760; 8192; 8193; 8194; 8195; 8196; 8197; 8198; 8199; 8200; 8201; 8202; 8232; 8233; 8239; 8287; 12288].
Theorem C79_space : forall c, whitespace c = true <-> In c white_space.
Proof.
  intros c. unfold whitespace. split; intros H.
  - repeat (apply orb_true_iff in H as [H|H]); try (apply N.eqb_eq in H; subst c; unfold white_space; cbn [In]; tauto).
    + apply andb_true_iff in H as [H K]. apply N.leb_le in H. apply N.leb_le in K. unfold white_space. cbn [In]. lia.
    + apply andb_true_iff in H as [H K]. apply N.leb_le in H. apply N.leb_le in K. unfold white_space. cbn [In]. lia.
  - unfold white_space in H. cbn [In] in H. repeat (destruct H as [<-|H]; [reflexivity|]). destruct H.
Qed.
Print Assumptions C79_space.
Example C79_space_ex : In 133 white_space /\ ~ In 8203 white_space.
Proof. split; cbn; [tauto|]. intros H. repeat (destruct H as [H|H]; [discriminate H|]). exact H. Qed.

(** C79: any other text aborts. *)
Theorem C79_aborts : forall E s, lex E s = Panic <-> ~ exists ts, splits E s ts.
Proof.
  intros E s. split.
  - intros H (ts & K). apply lex_exact in K. congruence.
  - intros H. destruct (lex E s) as [ts| |] eqn:L; [|reflexivity|exfalso; exact (C42_ends E s L)].
    elim H. exists ts. now apply lex_exact.
Qed.
Print Assumptions C79_aborts.
Example C79_aborts_ex : (~ exists ts, splits whole (lit "x <") ts) /\ ~ exists ts, splits whole (lit "3x + 1") ts.
Proof. split; apply C79_aborts; vm_compute; reflexivity. Qed.

(** C79: the rules divide a text in one way only. *)
Theorem C79_one : forall E s ts us, splits E s ts -> splits E s us -> ts = us.
Proof. intros E s ts us H K. apply lex_exact in H. apply lex_exact in K. congruence. Qed.
Print Assumptions C79_one.
Example C79_one_ex : splits whole (lit "a == b") [ident "a"; tok TEq; ident "b"].
Proof. apply lex_exact. vm_compute. reflexivity. Qed.

(** C79: together with C78, the value of every calculation from its text. *)
Theorem C79_value : forall E v s r,
  calc_gives E v s (Ok r) <-> exists ts n, splits E s ts /\ parsed E ts = Ok n /\ value_is E v n r.
Proof.
  intros E v s r. rewrite C78_calculation. split; intros (ts & n & H & K); exists ts, n; (split; [now apply lex_exact|exact K]).
Qed.
Print Assumptions C79_value.
Example C79_value_ex : exists ts n, splits whole (lit "x - 7") ts /\ parsed whole ts = Ok n /\ value_is whole desk n (lit "-2").
Proof. apply C79_value. apply (calc_gives_at _ _ 9); [vm_compute; reflexivity|discriminate]. Qed.

(** C79: a word that begins with a digit but is no number aborts. *)
Theorem C79_digit : forall E d w, 48 <= d <= 57 -> word (d :: w) -> parse64 E (d :: w) = None -> forall r, ends_word (hd_error r) -> lex E ((d :: w) ++ r) = Panic.
Proof.
  intros E d w Hd Hw Hp r Hr. apply C79_aborts. intros (ts & H). apply lex_exact in H. unfold lex in H.
  assert (Hs : starts_solid (d :: w)).
  { cbn. unfold whitespace. destruct (N.eqb_spec d 32); [lia|]. repeat match goal with |- context [?a =? ?b] => destruct (N.eqb_spec a b); [lia|] end.
    repeat match goal with |- context [?a <=? ?b] => destruct (N.leb_spec a b); try lia end; reflexivity. }
  rewrite app_length in H. replace (S (length (d :: w) + length r)) with (length (d :: w) + S (length r))%nat in H by lia.
  rewrite word_run in H by auto. cbn [app] in H.
  assert (F : forall acc, flush E (d :: w) acc = Panic).
  { intros acc. unfold flush, flush_buffer. rewrite Hp. unfold is_digit. replace (48 <=? d) with true by (symmetry; apply N.leb_le; lia).
    replace (d <=? 57) with true by (symmetry; apply N.leb_le; lia). reflexivity. }
  destruct r as [|c r]; [cbn [CalcModel.lex_loop] in H; rewrite F in H; discriminate|].
  cbn [CalcModel.lex_loop] in H. rewrite F, andb_false_r in H. destruct Hr as [Hc Hn]. cbn in Hc.
  repeat destruct Hc as [Hc|Hc]; try (destruct Hc; fail); subst c; try (now elim Hn); cbn in H; discriminate.
Qed.
Print Assumptions C79_digit.
Example C79_digit_ex : word (lit "3x") /\ parse64 whole (lit "3x") = None /\ lex whole (lit "3x + 1") = Panic.
Proof. split; [|split; vm_compute; reflexivity]. repeat constructor; cbn; intuition discriminate. Qed.
