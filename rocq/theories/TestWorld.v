(** What tests do to the database, as operations. *)
From Coq Require Import Ascii String NArith List Bool Sorted Lia Arith.
From Verif Require Import Prelude PreludeFacts StrOrder StrOrderFacts InstrModel ComponentModel CalcModel CalcSpec CalcFacts DbModel DbGenSpec DbSpec DbFacts DbProofs DbInv
  DbProps EvalModel EvalSpec EvalProofs EvalCycle EvalFuel VmModel VmSpec VmTestSpec VmParts VmSteps VmRun VmBack VmFlat.
Import ListNotations.
Local Open Scope N_scope.

(** Every step of a script does nothing to the database, or one operation, never a clean-up. *)
Definition one_op (d d' : db) : Prop := d' = d \/ exists o, o <> OClear /\ apply_op d o = Ok d'.
Lemma step_op E file s s' : vm_step E file s = Ok s' -> one_op (vm_db s) (vm_db s').
Proof.
  intros H. assert (R : one_op (vm_db s) (vm_db s)) by now left. unfold vm_step in H. apply bind_ok in H as (u & _ & H). apply bind_ok in H as (sc & _ & H).
  destruct (nthN (sc_steps sc) (here s)) as [cur|]; [|inversion H; subst; exact R].
  assert (JD : forall x i, vm_db (jump x i) = vm_db x) by (intros x i; unfold jump; destruct (vm_ip x) as [|[? ?] ?]; reflexivity).
  assert (AD : forall x, vm_db (advance x) = vm_db x) by (intros x; apply JD).
  assert (OP : forall o d, o <> OClear -> apply_op (vm_db s) o = Ok d -> one_op (vm_db s) d) by (intros o d H1 H2; right; now exists o).
  assert (MV : forall v d, move_record (vm_db s) v = Ok d -> one_op (vm_db s) d).
  { intros v d K. apply move_spec in K. destruct K as [d0 v n d' _ K|d0 d' K|d0 d' K|d0 d' K|d0 d' K|d0 v _ _].
    - exact (OP (OGoto n) d' ltac:(discriminate) K).
    - exact (OP OPrevious d' ltac:(discriminate) K).
    - exact (OP ONext d' ltac:(discriminate) K).
    - exact (OP OFirst d' ltac:(discriminate) K).
    - exact (OP OLast d' ltac:(discriminate) K).
    - exact R. }
  destruct (opcode cur); repeat (match goal with
    | K : bind _ _ = Ok _ |- _ => apply bind_ok in K as (? & ? & K)
    | K : (if ?x then _ else _) = Ok _ |- _ => destruct x
    | K : (match ?x with Some _ => _ | None => _ end) = Ok _ |- _ => destruct x
    | K : Ok _ = Ok _ |- _ => inversion K; subst; clear K
    end; cbv zeta in *; try discriminate); rewrite ?JD, ?AD; try exact R;
    try (cbn [vm_db with_db with_ip with_vars with_find with_criteria with_branch with_loops with_pass]; rewrite ?JD, ?AD; eauto; fail).
  - (* layout *) destruct (layout_lookup _ _); [|exact R]. cbn [vm_db with_db]. eapply (OP (OLayout _)); [discriminate|reflexivity].
  - (* new *) cbn [vm_db with_db]. eapply (OP OCreate); [discriminate|eassumption].
  - (* show all *) cbn [vm_db with_db]. eapply (OP OShowAll); [discriminate|eassumption].
  - (* find *) cbn [vm_db with_db with_find with_criteria]. eapply (OP (OFind _)); [discriminate|eassumption].
  - (* field *) match goal with K : get_current_record_by_table_field_mut _ ?p0 ?p1 = Ok ?r |- _ => destruct r; [|discriminate];
      apply bind_ok in H as (d & H6 & H); inversion H; subst; rewrite AD; cbn [vm_db with_db];
      match goal with V : calc _ _ _ = Ok ?v |- _ => apply (OP (OWrite p0 p1 v)); [discriminate|]; cbn [apply_op]; rewrite K; exact H6 end end.
  - (* else if *) change (one_op (vm_db s) (vm_db (advance (jump s (lenN (sc_steps sc)))))). rewrite AD, JD. exact R.
  - (* assert *) destruct (str_eqb _ _); exact R.
Qed.

(** Runs of operations, without clean-ups. *)
Definition by_ops (d d' : db) : Prop := exists os, ~ In OClear os /\ run_ops d os = Ok d'.
Lemma ops_app : forall os d d1 ps, run_ops d os = Ok d1 -> run_ops d (os ++ ps) = run_ops d1 ps.
Proof.
  induction os as [|o os IH]; intros d d1 ps H; cbn [run_ops app] in *; [congruence|]. apply bind_ok in H as (d2 & H1 & H2). rewrite H1. cbn [bind]. now apply IH.
Qed.
Lemma by_ops_refl d : by_ops d d.
Proof. exists []. split; [intros []|reflexivity]. Qed.
Lemma by_ops_trans a b c : by_ops a b -> by_ops b c -> by_ops a c.
Proof. intros (os & A & B) (ps & C & D). exists (os ++ ps). split; [rewrite in_app_iff; tauto|]. now rewrite (ops_app os a b ps B). Qed.
Lemma one_by a b : one_op a b -> by_ops a b.
Proof. intros [->|(o & H & K)]; [apply by_ops_refl|]. exists [o]. split; [intros [->|[]]; congruence|]. cbn [run_ops]. now rewrite K. Qed.
Lemma run_by E file : forall f s s', run_test E file f s = Ok s' -> by_ops (vm_db s) (vm_db s').
Proof.
  induction f as [|f IH]; intros s s' H; cbn [run_test] in H; destruct (vm_pass s); try (inversion H; subst; apply by_ops_refl); destruct (vm_ip s); try (inversion H; subst; apply by_ops_refl); try discriminate.
  apply bind_ok in H as (s1 & H1 & H2). eapply by_ops_trans; [|eapply IH; exact H2]. apply one_by. eapply step_op; eauto.
Qed.
Lemma tests_by E file fuel : forall ts s rs s', run_tests_loop E file fuel ts s = Ok (rs, s') -> by_ops (vm_db s) (vm_db s').
Proof.
  induction ts as [|t ts IH]; intros s rs s' H; cbn [run_tests_loop] in H; [inversion H; subst; apply by_ops_refl|].
  apply bind_ok in H as (s1 & H1 & H). apply bind_ok in H as ([rs1 s2] & H2 & H). inversion H; subst.
  eapply by_ops_trans; [|eapply IH; exact H2]. apply run_by in H1. exact H1.
Qed.
