(** Parts of the result that are never filled in. *)
From Coq Require Import Ascii String NArith List Bool Lia.
From Verif Require Import Prelude PreludeFacts ChunkModel ComponentModel InstrModel DecompModel.
Import ListNotations.
Local Open Scope N_scope.

Definition trio (f : fmpfile) := (f_name f, f_value_lists f, f_tests f).
Definition same (s : dstate) (x : outcome dstate) : Prop := forall s', x = Ok s' -> trio (d_file s') = trio (d_file s).

Lemma same_bind {A} s (x : outcome A) k : (forall a, x = Ok a -> same s (k a)) -> same s (bind x k).
Proof. intros H s' E. destruct x; cbn [bind] in E; try discriminate. now apply (H a). Qed.
Lemma same_ok s : same s (Ok s).
Proof. intros s' [= <-]. reflexivity. Qed.
Lemma same_panic s : same s Panic.
Proof. intros s' [=]. Qed.
Lemma same_mod s sid g : same s (mod_steps s sid g).
Proof. unfold mod_steps. apply same_bind; intros. apply same_bind; intros. intros s' [= <-]. reflexivity. Qed.

Lemma same_mod_field f t y g f' : mod_field f t y g = Ok f' -> trio f' = trio f.
Proof.
  unfold mod_field. destruct (nget (f_tables f) t) as [tb|]; [|discriminate]. cbn [unwrap bind].
  destruct (nget (tb_fields tb) y); [|discriminate]. cbn [unwrap bind]. intros [= <-]. reflexivity.
Qed.

Lemma same_steps l : forall m sid ins s0 s, trio (d_file s) = trio (d_file s0) -> same s0 (steps_loop l m sid ins s).
Proof.
  induction l as [|b l IH]; intros m sid ins s0 s E; cbn [steps_loop].
  - intros s' [= <-]. auto.
  - destruct (_ <=? _); auto. apply same_bind. intros [st|] _; auto.
    intros s' H. destruct (mod_steps s sid _) as [s1| |] eqn:M; try discriminate. cbn [bind] in H.
    eapply (IH m sid ins s0 s1); eauto. apply same_mod in M. congruence.
Qed.

Ltac same := repeat first
  [ apply same_ok | apply same_panic | apply same_mod
  | let H := fresh in intros ? H; injection H as <-; reflexivity
  | match goal with M : mod_field _ _ _ _ = Ok ?f |- same _ (Ok (with_file _ ?f)) =>
      let H := fresh in intros ? H; injection H as <-; exact (same_mod_field _ _ _ _ _ M) end
  | apply same_bind; intros ? ?
  | match goal with |- same _ (match ?x with _ => _ end) => destruct x end ].

Lemma dispatch_same path ch s : same s (dispatch path ch s).
Proof.
  assert (A1 : same s (arm_relation ch s)) by (unfold arm_relation; cbv zeta; same).
  assert (A2 : same s (arm_occurrence ch s)) by (unfold arm_occurrence; cbv zeta; same).
  assert (A3 : forall x, same s (arm_relation_fields x ch s)) by (intros; unfold arm_relation_fields; cbv zeta; same).
  assert (A4 : forall x, same s (arm_layout x ch s)) by (intros; unfold arm_layout; cbv zeta; same).
  assert (A5 : forall x y, same s (arm_field x y ch s)) by (intros; unfold arm_field; cbv zeta; same).
  assert (A6 : forall x, same s (arm_table x ch s)) by (intros; unfold arm_table; cbv zeta; same).
  assert (A7 : forall x, same s (arm_segment x ch s)) by (intros; unfold arm_segment; cbv zeta; same).
  assert (A8 : forall x y, same s (arm_step_value x y ch s)) by (intros; unfold arm_step_value; cbv zeta; same).
  assert (A9 : forall x y, same s (arm_step_name x y ch s)) by (intros; unfold arm_step_name; cbv zeta; same).
  assert (A10 : forall x y, same s (arm_step_calc x y ch s)).
  { intros. unfold arm_step_calc. intros s1 H.
    match type of H with bind ?X _ = _ => assert (K : same s X) by same; destruct X as [s2| |]; try discriminate end.
    cbn [bind] in H. destruct (nget _ x); try discriminate. injection H as <-. now apply K. }
  assert (A11 : forall x, same s (arm_script x ch s)).
  { intros. unfold arm_script. destruct (ctype ch); try apply same_ok.
    all: match goal with |- same _ (if ?c then _ else _) => destruct c end; [apply same_bind; intros; now apply same_steps|].
    all: repeat (match goal with |- same _ (match ?x with _ => _ end) => destruct x end; try apply same_ok).
    all: apply same_bind; intros; now apply same_steps. }
  assert (A12 : forall y, same s (arm_script_name y ch s)) by (intros; unfold arm_script_name; cbv zeta; same).
  assert (A13 : same s (arm_source_name ch s)) by (unfold arm_source_name; same).
  assert (A14 : forall x, same s (arm_source x ch s)) by (intros; unfold arm_source; cbv zeta; same).
  unfold dispatch.
  repeat match goal with |- same _ (match ?x with _ => _ end) => destruct x end; auto; apply same_ok.
Qed.

Lemma chunk_loop_same fuel : forall buf off bound start path s, same s (chunk_loop fuel buf off bound start path s).
Proof.
  induction fuel as [|fuel IH]; intros buf off bound start path s s' H; [discriminate|]. cbn [chunk_loop] in H.
  destruct (off <? bound); [|injection H as <-; auto].
  destruct (get_chunk buf off path start) as [r| |]; try discriminate. cbn [bind] in H.
  destruct r as [[[ch off'] path']|]; [|discriminate].
  destruct (dispatch path' ch s) as [s1| |] eqn:D; try discriminate. cbn [bind] in H.
  apply IH in H. apply dispatch_same in D. congruence.
Qed.

Lemma sector_loop_same fuel : forall buf n i s, same s (sector_loop fuel buf n i s).
Proof.
  induction fuel as [|fuel IH]; intros buf n i s s' H; [discriminate|]. cbn [sector_loop] in H. fold chunk_loop in H.
  destruct (i =? 0); [injection H as <-; auto|].
  destruct (slice buf (i * 4096) (lenN buf)) as [rest| |]; try discriminate. cbn [bind] in H.
  destruct (get_sector rest) as [sec| |]; try discriminate. cbn [bind] in H. destruct (i <? n); try discriminate.
  match type of H with bind ?x _ = _ => destruct x as [s1| |] eqn:C; try discriminate end. cbn [bind] in H.
  apply IH in H. rewrite H.
  change (chunk_loop (S fuel) buf (i * 4096 + 20) (i * 4096 + 4096) (i * 4096) [] s = Ok s1) in C.
  now apply chunk_loop_same in C.
Qed.

Lemma build_scripts_same l : forall s, same s (build_scripts l s).
Proof.
  induction l as [|[sid segs] l IH]; intros s; cbn [build_scripts]; [apply same_ok|].
  apply same_bind. intros s1 E s' H. apply IH in H. rewrite H. revert E. apply same_steps. reflexivity.
Qed.

Lemma never_filled order fuel buf f : decompile order fuel buf = Ok f -> f_name f = [] /\ f_value_lists f = [] /\ f_tests f = [].
Proof.
  unfold decompile. intros H. destruct (slice buf 4096 (lenN buf)); try discriminate. cbn [bind] in H.
  destruct (get_sector a) as [first| |]; try discriminate. cbn [bind] in H.
  destruct (sector_loop fuel buf (s_next first + 1) 2 (mkD fmpfile_new [] [])) as [s| |] eqn:E; try discriminate. cbn [bind] in H.
  destruct (build_scripts (order (d_segments s)) s) as [s1| |] eqn:E1; try discriminate. cbn [bind] in H. injection H as <-.
  apply sector_loop_same in E. apply build_scripts_same in E1. rewrite E in E1. cbn in E1. unfold trio in E1.
  injection E1 as -> -> ->. auto.
Qed.
