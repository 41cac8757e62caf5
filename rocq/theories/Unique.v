(** A database is given by the one it came from and by what it shows. *)
From Coq Require Import NArith List Bool Lia.
From Verif Require Import Prelude PreludeFacts ComponentModel RelModel DbModel DbFacts DbGenSpec DbSpec DbProofs DbInv DbProps PastSpec Past WorldSpec World Law.
Import ListNotations.
Local Open Scope N_scope.

Definition frame (tb : dtable) : list N * list (list N) := (dt_name tb, field_names tb).
Definition fixed (d d' : db) : Prop := d_index d' = d_index d /\ d_graph d' = d_graph d /\ map frame (d_tables d') = map frame (d_tables d).
Lemma shape_frame l l' : map shape l' = map shape l -> map frame l' = map frame l.
Proof.
  revert l. induction l' as [|x l' IH]; intros [|y l] H; cbn [map] in *; try discriminate; auto. injection H as N1 N2 H. f_equal; [|now apply IH]. unfold frame, field_names. f_equal; [exact N1|].
  assert (K : map fst (map (fun f => (df_name f, lenN (df_records f))) (dt_fields x)) = map fst (map (fun f => (df_name f, lenN (df_records f))) (dt_fields y))) by now rewrite N2. now rewrite !map_map in K.
Qed.
Lemma op_fixed d o d' : apply_op d o = Ok d' -> fixed d d'.
Proof.
  intros H. destruct (is_nav o) eqn:En. { destruct (nav_moved _ _ _ En H) as (oc & oc' & _ & _ & ->). repeat split. }
  assert (Hw : wrote d d' -> fixed d d') by (intros (_ & A & B & _ & C); split; [exact B|]; split; [exact A|now apply shape_frame]).
  destruct o; try discriminate; cbn [apply_op] in H.
  - apply create_record_ok in H as (o & tb & f0 & fs & H1 & H2 & H3 & ->). split; [reflexivity|]. split; [reflexivity|]. cbn [created d_tables]. eapply updateN_map; [exact H2|].
    unfold frame, add_blank_record, field_names. cbn [dt_name dt_fields]. now rewrite map_map.
  - apply Hw. apply (op_write_wrote d (OWrite occ field value)); eauto.
  - apply Hw. apply (op_write_wrote d (OWriteHere field value)); eauto.
  - destruct records as [|r rs].
    + cbn in H. apply reset_found_set_ok in H as (o & tb & f0 & fs & H1 & H2 & H3 & ->). repeat split.
    + apply update_found_set_ok in H as (o & tb & H1 & H2 & H3 & ->); [|discriminate]. repeat split.
  - apply reset_found_set_ok in H as (o & tb & f0 & fs & H1 & H2 & H3 & ->). repeat split.
  - injection H as <-. repeat split.
  - injection H as <-. split; [reflexivity|]. split; [reflexivity|]. cbn [clear_records with_tables d_tables]. rewrite map_map. apply map_ext. intros t. unfold frame, field_names. cbn [dt_name dt_fields]. now rewrite map_map.
Qed.
Lemma ops_fixed : forall os d d', run_ops d os = Ok d' -> fixed d d'.
Proof.
  induction os as [|o os IH]; intros d d' H; cbn [run_ops] in H; [injection H as <-; repeat split|]. apply bind_ok in H as (d1 & H1 & H2). apply op_fixed in H1 as (A & B & C). apply IH in H2 as (A' & B' & C'). split; [congruence|]. split; congruence.
Qed.
Lemma nth_same {A} (l l' : list A) : (forall i, nthN l i = nthN l' i) -> l = l'.
Proof.
  revert l'. induction l as [|x l IH]; intros [|y l'] H; auto.
  - specialize (H 0). rewrite nthN_0 in H. discriminate.
  - specialize (H 0). rewrite nthN_0 in H. discriminate.
  - f_equal; [specialize (H 0); rewrite !nthN_0 in H; cbn in H; congruence|]. apply IH. intros i. specialize (H (1 + i)). now rewrite !nthN_succ in H.
Qed.
Section Unique.
Context (f : fmpfile).
Lemma same_db d d' w : represents f d w -> represents f d' w -> fixed d d' -> d' = d.
Proof.
  intros (A1 & A2 & _ & _ & A5) (B1 & B2 & _ & _ & B5) (F1 & F2 & F3).
  assert (C : forall t j r, cell d' (t, j, r) = cell d (t, j, r)) by (intros; now rewrite A5, B5).
  assert (O : d_occs d' = d_occs d) by (apply nth_same; intros i; now rewrite A2, B2).
  assert (T : d_tables d' = d_tables d).
  { apply nth_same. intros t. assert (K : option_map frame (nthN (d_tables d') t) = option_map frame (nthN (d_tables d) t)) by (rewrite <- !nthN_map; now rewrite F3).
    destruct (nthN (d_tables d') t) as [[n' fs']|] eqn:T', (nthN (d_tables d) t) as [[n fs]|] eqn:T0; cbn [option_map] in K; try discriminate; auto. injection K as K1 K2. unfold field_names in K2. cbn [dt_name dt_fields] in K1, K2. subst n'. do 2 f_equal.
    apply nth_same. intros j. assert (L : option_map df_name (nthN fs' j) = option_map df_name (nthN fs j)) by (rewrite <- !nthN_map; now rewrite K2).
    destruct (nthN fs' j) as [[m' rs']|] eqn:J', (nthN fs j) as [[m rs]|] eqn:J0; cbn [option_map] in L; try discriminate; auto. injection L as ->. do 2 f_equal.
    apply nth_same. intros r. specialize (C t j r). unfold cell in C. rewrite T', T0 in C. cbn [dt_fields] in C. rewrite J', J0 in C. exact C. }
  destruct d, d'. cbn in *. congruence.
Qed.
End Unique.
