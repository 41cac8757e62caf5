(** C109: laws of the operations on the test database. *)
From Coq Require Import Ascii String NArith List Bool Lia.
From Verif Require Import Prelude PreludeFacts ComponentModel RelModel DbModel DbFacts DbGenSpec DbGen DbSpec DbProofs DbInv DbProps PastSpec Past WorldSpec World WorldProps FieldProps LawSpec Law Unique.
Import ListNotations.
Local Open Scope N_scope.

(** C109: sequences that are equal by the laws both abort, or lead to databases that show the same. *)
Theorem C109_laws : forall f d0 a b, maps_ok f -> generate_from_fmp12 db_new f = Ok d0 -> equal a b ->
  (run_ops d0 a = Panic /\ run_ops d0 b = Panic) \/
  exists d d' w, run_ops d0 a = Ok d /\ run_ops d0 b = Ok d' /\ represents f d w /\ represents f d' w.
Proof.
  intros f d0 a b M G E. pose proof (C107_machine f d0 a M G) as A. pose proof (C107_machine f d0 b M G) as B. pose proof (equal_ok f a b E (beginning f)) as K.
  destruct (steps f (beginning f) a) as [w|], (steps f (beginning f) b) as [w'|]; cbn in K; try (exfalso; exact K); [|left; split; assumption]. destruct A as (d & A1 & A2), B as (d' & B1 & B2). right. exists d, d', w. split; [exact A1|]. split; [exact B1|]. split; [exact A2|].
  apply (eq_represents f d' w' w); [now apply eqw_sym|exact B2].
Qed.
Print Assumptions C109_laws.
Definition long_way : list op :=
  [OCreate; OLast; OWriteHere (lit "id") (lit "6"); OWriteHere (lit "id") (lit "7"); OCreate; ONext; OWrite (lit "customer") (lit "name") (lit "Bo"); OWrite (lit "customer") (lit "id") (lit "8"); OPrevious; OFirst].
Definition short_way : list op :=
  [OCreate; OWriteHere (lit "id") (lit "7"); OCreate; OWrite (lit "customer") (lit "id") (lit "8"); OWrite (lit "customer") (lit "name") (lit "Bo"); OFirst].
Example C109_laws_ex : equal long_way short_way /\ exists d0 d, generate_from_fmp12 db_new (shop CEqual) = Ok d0 /\ run_ops d0 long_way = Ok d /\
  get_current_record_by_table_field d (lit "customer") (lit "id") = Ok (ROk (lit "7")).
Proof.
  split; [|do 2 eexists; split; [vm_compute; reflexivity|]; split; vm_compute; reflexivity]. unfold long_way, short_way.
  apply (EqLaw [] [OCreate; OLast] [OCreate]); [left; constructor|]. cbn [app].
  apply (EqLaw [OCreate] [OWriteHere (lit "id") (lit "6"); OWriteHere (lit "id") (lit "7")] [OWriteHere (lit "id") (lit "7")]); [left; constructor|]. cbn [app].
  apply (EqLaw [OCreate; OWriteHere (lit "id") (lit "7")] [OCreate; ONext] [OCreate]); [left; constructor|]. cbn [app].
  apply (EqLaw [OCreate; OWriteHere (lit "id") (lit "7"); OCreate] [OWrite (lit "customer") (lit "name") (lit "Bo"); OWrite (lit "customer") (lit "id") (lit "8")] [OWrite (lit "customer") (lit "id") (lit "8"); OWrite (lit "customer") (lit "name") (lit "Bo")]);
    [left; constructor; vm_compute; discriminate|]. cbn [app].
  apply (EqLaw [OCreate; OWriteHere (lit "id") (lit "7"); OCreate; OWrite (lit "customer") (lit "id") (lit "8"); OWrite (lit "customer") (lit "name") (lit "Bo")] [OPrevious; OFirst] [OFirst] []); [left; constructor|]. apply EqSame.
Qed.

(** C109: so nothing read afterwards tells them apart. *)
Theorem C109_reads : forall f d0 a b d d', maps_ok f -> generate_from_fmp12 db_new f = Ok d0 -> equal a b -> run_ops d0 a = Ok d -> run_ops d0 b = Ok d' ->
  (forall name field, get_current_record_by_table_field d name field = get_current_record_by_table_field d' name field) /\
  (forall field, get_found_set_record_field d field = get_found_set_record_field d' field).
Proof.
  intros f d0 a b d d' M G E A B. pose proof (equal_ok f a b E (beginning f)) as K. split.
  - intros name field. destruct (C107_read f d0 a d name field M G A) as (w & W & ->). destruct (C107_read f d0 b d' name field M G B) as (w' & W' & ->). rewrite W, W' in K. destruct K as (_ & K2 & K3 & K4 & K5).
    destruct (named f name) as [i|]; auto. rewrite K2, K3, K4. destruct (occurs f i); auto. destruct (nthN _ _); auto. destruct (place_of _ _); auto. now rewrite K5.
  - intros field. destruct (C107_read f d0 a d [] field M G A) as (w & W & _). destruct (C107_read f d0 b d' [] field M G B) as (w' & W' & _). rewrite W, W' in K. destruct K as (K1 & K2 & K3 & K4 & K5).
    rewrite (C108_field f d0 a d w field M G A W), (C108_field f d0 b d' w' field M G B W'). rewrite <- K1, K2, K3, K4. destruct (occurs f (shown w)); auto. destruct (nthN _ _); auto. destruct (place_of _ _); auto. now rewrite K5.
Qed.
Print Assumptions C109_reads.
Example C109_reads_ex : equal long_way short_way /\ exists d0 d d', generate_from_fmp12 db_new (shop CEqual) = Ok d0 /\ run_ops d0 long_way = Ok d /\ run_ops d0 short_way = Ok d' /\ get_found_set_record_field d' (lit "id") = Ok (lit "7").
Proof. split; [apply C109_laws_ex|]. do 3 eexists. split; [vm_compute; reflexivity|]. split; [vm_compute; reflexivity|]. split; vm_compute; reflexivity. Qed.

(** C109: in fact they come to the same database, so that nothing done afterwards, reads, finds or the steps of tests, tells them apart. *)
Theorem C109_same : forall f d0 a b, maps_ok f -> generate_from_fmp12 db_new f = Ok d0 -> equal a b -> run_ops d0 a = run_ops d0 b.
Proof.
  intros f d0 a b M G E. destruct (C109_laws f d0 a b M G E) as [[-> ->]|(d & d' & w & A & B & R & R')]; [reflexivity|].
  rewrite A, B. f_equal. apply (same_db f d' d w R' R). apply ops_fixed in A as (A1 & A2 & A3), B as (B1 & B2 & B3). split; [congruence|]. split; congruence.
Qed.
Print Assumptions C109_same.
Example C109_same_ex : maps_ok (shop CEqual) /\ equal long_way short_way /\ long_way <> short_way /\ exists d0 d, generate_from_fmp12 db_new (shop CEqual) = Ok d0 /\ run_ops d0 short_way = Ok d /\ d <> d0.
Proof.
  split; [apply shop_maps|]. split; [apply C109_laws_ex|]. split; [unfold long_way, short_way; discriminate|]. do 2 eexists. split; [vm_compute; reflexivity|]. split; [vm_compute; reflexivity|vm_compute; discriminate].
Qed.

(** C109: two sequences of operations after which the machine is in the same state lead to the same database. *)
Theorem C109_determined : forall f d0 a b d d' w, run_ops d0 a = Ok d -> run_ops d0 b = Ok d' -> represents f d w -> represents f d' w -> d = d'.
Proof.
  intros f d0 a b d d' w A B R R'. apply (same_db f d' d w R' R). apply ops_fixed in A as (A1 & A2 & A3), B as (B1 & B2 & B3). split; [congruence|]. split; congruence.
Qed.
Print Assumptions C109_determined.
Example C109_determined_ex : exists d0 d w, generate_from_fmp12 db_new (shop CEqual) = Ok d0 /\ run_ops d0 long_way = Ok d /\ run_ops d0 short_way = Ok d /\ represents (shop CEqual) d w.
Proof.
  destruct C109_same_ex as (M & E & _ & d0 & d & G & S & _). exists d0, d. pose proof (C107_machine _ d0 short_way M G) as K. rewrite S in K.
  destruct (steps (shop CEqual) (beginning (shop CEqual)) short_way) as [w|]; [|discriminate]. destruct K as (d1 & K1 & K2). injection K1 as <-. exists w. split; [exact G|]. split; [|split; [exact S|exact K2]]. rewrite <- S. now apply (C109_same (shop CEqual)).
Qed.

(** C109: some that one would expect fail: going on and back again is not staying, and the way back is not either; *)
Definition current_id (os : list op) : outcome (result (list N) unit) := d0 <- generate_from_fmp12 db_new (shop CEqual) ;; d <- run_ops d0 os ;; get_current_record_by_table_field d (lit "customer") (lit "id").
Theorem C109_there_and_back_refuted : exists pre pre' x y,
  current_id pre = Ok (ROk x) /\ current_id (pre ++ [ONext; OPrevious]) = Ok (ROk y) /\ x <> y /\ current_id pre' = Ok (ROk y) /\ current_id (pre' ++ [OPrevious; ONext]) = Ok (ROk x).
Proof.
  exists [OCreate; OWriteHere (lit "id") (lit "1"); OCreate; OWriteHere (lit "id") (lit "2")], [OCreate; OWriteHere (lit "id") (lit "1"); OCreate; OWriteHere (lit "id") (lit "2"); OFirst], (lit "2"), (lit "1").
  split; [vm_compute; reflexivity|]. split; [vm_compute; reflexivity|]. split; [vm_compute; discriminate|]. split; vm_compute; reflexivity.
Qed.
Print Assumptions C109_there_and_back_refuted.

(** C109: showing all records does not undo a find, as the position is lost; *)
Theorem C109_find_undone_refuted : exists pre r x y, current_id (pre ++ [OShowAll]) = Ok (ROk x) /\ current_id (pre ++ [OFind [r]; OShowAll]) = Ok (ROk y) /\ x <> y.
Proof.
  exists [OCreate; OWriteHere (lit "id") (lit "1"); OCreate; OWriteHere (lit "id") (lit "2")], 1, (lit "2"), (lit "1"). split; [vm_compute; reflexivity|]. split; [vm_compute; reflexivity|vm_compute; discriminate].
Qed.
Print Assumptions C109_find_undone_refuted.

(** C109: and writes through different occurrences do not commute, as they may be of one table. *)
Theorem C109_occurrences_refuted : exists pre a b field v u x y, a <> b /\ current_id (pre ++ [OWrite a field v; OWrite b field u]) = Ok (ROk x) /\ current_id (pre ++ [OWrite b field u; OWrite a field v]) = Ok (ROk y) /\ x <> y.
Proof.
  exists [OCreate], (lit "customer"), (lit "customer 2"), (lit "id"), (lit "1"), (lit "2"), (lit "2"), (lit "1"). split; [vm_compute; discriminate|]. split; [vm_compute; reflexivity|]. split; [vm_compute; reflexivity|vm_compute; discriminate].
Qed.
Print Assumptions C109_occurrences_refuted.
