(** C107: and so is what is read over relations. *)
From Coq Require Import Ascii String NArith List Bool Lia Arith.
From Verif Require Import Prelude PreludeFacts ComponentModel RelModel DbModel DbFacts DbGenSpec DbGen DbSpec DbProofs DbInv DbLookup DbProps PastSpec Past WorldSpec World WorldProps.
Import ListNotations.
Local Open Scope N_scope.

(** C107: over a direct relation the value comes from the first record of the machine that the relation joins to the current one; the first
    relation of the file between the two occurrences counts, found sets and positions of the other one do not. *)
Theorem C107_related : forall f d0 os d w name field t rel rest r i, maps_ok f -> generate_from_fmp12 db_new f = Ok d0 ->
  run_ops d0 os = Ok d -> steps f (beginning f) os = Some w ->
  named f name = Some t -> occurs f (shown w) = true -> occurs f t = true ->
  nthN (found w (shown w)) (spot w (shown w)) = Some r -> r < many w (base f (shown w)) ->
  filter (fun x => rs_occ x =? t) (flat_map (seen_from (shown w)) (vals (f_relationships f))) = rel :: rest ->
  rs_field1 rel < width f (base f (shown w)) -> rs_field2 rel < width f (base f t) -> place_of field (headings f (base f t)) = Some i ->
  let joined k := k < many w (base f t) /\ relates (rs_cmp rel) (value w (base f (shown w)) (rs_field1 rel) r) (value w (base f t) (rs_field2 rel) k) in
  (forall k, joined k -> (forall k', k' < k -> ~ joined k') -> get_related_record_field d name field = Ok (ROk (value w (base f t) i k))) /\
  ((forall k, ~ joined k) -> get_related_record_field d name field = Ok (RErr tt)).
Proof.
  intros f d0 os d w name field t rel rest r i M G E W Nm Os Ot C Lr Fl L1 L2 Pl joined.
  pose proof (steps_rep f os d0 (beginning f) (start_rep f d0 M G)) as H. rewrite W in H. destruct H as (d1 & E1 & R). assert (d1 = d) by congruence. subst d1.
  assert (Wt : 0 < width f (base f t)) by lia. destruct (rep_table f d w (base f t) R Wt) as (tb & f0 & fs & Q1 & _ & _ & _ & Q5 & Q6).
  destruct R as [R So]. pose proof R as (R1 & R2 & R3 & R4 & R5). rewrite <- Q5 in Pl. apply place_first in Pl.
  destruct (nthN (dt_fields tb) (rs_field2 rel)) as [fd|] eqn:Fd; [|apply nthN_None in Fd; lia].
  pose proof (R2 (shown w)) as O1. rewrite Os in O1. rewrite <- R1 in O1 at 1. pose proof (R2 t) as O2. rewrite Ot in O2.
  pose proof (R5 (base f (shown w)) (rs_field1 rel) r) as Cv. replace (rs_field1 rel <? _) with true in Cv by lia. replace (r <? _) with true in Cv by lia. cbn [andb] in Cv.
  pose proof (lookup_direct d name field t _ r rel rest _ _ tb fd i So (eq_trans (R3 name) Nm) O1 C Fl Cv O2 Q1 Fd Pl) as [A B]. cbn [to_table] in A, B.
  assert (J : forall k u, cell d (base f t, rs_field2 rel, k) = Some u -> relates (rs_cmp rel) (value w (base f (shown w)) (rs_field1 rel) r) u -> joined k).
  { intros k u X Y. rewrite R5 in X. destruct (rs_field2 rel <? width f (base f t)); [|discriminate]. destruct (k <? many w (base f t)) eqn:K; [|discriminate]. cbn [andb] in X. injection X as <-. split; [lia|exact Y]. }
  split.
  - intros k Jk F. destruct (A k) as (u & X & Y).
    { split; [|intros k' u K X Y; now apply (F k' K), (J k' u)]. exists (value w (base f t) (rs_field2 rel) k). destruct Jk as [K Y]. split; [|exact Y]. rewrite R5.
      replace (rs_field2 rel <? _) with true by lia. now replace (k <? _) with true by lia. }
    rewrite Y. rewrite R5 in X. destruct ((i <? width f (base f t)) && (k <? many w (base f t))); congruence.
  - intros F. apply B. intros k u X Y. now apply (F k), (J k u).
Qed.
Print Assumptions C107_related.
Definition related_ops : list op :=
  [OCreate; OWriteHere (lit "id") (lit "8"); OLayout 2; OCreate; OWriteHere (lit "customer") (lit "7"); OCreate; OWriteHere (lit "customer") (lit "8"); OWriteHere (lit "id") (lit "31");
   OCreate; OWriteHere (lit "customer") (lit "8"); OLayout 1].
Example C107_related_ex : maps_ok (shop CEqual) /\ named (shop CEqual) (lit "order") = Some 2 /\
  (exists rel, filter (fun x => rs_occ x =? 2) (flat_map (seen_from 1) (vals (f_relationships (shop CEqual)))) = [rel] /\ rs_field1 rel = 1 /\ rs_field2 rel = 2 /\ rs_cmp rel = CEqual) /\
  option_map (fun w => (shown w, nthN (found w 1) (spot w 1), many w 2, value w 1 1 0, value w 2 2 1, value w 2 1 1)) (steps (shop CEqual) (beginning (shop CEqual)) related_ops) =
    Some (1, Some 0, 3, lit "8", lit "8", lit "31") /\
  (exists d0 d, generate_from_fmp12 db_new (shop CEqual) = Ok d0 /\ run_ops d0 related_ops = Ok d /\ get_related_record_field d (lit "order") (lit "id") = Ok (ROk (lit "31"))).
Proof.
  split; [apply shop_maps|]. split; [vm_compute; reflexivity|]. split; [eexists; split; [vm_compute; reflexivity|]; split; [reflexivity|]; split; reflexivity|]. split; [vm_compute; reflexivity|].
  do 2 eexists. split; [vm_compute; reflexivity|]. split; [vm_compute; reflexivity|]. vm_compute. reflexivity.
Qed.
