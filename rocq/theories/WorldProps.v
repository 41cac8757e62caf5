(** C107: the test database is a small machine. *)
From Coq Require Import Ascii String NArith List Bool Lia.
From Verif Require Import Prelude PreludeFacts ComponentModel RelModel DbModel DbFacts DbGenSpec DbGen DbSpec DbProofs DbInv DbProps PastSpec Past WorldSpec World.
Import ListNotations.
Local Open Scope N_scope.

(** C107: any operations on a generated database go as the machine says, and abort exactly where it has no next state. *)
Theorem C107_machine : forall f d0 os, maps_ok f -> generate_from_fmp12 db_new f = Ok d0 ->
  match steps f (beginning f) os with
  | Some w => exists d, run_ops d0 os = Ok d /\ represents f d w
  | None => run_ops d0 os = Panic
  end.
Proof.
  intros f d0 os M G. pose proof (steps_rep f os d0 (beginning f) (start_rep f d0 M G)) as H. destruct (steps f (beginning f) os) as [w|]; [|exact H].
  destruct H as (d & E & R & _). now exists d.
Qed.
Print Assumptions C107_machine.
Definition some_ops : list op := [OCreate; OCreate; OWrite (lit "customer 2") (lit "name") (lit "Bo"); OFirst; OWriteHere (lit "id") (lit "7"); OFind [1]; OCreate; OPrevious].
Example C107_machine_ex : maps_ok (shop CEqual) /\ (exists d0, generate_from_fmp12 db_new (shop CEqual) = Ok d0) /\
  option_map (fun w => ((found w 1, spot w 1), (found w 4, spot w 4), many w 1, value w 1 2 1, value w 1 1 0)) (steps (shop CEqual) (beginning (shop CEqual)) some_ops) =
    Some (([1; 2], 0), ([0; 1; 2], 2), 3, lit "Bo", lit "7") /\
  match steps (shop CEqual) (beginning (shop CEqual)) (some_ops ++ [OLayout 2; OGoto 3]) with None => True | Some _ => False end.
Proof. split; [apply shop_maps|]. split; [eexists; vm_compute; reflexivity|]. split; vm_compute; [reflexivity|exact I]. Qed.

(** C107: and reading the current record of an occurrence gives the value the machine has there. *)
Theorem C107_read : forall f d0 os d name field, maps_ok f -> generate_from_fmp12 db_new f = Ok d0 -> run_ops d0 os = Ok d ->
  exists w, steps f (beginning f) os = Some w /\
  get_current_record_by_table_field d name field =
    match named f name with
    | Some i =>
      if occurs f i then
        match nthN (found w i) (spot w i) with
        | None => Ok (RErr tt)
        | Some r =>
          match place_of field (headings f (base f i)) with
          | Some j => if r <? many w (base f i) then Ok (ROk (value w (base f i) j r)) else Panic
          | None => Panic
          end
        end
      else Panic
    | None => Panic
    end.
Proof.
  intros f d0 os d name field M G E. pose proof (C107_machine f d0 os M G) as H. destruct (steps f (beginning f) os) as [w|]; [|congruence].
  destruct H as (d1 & E1 & R1 & R2 & R3 & R4 & R5). assert (d1 = d) by congruence. subst d1. exists w. split; [reflexivity|].
  unfold get_current_record_by_table_field, get_occurrence_by_name, occurrence_index. rewrite R3. destruct (named f name) as [i|]; [|reflexivity]. cbn [unwrap bind]. unfold at_. rewrite R2. destruct (occurs f i); [|reflexivity].
  cbn [unwrap bind]. set (oc := mkTocc (found w i) (base f i) (spot w i) (flat_map (seen_from i) (vals (f_relationships f)))).
  destruct (nthN (found w i) (spot w i)) as [r|] eqn:Er; [|unfold current_place, get_current_record; cbn [oc to_found to_ptr]; now rewrite Er].
  assert (CP : (exists p, current_place d oc field = Ok (ROk p)) \/ current_place d oc field = Panic).
  { unfold current_place, get_current_record. cbn [to_found to_ptr to_table oc]. rewrite Er. unfold at_. destruct (nthN (d_tables d) (base f i)) as [tb|]; [|right; reflexivity]. cbn [unwrap bind].
    unfold first_index, at_. destruct (nthN (filter _ _) 0); [|right; reflexivity]. cbn [unwrap bind]. rewrite read_place_cell. destruct (cell d _); [left; eexists; reflexivity|right; reflexivity]. }
  specialize (R4 (base f i)). destruct CP as [(p & P)|P].
  - rewrite P. cbn [bind]. apply current_place_ok in P as (r' & tb & k & u & P1 & P2 & P3 & -> & P4). cbn [oc to_found to_ptr to_table] in *. assert (r' = r) by congruence. subst r'.
    rewrite P2 in R4. apply place_first in P3. rewrite R4 in P3. rewrite P3, read_place_cell, P4. cbn [unwrap bind]. rewrite R5 in P4. destruct (k <? width f (base f i)); [|discriminate]. cbn [andb] in P4.
    destruct (r <? many w (base f i)); [|discriminate]. congruence.
  - rewrite P. cbn [bind]. destruct (place_of field (headings f (base f i))) as [j|] eqn:Ej; [|reflexivity]. destruct (r <? many w (base f i)) eqn:Em; [|reflexivity]. exfalso.
    assert (Lj : j < width f (base f i)). { apply place_ok in Ej as [Ej _]. apply nthN_lt in Ej. unfold headings in Ej. rewrite !lenN_map in Ej. unfold lenN in Ej. rewrite seq_length in Ej. lia. }
    assert (C : cell d (base f i, j, r) = Some (value w (base f i) j r)). { rewrite R5, Em. now replace (j <? width f (base f i)) with true by lia. }
    destruct (nthN (d_tables d) (base f i)) as [tb|] eqn:Q; [|unfold cell in C; rewrite Q in C; discriminate]. rewrite <- R4 in Ej. apply place_first in Ej.
    assert (X : current_place d oc field = Ok (ROk (base f i, j, r))). { apply current_place_ok. exists r, tb, j, (value w (base f i) j r). cbn [oc to_found to_ptr to_table]. auto. }
    congruence.
Qed.
Print Assumptions C107_read.
Example C107_read_ex : exists d0 d, generate_from_fmp12 db_new (shop CEqual) = Ok d0 /\ run_ops d0 some_ops = Ok d /\ get_current_record_by_table_field d (lit "customer") (lit "name") = Ok (ROk (lit "Bo")).
Proof. do 2 eexists. split; [vm_compute; reflexivity|]. split; vm_compute; reflexivity. Qed.

(** C107: showing all records keeps the position, not the record: another record is current afterwards. *)
Theorem C107_show_all_refuted : exists os,
  option_map (fun w => nthN (found w 1) (spot w 1)) (steps (shop CEqual) (beginning (shop CEqual)) os) = Some (Some 2) /\
  option_map (fun w => nthN (found w 1) (spot w 1)) (steps (shop CEqual) (beginning (shop CEqual)) (os ++ [OShowAll])) = Some (Some 0).
Proof. exists [OCreate; OCreate; OCreate; OFind [2]]. split; vm_compute; reflexivity. Qed.
Print Assumptions C107_show_all_refuted.

(** C107: showing all records twice, or finding nothing, is the same as showing all of them once. *)
Theorem C107_show_all_again : forall f w w', show_all f w = Some w' -> step f w (OFind []) = Some w' /\
  exists w'', show_all f w' = Some w'' /\ shown w'' = shown w' /\ many w'' = many w' /\ value w'' = value w' /\ forall i, found w'' i = found w' i /\ spot w'' i = spot w' i.
Proof.
  intros f w w' H. split; [exact H|]. unfold show_all in *. destruct (occurs f (shown w) && (0 <? width f (base f (shown w)))) eqn:Q; [|discriminate]. injection H as <-.
  cbn [show shown many value found spot]. rewrite Q. eexists. split; [reflexivity|]. cbn [show shown many value found spot]. repeat split; unfold but; destruct (i =? shown w); auto. now rewrite N.eqb_refl.
Qed.
Print Assumptions C107_show_all_again.
Example C107_show_all_again_ex : match show_all (shop CEqual) (beginning (shop CEqual)) with Some w => found w 1 = [] | None => False end.
Proof. vm_compute. reflexivity. Qed.
