(** When the lookup of an operand does not end. *)
From Coq Require Import NArith ZArith List Bool Lia Arith.
From Verif Require Import Prelude PreludeFacts CalcModel CalcSpec CalcFacts DbModel EvalModel EvalSpec EvalProofs.
Import ListNotations.
Local Open Scope N_scope.

Section P.
Context (E : fenv) (v : view).
Notation get_operand_val := (get_operand_val E v).

Definition hop (s : list N) : option (list N) :=
  match parse64 E s with
  | Some _ => None
  | None => if quoted s then None else match split s with
    | [_; field] => match get_found_set_record_field (vw_db v) field with Ok w => Some w | _ => None end
    | _ => match current_scope v with Ok vars => sget vars s | _ => None end
    end
  end.

Lemma field_not_nofuel field : get_found_set_record_field (vw_db v) field <> NoFuel.
Proof.
  unfold get_found_set_record_field, get_current_occurrence, get_current_table, get_current_occurrence, Prelude.at_.
  destruct (nthN (d_occs (vw_db v)) _) as [o|]; cbn; [|discriminate].
  destruct (nthN (d_tables (vw_db v)) _) as [t|]; cbn; [|discriminate].
  destruct (nthN (to_found o) _); cbn; [|discriminate]. destruct (find _ _); [|discriminate]. destruct (nthN _ _); discriminate.
Qed.
Lemma scope_not_nofuel : current_scope v <> NoFuel.
Proof. unfold current_scope, subU, Prelude.at_. destruct (_ <=? _); cbn; [|discriminate]. destruct (nthN _ _); discriminate. Qed.

Lemma operand_hop f s : match hop s with Some w => get_operand_val (S f) s = get_operand_val f w | None => get_operand_val (S f) s <> NoFuel end.
Proof.
  unfold hop. rewrite operand_S. destruct (parse64 E s); [discriminate|]. destruct (quoted s); [discriminate|].
  assert (V : match match current_scope v with Ok vars => sget vars s | _ => None end with
    | Some w => bind (current_scope v) (fun vars => match sget vars s with None => Ok (OText, []) | Some w => get_operand_val f w end) = get_operand_val f w
    | None => bind (current_scope v) (fun vars => match sget vars s with None => Ok (OText, []) | Some w => get_operand_val f w end) <> NoFuel end).
  { pose proof scope_not_nofuel. destruct (current_scope v) as [sc| |]; cbn; [|discriminate|congruence]. destruct (sget sc s); [reflexivity|discriminate]. }
  destruct (split s) as [|a [|b [|c l]]]; auto.
  pose proof (field_not_nofuel b). destruct (get_found_set_record_field (vw_db v) b); cbn; [reflexivity|discriminate|congruence].
Qed.

Lemma hop_spec s w : hop s = Some w <-> leads_to E v s w.
Proof.
  unfold hop. split.
  - destruct (parse64 E s) eqn:Ep; [discriminate|]. destruct (quoted s) eqn:Eq; [discriminate|]. apply quoted_false in Eq.
    destruct (split_cases s) as [(a & b & Hs & Hv & Ha & Hb)|[Hf Hs]].
    + rewrite Hs. intros H. destruct (get_found_set_record_field (vw_db v) b) eqn:Eg; try discriminate. inversion H; subst. eapply LtField; eauto.
    + intros H. assert (K : match current_scope v with Ok vars => sget vars s | _ => None end = Some w).
      { destruct (split s) as [|a [|b [|c l]]]; auto. now elim (Hs a b). }
      destruct (current_scope v) as [sc| |] eqn:Ec; try discriminate. apply scope_spec in Ec as [Ec1 Ec2].
      apply LtVariable; auto. now exists sc.
  - intros H. destruct H as [s a b w H Hq Hs Ha Hb Hg|s w H Hq Hf (sc & V0 & V1 & V2)].
    + rewrite H. apply quoted_false in Hq. rewrite Hq.
      assert (St : stands_for E v w OText [] \/ True) by auto.
      destruct (split_cases s) as [(a' & b' & Hsp & Hs' & Ha' & Hb')|[Hf _]]; [|exfalso; apply Hf; now exists a, b].
      rewrite Hsp. assert (b' = b) as ->; [|now rewrite Hg].
      clear - Hs Hs' Ha Ha' Hb Hb'. rewrite Hs in Hs'. clear s Hs. revert a' Hs' Ha'. induction a as [|x a IH]; intros a' Hs' Ha'.
      * destruct a' as [|y [|z a']]; inversion Hs'; auto.
        -- subst. exfalso. apply Ha'. now exists [], [].
        -- subst. exfalso. apply Ha'. now exists [], (a' ++ [58]).
      * destruct a' as [|y a'].
        -- cbn in Hs'. inversion Hs'. subst. destruct a as [|z a]; [inversion H1; subst; exfalso; apply Ha; now exists [], []|].
           inversion H1. subst. exfalso. apply Ha. now exists [], (a ++ [58]).
        -- inversion Hs'. apply (IH) with (a' := a'); auto.
           ++ intros (p & q & K). apply Ha. exists (x :: p), q. cbn. now rewrite K.
           ++ intros (p & q & K). apply Ha'. exists (y :: p), q. cbn. now rewrite K.
    + rewrite H. apply quoted_false in Hq. rewrite Hq. assert (V : current_scope v = Ok sc) by (now apply scope_spec).
      destruct (split_cases s) as [(a' & b' & Hsp & Hs' & Ha' & Hb')|[_ Hs]]; [exfalso; apply Hf; now exists a', b'|].
      destruct (split s) as [|x [|y [|z l]]]; try (now rewrite V). now elim (Hs x y).
Qed.

(** The texts that a step can lead to. *)
Definition held : list (list N) :=
  [] :: match current_scope v with Ok sc => map snd sc | _ => [] end ++
  match get_current_table (vw_db v) with Ok t => concat (map df_records (dt_fields t)) | _ => [] end.

Lemma sget_in (m : scope) k w : sget m k = Some w -> In w (map snd m).
Proof.
  induction m as [|[k' w'] m IH]; [discriminate|]. unfold sget in *. cbn [mget]. destruct (str_eqb _ _).
  - intros H. inversion H; subst. now left.
  - intros H. right. now apply IH.
Qed.

Lemma hop_held s w : hop s = Some w -> In w held.
Proof.
  unfold hop, held. destruct (parse64 E s); [discriminate|]. destruct (quoted s); [discriminate|].
  assert (V : match current_scope v with Ok vars => sget vars s | _ => None end = Some w ->
    In w ([] :: match current_scope v with Ok sc => map snd sc | _ => [] end ++ match get_current_table (vw_db v) with Ok t => concat (map df_records (dt_fields t)) | _ => [] end)).
  { destruct (current_scope v); try discriminate. intros H. right. apply in_or_app. left. now apply sget_in in H. }
  destruct (split s) as [|a [|b [|c l]]]; auto. clear V.
  unfold get_found_set_record_field. destruct (get_current_occurrence (vw_db v)); cbn; try discriminate.
  destruct (get_current_table (vw_db v)) as [t| |]; cbn; try discriminate. unfold Prelude.at_.
  destruct (nthN (to_found _) _); cbn; try discriminate. destruct (find _ (dt_fields t)) as [fl|] eqn:Ef; intros H.
  - apply find_some in Ef as [Ef _]. right. apply in_or_app. right. apply in_concat. exists (df_records fl). split; [now apply in_map|].
    destruct (nthN (df_records fl) _) as [x|] eqn:En; [|discriminate]. cbn in H. inversion H; subst. unfold nthN in En.
    destruct (_ <? _); [|discriminate]. eapply nth_error_In; eauto.
  - left. now inversion H.
Qed.

(** The texts passed on the way. *)
Fixpoint path (f : nat) (s : list N) : list (list N) :=
  match f with O => [] | S f => match hop s with Some w => w :: path f w | None => [] end end.
Lemma path_length : forall f s, get_operand_val f s = NoFuel -> length (path f s) = f.
Proof.
  induction f as [|f IH]; intros s H; [reflexivity|]. cbn [path]. pose proof (operand_hop f s) as K. destruct (hop s) as [w|].
  - cbn [length]. rewrite IH; [reflexivity|]. rewrite <- K. exact H.
  - now elim K.
Qed.
Lemma path_held : forall f s, incl (path f s) held.
Proof.
  induction f as [|f IH]; intros s x Hx; [destruct Hx|]. cbn in Hx. destruct (hop s) as [w|] eqn:Eh; [|destruct Hx].
  destruct Hx as [<-|Hx]; [eapply hop_held; eauto|eapply IH; eauto].
Qed.
Lemma path_far : forall f s x, In x (path f s) -> leads_far E v s x.
Proof.
  induction f as [|f IH]; intros s x Hx; [destruct Hx|]. cbn in Hx. destruct (hop s) as [w|] eqn:Eh; [|destruct Hx]. apply hop_spec in Eh.
  destruct Hx as [<-|Hx]; [now apply LfOne|]. eapply LfMore; eauto.
Qed.
Lemma path_repeat : forall f s, ~ NoDup (path f s) -> exists u, leads_far E v s u /\ leads_far E v u u.
Proof.
  induction f as [|f IH]; intros s H; [elim H; constructor|]. cbn [path] in H. destruct (hop s) as [w|] eqn:Eh; [|elim H; constructor].
  destruct (in_dec (list_eq_dec N.eq_dec) w (path f w)) as [Hi|Hi].
  - exists w. split; [apply LfOne; now apply hop_spec|]. eapply path_far; eauto.
  - destruct (IH w) as (u & U1 & U2).
    + intros K. apply H. now constructor.
    + exists u. split; auto. apply (LfMore _ _ s w u); auto. now apply hop_spec.
Qed.

Lemma nodup_dec (l : list (list N)) : {NoDup l} + {~ NoDup l}.
Proof.
  induction l as [|x l IH]; [left; constructor|]. destruct IH as [H|H]; [|right; intros K; inversion K; auto].
  destruct (in_dec (list_eq_dec N.eq_dec) x l) as [I|I]; [right; intros K; inversion K; auto|left; now constructor].
Qed.

Theorem never_ends_cycle s : get_operand_val (S (length held)) s = NoFuel -> exists u, (u = s \/ leads_far E v s u) /\ leads_far E v u u.
Proof.
  intros H. destruct (nodup_dec (path (S (length held)) s)) as [D|D].
  - pose proof (NoDup_incl_length D (path_held _ s)) as L. rewrite path_length in L by exact H. lia.
  - destruct (path_repeat _ _ D) as (u & U1 & U2). exists u. auto.
Qed.

Lemma far_nofuel s u : leads_far E v s u -> (forall f, get_operand_val f u = NoFuel) -> forall f, get_operand_val f s = NoFuel.
Proof.
  induction 1 as [s w H|s w u H _ IH]; intros K f; (destruct f as [|f]; [reflexivity|]; apply hop_spec in H; pose proof (operand_hop f s) as L; rewrite H in L; rewrite L).
  - apply K.
  - now apply IH.
Qed.
Lemma cycle_nofuel u : leads_far E v u u -> forall f, get_operand_val f u = NoFuel.
Proof.
  intros H. 
  assert (G : forall f x, leads_far E v u x \/ x = u -> leads_far E v x u -> get_operand_val f x = NoFuel).
  { induction f as [|f IH]; intros x Hx Hu; [reflexivity|].
    inversion Hu as [? ? Hl|? w ? Hl Hr]; subst; apply hop_spec in Hl; pose proof (operand_hop f x) as L; rewrite Hl in L; rewrite L.
    - apply IH; auto.
    - apply IH; auto. left. clear - Hx Hl. apply hop_spec in Hl. destruct Hx as [Hx| ->]; [|now apply LfOne].
      induction Hx; eapply LfMore; eauto. now apply LfOne. }
  intros f. apply G; auto.
Qed.

Theorem never_ends s : (forall f, get_operand_val f s = NoFuel) <-> exists u, (u = s \/ leads_far E v s u) /\ leads_far E v u u.
Proof.
  split; [intros H; apply never_ends_cycle, H|]. intros (u & [->|Hu] & Hc); [now apply cycle_nofuel|].
  intros f. now apply (far_nofuel s u); [|apply cycle_nofuel].
Qed.

(** Enough fuel for every operand that can be looked up at all. *)
Theorem operand_decided s f : (S (length held) <= f)%nat -> get_operand_val f s = get_operand_val (S (length held)) s.
Proof.
  intros Hf. destruct (get_operand_val (S (length held)) s) eqn:H; [rewrite <- H; apply operand_mono_le; auto; congruence|rewrite <- H; apply operand_mono_le; auto; congruence|].
  apply never_ends. now apply never_ends_cycle.
Qed.
End P.
