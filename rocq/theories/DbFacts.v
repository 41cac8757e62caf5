(** Basic facts about the database model. *)
From Coq Require Import NArith List Bool Lia Sorted.
From Verif Require Import Prelude PreludeFacts StrOrder ComponentModel RelModel DbModel DbSpec.
Import ListNotations.
Local Open Scope N_scope.

Lemma put_ok {A} (l : list A) i x l' : put l i x = Ok l' <-> i < lenN l /\ l' = updateN l i (fun _ => x).
Proof.
  unfold put. rewrite bind_ok. split.
  - intros (a & H%at_ok & E). apply nthN_lt in H. inversion E. auto.
  - intros (H & ->). destruct (nthN_ex l i H) as (a & E). exists a. rewrite at_ok. auto.
Qed.

Lemma put_nth {A} (l : list A) i x l' j :
  put l i x = Ok l' -> nthN l' j = if i =? j then Some x else nthN l j.
Proof.
  intros (H & ->)%put_ok. rewrite updateN_nth. destruct (N.eqb_spec i j); auto. subst.
  destruct (nthN_ex l j H) as (a & ->). reflexivity.
Qed.

Lemma put_len {A} (l : list A) i x l' : put l i x = Ok l' -> lenN l' = lenN l.
Proof. intros (H & ->)%put_ok. apply updateN_len. Qed.

Lemma put_some {A} (l : list A) i x a : nthN l i = Some a -> put l i x = Ok (updateN l i (fun _ => x)).
Proof. intros H%nthN_lt. apply put_ok. auto. Qed.

Lemma put_forall {A} (P : A -> Prop) (l : list A) i x l' :
  put l i x = Ok l' -> Forall P l -> P x -> Forall P l'.
Proof.
  intros H F Px. apply Forall_forall. intros y Hy. apply In_nth_error in Hy as (n & Hn).
  pose proof (put_nth _ _ _ _ (N.of_nat n) H) as E. rewrite nthN_nth_error, Nnat.Nat2N.id, Hn in E.
  destruct (i =? N.of_nat n); [now inversion E|]. rewrite nthN_nth_error in E. symmetry in E. apply nth_error_In in E.
  rewrite Forall_forall in F. auto.
Qed.

Lemma nth_ext {A} (l l' : list A) : (forall i, nthN l i = nthN l' i) -> l = l'.
Proof.
  revert l'. induction l as [|x l IH]; intros [|y l'] H; auto.
  - specialize (H 0). discriminate.
  - specialize (H 0). discriminate.
  - pose proof (H 0) as E. inversion E. f_equal. apply IH. intros i. specialize (H (1 + i)). now rewrite !nthN_succ in H.
Qed.

Lemma nthN_In {A} (l : list A) i x : nthN l i = Some x -> In x l.
Proof. rewrite nthN_nth_error. apply nth_error_In. Qed.

Lemma In_nthN {A} (l : list A) x : In x l -> exists i, nthN l i = Some x.
Proof. intros (n & H)%In_nth_error. exists (N.of_nat n). now rewrite nthN_nth_error, Nnat.Nat2N.id. Qed.

Lemma nthN_map {A B} (f : A -> B) l i : nthN (map f l) i = option_map f (nthN l i).
Proof. rewrite !nthN_nth_error. apply nth_error_map. Qed.

Lemma modify_current_ok d f d' : modify_current d f = Ok d' <->
  exists o o', nthN (d_occs d) (d_handle d) = Some o /\ f o = Ok o' /\
    d' = with_occs d (updateN (d_occs d) (d_handle d) (fun _ => o')).
Proof.
  unfold modify_current, get_current_occurrence. split.
  - intros (o & H1%at_ok & H2)%bind_ok. apply bind_ok in H2 as (o' & H3 & H2).
    apply bind_ok in H2 as (os & H4 & H2). inversion H2. apply put_ok in H4 as (_ & ->). exists o, o'. auto.
  - intros (o & o' & H1 & H2 & ->). apply bind_ok. exists o. rewrite at_ok. split; auto.
    apply bind_ok. exists o'. split; auto. rewrite (put_some _ _ _ _ H1). reflexivity.
Qed.

Lemma below_In n x : In x (below n) <-> x < n.
Proof.
  unfold below. rewrite in_map_iff. split.
  - intros (k & <- & H%in_seq). lia.
  - intros H. exists (N.to_nat x). split; [lia|]. apply in_seq. lia.
Qed.

Lemma below_sorted n : StronglySorted N.lt (below n).
Proof.
  unfold below. generalize 0%nat. induction (N.to_nat n) as [|k IH]; intros s; cbn; constructor; auto.
  apply Forall_map. apply Forall_forall. intros x H%in_seq. lia.
Qed.

Lemma below_len n : lenN (below n) = n.
Proof. unfold below. rewrite lenN_map. unfold lenN. rewrite seq_length. lia. Qed.

Lemma sorted_snoc l x : StronglySorted N.lt l -> (forall y, In y l -> y < x) -> StronglySorted N.lt (l ++ [x]).
Proof.
  induction 1 as [|y l S IH F]; intros H; cbn.
  - repeat constructor.
  - constructor.
    + apply IH. intros. apply H. now right.
    + apply Forall_app. split; auto. constructor; auto. apply H. now left.
Qed.

(** An ascending list below a bound is no longer than the bound. *)
Lemma sorted_len l n : StronglySorted N.lt l -> (forall x, In x l -> x < n) -> lenN l <= n.
Proof.
  intros S H. assert (lenN l <= lenN (below n)).
  { unfold lenN. assert (length l <= length (below n))%nat; [|lia]. apply NoDup_incl_length.
    - clear H. induction S as [|x l S IH F]; constructor; auto. intros Hi. rewrite Forall_forall in F. specialize (F _ Hi). lia.
    - intros x Hx. apply below_In. auto. }
  rewrite below_len in *. auto.
Qed.

Lemma resize_len {A} (l : list A) n x : lenN (resize l n x) = n.
Proof.
  unfold resize, lenN. destruct (N.leb_spec n (N.of_nat (length l))).
  - rewrite firstn_length. lia.
  - rewrite app_length, repeat_length. lia.
Qed.

Lemma resize_nth {A} (l : list A) n x i :
  nthN (resize l n x) i = if i <? n then (if i <? lenN l then nthN l i else Some x) else None.
Proof.
  destruct (N.ltb_spec i n).
  2:{ apply nthN_None. now rewrite resize_len. }
  unfold resize. destruct (N.leb_spec n (lenN l)).
  - destruct (N.ltb_spec i (lenN l)); [|lia]. rewrite !nthN_nth_error. revert H. generalize n. clear. intros n.
    assert (forall (l : list A) i k, (i < k)%nat -> nth_error (firstn k l) i = nth_error l i) as F.
    { clear. induction l as [|y l IH]; intros [|i] [|k] H; cbn; auto; try lia. apply IH. lia. }
    intros H. apply F. lia.
  - destruct (N.ltb_spec i (lenN l)).
    + now rewrite nthN_app_l.
    + rewrite nthN_app_r by auto. rewrite nthN_nth_error. apply nth_error_repeat. lia.
Qed.

Lemma max_key_ge ks k : In k ks -> k <= max_key ks.
Proof. induction ks as [|a ks IH]; cbn; [tauto|]. intros [->|H]; [lia|]. specialize (IH H). lia. Qed.
