(** Facts used for the test runner: parts of names, sorting, columns. *)
From Coq Require Import Ascii String NArith List Bool Sorted Lia Arith.
From Verif Require Import Prelude PreludeFacts StrOrder StrOrderFacts InstrModel ComponentModel CalcModel CalcSpec CalcFacts DbModel DbSpec DbFacts DbProofs
  EvalModel EvalSpec EvalProofs EvalCycle EvalFuel VmModel VmSpec.
Import ListNotations.
Local Open Scope N_scope.

(** ** Parts of names *)
Lemma split_acc : forall n s acc, (length s <= n)%nat ->
  (~ has_colons s /\ split_colons s acc = [rev acc ++ s]) \/
  (exists a b, s = a ++ 58 :: 58 :: b /\ ~ has_colons (a ++ [58]) /\ split_colons s acc = (rev acc ++ a) :: split b).
Proof.
  induction n as [|n IH]; intros s acc Hn.
  - destruct s; [|cbn in Hn; lia]. left. split; [intros (p & q & K); destruct p; discriminate|]. cbn. now rewrite app_nil_r.
  - destruct s as [|x s]; [left; split; [intros (p & q & K); destruct p; discriminate|cbn; now rewrite app_nil_r]|].
    destruct s as [|y s].
    + left. split; [intros (p & q & K); destruct p as [|? [|]]; discriminate|]. reflexivity.
    + rewrite split_step. destruct ((x =? 58) && (y =? 58)) eqn:C.
      * apply andb_true_iff in C as [C1 C2]. apply N.eqb_eq in C1, C2. subst. right. exists [], s. split; [reflexivity|].
        split; [intros (p & q & K); destruct p as [|? [|]]; discriminate|]. now rewrite app_nil_r.
      * assert (NC : forall w, has_colons (x :: w) -> (exists t, w = y :: t) -> has_colons w).
        { intros w (p & q & K) (t & ->). destruct p as [|p0 p]; [|inversion K; subst; now exists p, q].
          inversion K; subst. rewrite !N.eqb_refl in C. discriminate. }
        destruct (IH (y :: s) (x :: acc)) as [[H1 H2]|(a & b & H1 & H2 & H3)]; [cbn in *; lia| |].
        -- left. split; [intros K; apply H1; apply NC; eauto|]. rewrite H2. cbn [rev]. now rewrite <- app_assoc.
        -- right. exists (x :: a), b. split; [cbn; now rewrite H1|]. split; [|rewrite H3; cbn [rev]; now rewrite <- app_assoc].
           intros K. cbn [app] in K. apply H2. apply NC; [exact K|]. destruct a as [|a0 a]; [|cbn in H1; inversion H1; cbn; eauto].
           cbn in H1. inversion H1. cbn. eauto.
Qed.
Lemma split_first s : (~ has_colons s /\ split s = [s]) \/
  (exists a b, s = a ++ 58 :: 58 :: b /\ ~ has_colons (a ++ [58]) /\ split s = a :: split b).
Proof. apply (split_acc (length s) s []). lia. Qed.

Lemma cut_unique : forall a a' b b', a ++ 58 :: 58 :: b = a' ++ 58 :: 58 :: b' -> ~ has_colons (a ++ [58]) -> ~ has_colons (a' ++ [58]) -> a = a' /\ b = b'.
Proof.
  induction a as [|x a IH]; intros a' b b' H Ha Ha'.
  - destruct a' as [|y [|z a']]; cbn in H; inversion H; auto; subst; exfalso; apply Ha'; [now exists [], []|now exists [], (a' ++ [58])].
  - destruct a' as [|y a'].
    + destruct a as [|z a]; cbn in H; inversion H; subst; exfalso; apply Ha; [now exists [], []|now exists [], (a ++ [58])].
    + inversion H; subst. destruct (IH a' b b') as [-> ->]; auto; intros (p & q & K); [apply Ha|apply Ha']; exists (y :: p), q; cbn; now rewrite K.
Qed.
Lemma first_part_spec s p : nthN (split s) 0 = Some p <-> first_part s p.
Proof.
  destruct (split_first s) as [[H1 H2]|(a & b & H1 & H2 & H3)].
  - rewrite H2. cbn. split; [intros K; inversion K; subst; left; auto|]. intros [[_ ->]|(b & -> & _)]; [reflexivity|]. exfalso. apply H1. now exists p, b.
  - rewrite H3. cbn. split; [intros K; inversion K; subst; right; now exists b|]. intros [[K _]|(b' & K & L)]; [exfalso; apply K; now exists a, b|].
    subst s. apply cut_unique in K as [-> _]; auto.
Qed.
Lemma second_part_spec s p : nthN (split s) 1 = Some p <-> second_part s p.
Proof.
  destruct (split_first s) as [[H1 H2]|(a & b & H1 & H2 & H3)].
  - rewrite H2. split; [discriminate|]. intros (a & b & -> & _). exfalso. apply H1. now exists a, b.
  - rewrite H3. change 1 with (1 + 0); rewrite nthN_succ. rewrite first_part_spec. split.
    + intros K. now exists a, b.
    + intros (a' & b' & K & L & M). rewrite K in H1. apply cut_unique in H1 as [-> ->]; auto.
Qed.

(** ** Sorting *)
Lemma insert_In n : forall l x, In x (insert_number n l) <-> x = n \/ In x l.
Proof.
  induction l as [|m l IH]; intros x; cbn [insert_number].
  - cbn. intuition.
  - destruct (N.ltb_spec n m); [cbn; intuition|]. destruct (N.eqb_spec n m).
    + subst. cbn. intuition.
    + cbn [In]. rewrite IH. intuition.
Qed.
Lemma insert_sorted n : forall l, StronglySorted N.lt l -> StronglySorted N.lt (insert_number n l).
Proof.
  induction l as [|m l IH]; intros H; cbn [insert_number].
  - constructor; constructor.
  - inversion H as [|? ? H1 H2]; subst. destruct (N.ltb_spec n m).
    + constructor; auto. constructor; auto. eapply Forall_impl; [|exact H2]. intros; cbn in *; lia.
    + destruct (N.eqb_spec n m); auto. constructor; auto. rewrite Forall_forall in *. intros x Hx. apply insert_In in Hx as [->|Hx]; [lia|auto].
Qed.
Lemma sort_sorted l : StronglySorted N.lt (sort_numbers l).
Proof. induction l; cbn [sort_numbers fold_right]; [constructor|]. now apply insert_sorted. Qed.
Lemma sort_In l x : In x (sort_numbers l) <-> In x l.
Proof. induction l as [|n l IH]; cbn [sort_numbers fold_right]; [tauto|]. fold (sort_numbers l). rewrite insert_In, IH. cbn. intuition. Qed.
Lemma sorted_unique : forall a b, StronglySorted N.lt a -> StronglySorted N.lt b -> (forall x, In x a <-> In x b) -> a = b.
Proof.
  induction a as [|x a IH]; intros b Ha Hb H.
  - destruct b as [|y b]; auto. exfalso. apply (proj2 (H y)). now left.
  - destruct b as [|y b]; [exfalso; apply (proj1 (H x)); now left|].
    inversion Ha as [|? ? A1 A2]; inversion Hb as [|? ? B1 B2]; subst. rewrite Forall_forall in A2, B2.
    assert (x = y).
    { destruct (proj1 (H x) (or_introl eq_refl)) as [->|K]; auto. destruct (proj2 (H y) (or_introl eq_refl)) as [->|K']; auto.
      apply A2 in K'. apply B2 in K. cbn in *. lia. }
    subst y. f_equal. apply IH; auto. intros z. split; intros Hz.
    + destruct (proj1 (H z) (or_intror Hz)) as [->|K]; auto. apply A2 in Hz. lia.
    + destruct (proj2 (H z) (or_intror Hz)) as [->|K]; auto. apply B2 in Hz. lia.
Qed.

(** ** Finding *)
Lemma enumerate_In {A} : forall (l : list A) i j x, In (j, x) (enumerate_from i l) <-> exists k, j = i + k /\ nthN l k = Some x.
Proof.
  induction l as [|y l IH]; intros i j x; cbn [enumerate_from In].
  - split; [tauto|]. intros (k & _ & H). apply nthN_lt in H. change (lenN (@nil A)) with 0 in H. lia.
  - rewrite IH. split.
    + intros [H|(k & -> & H)]; [inversion H; subst; exists 0; split; [lia|apply nthN_0]|]. exists (1 + k). rewrite nthN_succ. split; [lia|auto].
    + intros (k & -> & H). destruct (N.eq_dec k 0) as [->|Hk].
      * left. rewrite nthN_0 in H. inversion H. f_equal. lia.
      * right. exists (k - 1). replace k with (1 + (k - 1)) in H by lia. rewrite nthN_succ in H. split; [lia|auto].
Qed.
Lemma column_ok d field vs : get_field_vals_for_current_table d field = Ok vs <-> column d field vs.
Proof.
  unfold get_field_vals_for_current_table, get_current_table, get_current_occurrence, column. split.
  - intros H. apply bind_ok in H as (tb & H1 & H2). apply bind_ok in H1 as (o & H0 & H1). apply bind_ok in H2 as (fd & H2 & H3).
    apply at_ok in H0. apply at_ok in H1. apply first_named_ok in H2 as (i & H4 & H5). inversion H3. exists o, tb, i, fd. auto.
  - intros (o & tb & i & fd & H0 & H1 & H2 & H3 & H4). rewrite (proj2 (at_ok _ _ _) H0). cbn [bind]. rewrite (proj2 (at_ok _ _ _) H1). cbn [bind].
    rewrite (proj2 (first_named_ok tb field fd)); [cbn; now rewrite H4|]. exists i. split; auto.
Qed.
Lemma column_fun d field vs vs' : column d field vs -> column d field vs' -> vs = vs'.
Proof. rewrite <- !column_ok. congruence. Qed.
Lemma second_part_fun n p q : second_part n p -> second_part n q -> p = q.
Proof. rewrite <- !second_part_spec. congruence. Qed.

Lemma matching_ok d c ids : matching d c = Ok ids ->
  (exists field vs, second_part (fst c) field /\ column d field vs) /\ forall r, In r ids <-> satisfies d c r.
Proof.
  unfold matching. intros H. apply bind_ok in H as (field & H1 & H). apply bind_ok in H as (vs & H2 & H3). rewrite at_ok in H1.
  apply second_part_spec in H1. apply column_ok in H2. split; [eauto|]. intros r. inversion H3. clear H3. rewrite in_map_iff. split.
  - intros ((j & x) & K1 & K2). cbn in K1. subst j. apply filter_In in K2 as [K2 K3]. cbn in K3. apply str_eqb_eq in K3. subst x.
    apply enumerate_In in K2 as (k & -> & K2). exists field, vs. auto.
  - intros (f' & vs' & K1 & K2 & K3). rewrite (second_part_fun _ _ _ K1 H1) in K2. rewrite (column_fun _ _ _ _ K2 H2) in K3.
    exists (r, snd c). split; auto. apply filter_In. split; [|cbn; apply str_eqb_refl]. apply enumerate_In. exists r. split; [lia|auto].
Qed.
Lemma matching_total d c field vs : second_part (fst c) field -> column d field vs -> exists ids, matching d c = Ok ids.
Proof.
  intros H1 H2. unfold matching. rewrite (proj2 (at_ok _ _ _) (proj2 (second_part_spec _ _) H1)). cbn [bind].
  rewrite (proj2 (column_ok _ _ _) H2). cbn [bind]. eauto.
Qed.
Lemma finds_found d : forall cs ids, matching_any d cs = Ok ids -> finds d cs (sort_numbers ids).
Proof.
  intros cs ids H. split; [apply sort_sorted|].
  assert (G : (forall r, In r ids <-> exists c, In c cs /\ satisfies d c r) /\
    forall c, In c cs -> exists field values, second_part (fst c) field /\ column d field values).
  { revert ids H. induction cs as [|c cs IH]; intros ids H; cbn [matching_any] in H.
    - inversion H. split; [|intros ? []]. intros r. split; [intros []|intros (c & [] & _)].
    - apply bind_ok in H as (i1 & H1 & H). apply bind_ok in H as (i2 & H2 & H3). inversion H3. subst ids. clear H3.
      apply matching_ok in H1 as [H0 H1]. destruct (IH _ H2) as [H3 H4]. split.
      + intros r. rewrite in_app_iff, H1, H3. split.
        * intros [K|(c' & K1 & K2)]; [exists c; split; [now left|auto]|exists c'; split; [now right|auto]].
        * intros (c' & [<-|K1] & K2); [now left|right; eauto].
      + intros c' [<-|K]; auto. }
  destruct G as [G1 G2]. split; auto. intros r. now rewrite sort_In.
Qed.
Lemma finds_total d cs rs : finds d cs rs -> exists ids, matching_any d cs = Ok ids /\ sort_numbers ids = rs.
Proof.
  intros (H1 & H2 & H3).
  assert (G : exists ids, matching_any d cs = Ok ids).
  { clear H1 H2. induction cs as [|c cs IH]; [cbn; eauto|]. destruct (H3 c) as (f & vs & K1 & K2); [now left|].
    destruct (matching_total _ _ _ _ K1 K2) as (i1 & E1). destruct IH as (i2 & E2); [intros; apply H3; now right|].
    cbn [matching_any]. rewrite E1. cbn [bind]. rewrite E2. cbn. eauto. }
  destruct G as (ids & G). exists ids. split; auto. apply sorted_unique; [apply sort_sorted|auto|].
  intros x. destruct (finds_found _ _ _ G) as (_ & K & _). rewrite K, H2. reflexivity.
Qed.
