(** Proofs about the relation graph. *)
From Coq Require Import NArith List Bool Lia.
From Verif Require Import Prelude PreludeFacts RelModel RelSpec.
Import ListNotations.
Local Open Scope N_scope.

Lemma has_In l x : has l x = true <-> In x l.
Proof.
  unfold has. rewrite existsb_exists. split.
  - intros (y & H & E%N.eqb_eq). now subst.
  - intros H. exists x. split; auto. apply N.eqb_refl.
Qed.

Lemma has_not l x : has l x = false <-> ~ In x l.
Proof. rewrite <- has_In. destruct (has l x); split; congruence. Qed.

Lemma filter_eqb_in l x : (0 <? lenN (filter (fun y => y =? x) l)) = has l x.
Proof.
  unfold has. induction l as [|y l IH]; auto.
  cbn [filter existsb]. rewrite (N.eqb_sym x y). destruct (y =? x); auto.
Qed.

Lemma neighbours_add g a b x :
  neighbours (add_node g a b) x =
  if a =? x then (if has (neighbours g a) b then neighbours g a else neighbours g a ++ [b]) else neighbours g x.
Proof.
  unfold add_node, neighbours. rewrite filter_eqb_in.
  destruct (nget g a) as [l|] eqn:E.
  - destruct (has l b) eqn:H.
    + destruct (N.eqb_spec a x); auto. subst. now rewrite E.
    + rewrite nget_nset. destruct (a =? x); auto.
  - rewrite nget_nset. destruct (a =? x); auto.
Qed.

Lemma edge_add g a b x y : edge (add_node g a b) x y <-> edge g x y \/ (x = a /\ y = b).
Proof.
  unfold edge. rewrite neighbours_add. destruct (N.eqb_spec a x) as [E|E].
  - subst a. destruct (has (neighbours g x) b) eqn:H.
    + apply has_In in H. split; [tauto|]. intros [?|[_ ->]]; auto.
    + rewrite in_app_iff. cbn. split; intros [?|?]; auto; try tauto.
      destruct H0 as [->|[]]; auto.
      right. left. destruct H0; auto.
  - split; [tauto|]. intros [?|[-> _]]; auto. congruence.
Qed.

Lemma edge_relation g a b x y :
  edge (add_relation g a b) x y <-> edge g x y \/ (x = a /\ y = b) \/ (x = b /\ y = a).
Proof. unfold add_relation. rewrite !edge_add. tauto. Qed.

Lemma nodup_add g a b :
  (forall x, NoDup (neighbours g x)) -> forall x, NoDup (neighbours (add_node g a b) x).
Proof.
  intros H x. rewrite neighbours_add. destruct (N.eqb_spec a x); auto.
  destruct (has (neighbours g a) b) eqn:E; auto.
  apply has_not in E. specialize (H a). revert H E. generalize (neighbours g a). intros l H E.
  induction H as [|z l Hz H IH]; cbn; [constructor; auto; constructor|].
  constructor.
  - rewrite in_app_iff. cbn. intros [?|[?|[]]]; auto. subst. apply E. now left.
  - apply IH. intros ?. apply E. now right.
Qed.

(** Order of the neighbours. *)
Lemma first_mentions_snoc l : forall seen y,
  first_mentions seen (l ++ [y]) =
  if has seen y || has l y then first_mentions seen l else first_mentions seen l ++ [y].
Proof.
  unfold has. induction l as [|z l IH]; intros seen y; cbn [app first_mentions existsb].
  - rewrite orb_false_r. destruct (existsb (N.eqb y) seen); auto.
  - destruct (existsb (N.eqb z) seen) eqn:E.
    + rewrite IH. destruct (N.eqb_spec y z); cbn [orb]; auto.
      subst. rewrite E. reflexivity.
    + rewrite IH. cbn [existsb]. destruct (N.eqb_spec y z); cbn [orb].
      * rewrite orb_true_r. reflexivity.
      * destruct (existsb (N.eqb y) seen || existsb (N.eqb y) l); reflexivity.
Qed.

Lemma has_first_mentions l : forall seen y, has seen y = false -> has (first_mentions seen l) y = has l y.
Proof.
  unfold has. induction l as [|z l IH]; intros seen y H; auto.
  cbn [first_mentions existsb]. destruct (existsb (N.eqb z) seen) eqn:E.
  - rewrite IH by auto. destruct (N.eqb_spec y z); auto. subst. congruence.
  - cbn [existsb]. destruct (N.eqb_spec y z); auto. cbn [orb]. rewrite IH; auto.
    cbn [existsb]. destruct (N.eqb_spec y z); auto. congruence.
Qed.

Lemma mentioned_snoc es a b x :
  mentioned (es ++ [(a, b)]) x =
  if a =? x then (if has (mentioned es x) b then mentioned es x else mentioned es x ++ [b]) else mentioned es x.
Proof.
  unfold mentioned. rewrite filter_app, map_app. cbn [filter fst].
  destruct (a =? x); cbn [map]; [|now rewrite app_nil_r].
  cbn [snd]. rewrite first_mentions_snoc. rewrite has_first_mentions by reflexivity. reflexivity.
Qed.

Lemma built_neighbours es g : built es g -> forall x, neighbours g x = mentioned es x.
Proof.
  assert (S : forall es g a b, (forall x, neighbours g x = mentioned es x) ->
    forall x, neighbours (add_node g a b) x = mentioned (es ++ [(a, b)]) x).
  { intros es0 g0 a b H x. rewrite neighbours_add, mentioned_snoc, !H.
    destruct (N.eqb_spec a x); subst; auto. }
  induction 1 as [|es g a b B IH|es g a b B IH]; intros x.
  - reflexivity.
  - now apply S.
  - unfold add_relation. rewrite (S (es ++ [(a, b)])).
    + now rewrite <- app_assoc.
    + now apply S.
Qed.

Lemma built_nodup es g : built es g -> forall x, NoDup (neighbours g x).
Proof.
  induction 1; intros x; unfold add_relation; repeat (apply nodup_add; intros); auto; constructor.
Qed.

Lemma built_edge es g : built es g -> forall x y, edge g x y <-> In (x, y) es.
Proof.
  induction 1 as [|es g a b B IH|es g a b B IH]; intros x y.
  - unfold edge. cbn. tauto.
  - rewrite edge_add, IH, in_app_iff. cbn. split; intros [?|?]; auto.
    + destruct H as [-> ->]. auto.
    + destruct H as [E|[]]. inversion E. auto.
  - rewrite edge_relation, IH, in_app_iff. cbn. split.
    + intros [?|[[-> ->]|[-> ->]]]; auto.
    + intros [?|[E|[E|[]]]]; auto; inversion E; auto.
Qed.

Lemma related_built es g : related es g -> exists es', built es' g.
Proof.
  induction 1 as [|es g a b R (es' & IH)].
  - exists []. constructor.
  - eexists. apply BuiltRelation. exact IH.
Qed.

Lemma related_edge es g : related es g -> forall x y, edge g x y <-> In (x, y) es \/ In (y, x) es.
Proof.
  induction 1 as [|es g a b R IH]; intros x y.
  - unfold edge. cbn. tauto.
  - rewrite edge_relation, IH, !in_app_iff. cbn. split.
    + intros [[?|?]|[[-> ->]|[-> ->]]]; auto.
    + intros [[?|[E|[]]]|[?|[E|[]]]]; auto; inversion E; auto.
Qed.

Lemma related_sym es g : related es g -> forall x y, edge g x y -> edge g y x.
Proof. intros R x y. rewrite !(related_edge _ _ R). tauto. Qed.

(** Routes. *)
Lemma route_snoc g : forall ks x k p y,
  route g x ks = Some p -> nth_error (neighbours g (last p x)) k = Some y -> route g x (ks ++ [k]) = Some (p ++ [y]).
Proof.
  induction ks as [|j ks IH]; intros x k p y H1 H2; cbn in H1.
  - inversion H1; subst. cbn in H2. cbn. rewrite H2. reflexivity.
  - destruct (nth_error (neighbours g x) j) as [z|] eqn:E; [|discriminate].
    destruct (route g z ks) as [q|] eqn:R; [|discriminate]. inversion H1; subst.
    assert (L : last (x :: q) x = last q z).
    { destruct q as [|u q]; [destruct ks; cbn in R; [discriminate|]|].
      - destruct (nth_error (neighbours g z) n); [|discriminate]. destruct (route g n0 ks); discriminate.
      - change (last (x :: u :: q) x) with (last (u :: q) x). clear. revert u. induction q; intros; auto.
        change (last (u :: a :: q) x) with (last (a :: q) x). rewrite IHq. reflexivity. }
    rewrite L in H2. cbn. rewrite E. rewrite (IH _ _ _ _ R H2). reflexivity.
Qed.

Lemma route_nonempty g ks x p : route g x ks = Some p -> exists q, p = x :: q /\ length q = length ks.
Proof.
  revert x p. induction ks as [|k ks IH]; intros x p H; cbn in H.
  - inversion H. exists []. auto.
  - destruct (nth_error (neighbours g x) k) as [z|]; [|discriminate].
    destruct (route g z ks) as [q|] eqn:R; [|discriminate]. inversion H; subst.
    destruct (IH _ _ R) as (q' & -> & L). exists (z :: q'). cbn. auto.
Qed.

Lemma last_indep {A} (l : list A) d d' : l <> [] -> last l d = last l d'.
Proof.
  induction l as [|x l IH]; [congruence|]. intros _. destruct l; auto.
  cbn [last]. apply IH. discriminate.
Qed.

Lemma route_last_cons g ks x z q : route g z ks = Some q -> last (x :: q) x = last q z.
Proof.
  intros H. destruct (route_nonempty _ _ _ _ H) as (q' & -> & _).
  change (last (x :: z :: q') x) with (last (z :: q') x). apply last_indep. discriminate.
Qed.

Lemma route_walk g ks x p : route g x ks = Some p -> walk g x p (last p x).
Proof.
  revert x p. induction ks as [|k ks IH]; intros x p H; cbn in H.
  - inversion H. constructor.
  - destruct (nth_error (neighbours g x) k) as [z|] eqn:E; [|discriminate].
    destruct (route g z ks) as [q|] eqn:R; [|discriminate]. inversion H; subst.
    rewrite (route_last_cons _ _ _ _ _ R). econstructor; [|now apply IH].
    unfold edge. eapply nth_error_In; eauto.
Qed.

Lemma walk_route g x p z : walk g x p z -> exists ks, route g x ks = Some p /\ last p x = z /\ length p = S (length ks).
Proof.
  induction 1 as [x|x y p z E W (ks & R & L & N)].
  - exists []. auto.
  - unfold edge in E. apply In_nth_error in E as (k & E). exists (k :: ks). cbn. rewrite E, R.
    split; auto. split; [|auto]. rewrite <- L. apply (route_last_cons _ _ _ _ _ R).
Qed.

Lemma route_snoc_inv g : forall ks x k p,
  route g x (ks ++ [k]) = Some p ->
  exists q y, route g x ks = Some q /\ nth_error (neighbours g (last q x)) k = Some y /\ p = q ++ [y].
Proof.
  induction ks as [|j ks IH]; intros x k p H.
  - cbn in H. destruct (nth_error (neighbours g x) k) as [y|] eqn:E; [|discriminate].
    inversion H; subst. exists [x], y. auto.
  - cbn in H. destruct (nth_error (neighbours g x) j) as [z|] eqn:E; [|discriminate].
    destruct (route g z (ks ++ [k])) as [q|] eqn:R; [|discriminate]. inversion H; subst.
    destruct (IH _ _ _ R) as (q' & y & R' & E' & ->).
    exists (x :: q'), y. cbn [route]. rewrite E, R'. split; auto.
    rewrite (route_last_cons _ _ _ _ _ R'). auto.
Qed.

(** The order on position lists. *)
Lemma lex_irrefl a : ~ lex a a.
Proof. induction a; intros H; inversion H; subst; try lia. auto. Qed.

Lemma lex_trans a b c : lex a b -> lex b c -> lex a c.
Proof.
  intros H. revert c. induction H as [i j a b L|i a b L IH]; intros c H2; inversion H2; subst.
  - constructor. lia.
  - now constructor.
  - now constructor.
  - apply LexNext. auto.
Qed.

Lemma lex_app_l a b c d : length a = length b -> lex a b -> lex (a ++ c) (b ++ d).
Proof.
  intros E H. revert c d E. induction H as [i j a b L|i a b L IH]; intros c d E; cbn.
  - now constructor.
  - apply LexNext. apply IH. cbn in E. lia.
Qed.

Lemma lex_app_r a b c : lex b c -> lex (a ++ b) (a ++ c).
Proof. induction a; cbn; auto. intros. apply LexNext. auto. Qed.

Lemma earlier_trans a b c : earlier a b -> earlier b c -> earlier a c.
Proof.
  intros [H1|[H1 L1]] [H2|[H2 L2]]; try (left; lia). right. split; [lia|]. eapply lex_trans; eauto.
Qed.

Lemma earlier_irrefl a : ~ earlier a a.
Proof. intros [H|[_ H]]; [lia|]. now apply lex_irrefl in H. Qed.

Lemma earlier_app a b c d : length c = length d -> earlier a b -> earlier (a ++ c) (b ++ d).
Proof.
  intros E [H|[H L]]; [left; rewrite !app_length; lia|].
  right. split; [rewrite !app_length; lia|]. now apply lex_app_l.
Qed.

Lemma earlier_snoc a i j : (i < j)%nat -> earlier (a ++ [i]) (a ++ [j]).
Proof. intros H. right. split; [now rewrite !app_length|]. apply lex_app_r. now constructor. Qed.

Lemma earlier_longer a k : earlier a (a ++ [k]).
Proof. left. rewrite app_length. cbn. lia. Qed.

Definition upto a b := a = b \/ earlier a b.

Lemma upto_trans a b c : upto a b -> upto b c -> upto a c.
Proof. intros [->|H] [->|H2]; unfold upto; auto. right. eapply earlier_trans; eauto. Qed.

Lemma upto_app a b c d : length c = length d -> upto c d -> upto a b -> upto (a ++ c) (b ++ d).
Proof.
  intros E H [->|H2].
  - destruct H as [->|H]; [now left|]. right. destruct H as [H|[H L]]; [lia|].
    right. split; [rewrite !app_length; lia|]. now apply lex_app_r.
  - right. now apply earlier_app.
Qed.
