(** Facts about the shared vocabulary. *)
From Coq Require Import Ascii String NArith ZArith List Bool Lia.
From Coq Require Export ZifyBool ZifyNat ZifyN.
From Verif Require Import Prelude.
Import ListNotations.
Local Open Scope N_scope.

Ltac Zify.zify_post_hook ::= Z.div_mod_to_equations.

Lemma bind_ok {A B} (x : outcome A) (f : A -> outcome B) b :
  bind x f = Ok b <-> exists a, x = Ok a /\ f a = Ok b.
Proof.
  destruct x; cbn; split; intros H.
  - eauto.
  - destruct H as (a0 & E & H). now inversion E.
  - discriminate.
  - destruct H as (a0 & E & H). discriminate.
  - discriminate.
  - destruct H as (a0 & E & H). discriminate.
Qed.

Lemma unwrap_ok {A} (o : option A) a : unwrap o = Ok a <-> o = Some a.
Proof. destruct o; cbn; split; intros H; inversion H; auto. Qed.

Lemma str_eqb_spec a b : reflect (a = b) (str_eqb a b).
Proof.
  revert b; induction a as [|x a IH]; intros [|y b]; cbn; try (constructor; congruence).
  destruct (N.eqb_spec x y); cbn; [|constructor; congruence].
  destruct (IH b); constructor; congruence.
Qed.

Lemma str_eqb_eq a b : str_eqb a b = true <-> a = b.
Proof. destruct (str_eqb_spec a b); split; congruence. Qed.

Lemma str_eqb_neq a b : str_eqb a b = false <-> a <> b.
Proof. destruct (str_eqb_spec a b); split; congruence. Qed.

Lemma str_eqb_refl a : str_eqb a a = true.
Proof. now apply str_eqb_eq. Qed.

Lemma str_eqb_sym a b : str_eqb a b = str_eqb b a.
Proof. destruct (str_eqb_spec a b), (str_eqb_spec b a); congruence. Qed.

Lemma str_eq_dec (a b : list N) : {a = b} + {a <> b}.
Proof. destruct (str_eqb_spec a b); auto. Qed.

Lemma lenN_app {A} (a b : list A) : lenN (a ++ b) = lenN a + lenN b.
Proof. unfold lenN. rewrite app_length. lia. Qed.

Lemma lenN_cons {A} (x : A) l : lenN (x :: l) = 1 + lenN l.
Proof. unfold lenN. cbn [length]. lia. Qed.

Lemma lenN_nil {A} : lenN (@nil A) = 0.
Proof. reflexivity. Qed.

Lemma lenN_map {A B} (f : A -> B) l : lenN (map f l) = lenN l.
Proof. unfold lenN. now rewrite map_length. Qed.

Lemma nthN_Some {A} (l : list A) i x : nthN l i = Some x <-> nth_error l (N.to_nat i) = Some x.
Proof.
  unfold nthN, lenN. destruct (N.ltb_spec i (N.of_nat (length l))); split; intros H0; auto; try discriminate.
  exfalso. assert (nth_error l (N.to_nat i) <> None) by congruence.
  apply nth_error_Some in H1. lia.
Qed.

Lemma nthN_nth_error {A} (l : list A) i : nthN l i = nth_error l (N.to_nat i).
Proof.
  unfold nthN, lenN. destruct (N.ltb_spec i (N.of_nat (length l))); auto.
  symmetry. apply nth_error_None. lia.
Qed.

Lemma nthN_None {A} (l : list A) i : nthN l i = None <-> lenN l <= i.
Proof. rewrite nthN_nth_error, nth_error_None. unfold lenN. lia. Qed.

Lemma nthN_lt {A} (l : list A) i x : nthN l i = Some x -> i < lenN l.
Proof. unfold nthN. destruct (N.ltb_spec i (lenN l)); congruence. Qed.

Lemma nthN_ex {A} (l : list A) i : i < lenN l -> exists x, nthN l i = Some x.
Proof.
  intros H. destruct (nthN l i) eqn:E; eauto. apply nthN_None in E. lia.
Qed.

Lemma nthN_app_l {A} (a b : list A) i : i < lenN a -> nthN (a ++ b) i = nthN a i.
Proof. rewrite !nthN_nth_error. unfold lenN. intros. apply nth_error_app1. lia. Qed.

Lemma nthN_app_r {A} (a b : list A) i : lenN a <= i -> nthN (a ++ b) i = nthN b (i - lenN a).
Proof.
  rewrite !nthN_nth_error. unfold lenN. intros. rewrite nth_error_app2 by lia.
  f_equal. lia.
Qed.

Lemma nthN_app_add {A} (a b : list A) i : nthN (a ++ b) (lenN a + i) = nthN b i.
Proof. rewrite nthN_app_r by lia. f_equal. lia. Qed.

Lemma nthN_app_len {A} (a b : list A) x : nthN (a ++ x :: b) (lenN a) = Some x.
Proof. rewrite nthN_app_r by lia. rewrite N.sub_diag. reflexivity. Qed.

Lemma nthN_0 {A} (x : A) l : nthN (x :: l) 0 = Some x.
Proof. reflexivity. Qed.

Lemma nthN_succ {A} (x : A) l i : nthN (x :: l) (1 + i) = nthN l i.
Proof. rewrite !nthN_nth_error. replace (N.to_nat (1 + i)) with (S (N.to_nat i)) by lia. reflexivity. Qed.

Lemma slice_ok {A} (l : list A) a b s :
  slice l a b = Ok s <->
  a <= b /\ b <= lenN l /\ s = firstn (N.to_nat (b - a)) (skipn (N.to_nat a) l).
Proof.
  unfold slice. destruct (N.leb_spec a b), (N.leb_spec b (lenN l)); cbn; split; intros H1;
    try discriminate; try (destruct H1; lia).
  - inversion H1. auto.
  - destruct H1 as (_ & _ & ->). reflexivity.
Qed.

Lemma slice_nofuel {A} (l : list A) a b : slice l a b <> NoFuel.
Proof. unfold slice. destruct (_ && _); discriminate. Qed.

Lemma slice_len {A} (l : list A) a b s : slice l a b = Ok s -> lenN s = b - a.
Proof.
  intros (H1 & H2 & ->)%slice_ok. unfold lenN in *. rewrite firstn_length, skipn_length. lia.
Qed.

(** A slice is exactly a middle part. *)
Lemma slice_split {A} (l : list A) a b s :
  slice l a b = Ok s <-> exists p q, l = p ++ s ++ q /\ lenN p = a /\ lenN s = b - a /\ a <= b.
Proof.
  split.
  - intros H. pose proof (slice_len _ _ _ _ H) as Hl.
    apply slice_ok in H as (H1 & H2 & E).
    exists (firstn (N.to_nat a) l), (skipn (N.to_nat (b - a)) (skipn (N.to_nat a) l)).
    rewrite E at 1. rewrite firstn_skipn, firstn_skipn. split; [reflexivity|].
    unfold lenN in *. rewrite firstn_length. split; [lia|]. split; [|lia]. exact Hl.
  - intros (p & q & -> & <- & Hs & Hab). apply slice_ok.
    rewrite !lenN_app. split; [lia|]. split; [lia|].
    rewrite <- Hs. unfold lenN. rewrite !Nnat.Nat2N.id.
    rewrite skipn_app, skipn_all, Nat.sub_diag. cbn [skipn app].
    rewrite firstn_app, Nat.sub_diag, firstn_all. cbn [firstn]. now rewrite app_nil_r.
Qed.

Lemma slice_mid {A} (p s q : list A) a b :
  a = lenN p -> b = lenN p + lenN s -> slice (p ++ s ++ q) a b = Ok s.
Proof. intros -> ->. apply slice_split. exists p, q. repeat split; lia. Qed.

Lemma slice_shift {A} (p l : list A) a b :
  slice (p ++ l) (lenN p + a) (lenN p + b) = slice l a b.
Proof.
  unfold slice. rewrite lenN_app.
  replace (lenN p + a <=? lenN p + b) with (a <=? b) by lia.
  replace (lenN p + b <=? lenN p + lenN l) with (b <=? lenN l) by lia.
  destruct ((a <=? b) && (b <=? lenN l)); auto.
  replace (lenN p + b - (lenN p + a)) with (b - a) by lia.
  replace (skipn (N.to_nat (lenN p + a)) (p ++ l)) with (skipn (N.to_nat a) l); auto.
  unfold lenN. rewrite skipn_app.
  rewrite (skipn_all2 p) by lia. cbn [app]. f_equal. lia.
Qed.

Lemma at_ok {A} (l : list A) i x : at_ l i = Ok x <-> nthN l i = Some x.
Proof. apply unwrap_ok. Qed.

Lemma at_nofuel {A} (l : list A) i : at_ l i <> NoFuel.
Proof. unfold at_, unwrap. destruct (nthN l i); discriminate. Qed.

Lemma at_shift {A} (p l : list A) i : at_ (p ++ l) (lenN p + i) = at_ l i.
Proof. unfold at_. now rewrite nthN_app_add. Qed.

Lemma subU_ok a b c : subU a b = Ok c <-> b <= a /\ c = a - b.
Proof.
  unfold subU. destruct (N.leb_spec b a); split; intros H0.
  - inversion H0. auto.
  - destruct H0 as (_ & ->). reflexivity.
  - discriminate.
  - lia.
Qed.

Lemma update_nat_length {A} (l : list A) i f : length (update_nat l i f) = length l.
Proof. revert i; induction l as [|x l IH]; intros [|i]; cbn; auto. Qed.

Lemma update_nat_nth {A} (l : list A) i f j :
  nth_error (update_nat l i f) j =
  if Nat.eqb i j then option_map f (nth_error l j) else nth_error l j.
Proof.
  revert i j; induction l as [|x l IH]; intros [|i] [|j]; cbn; auto; now destruct (Nat.eqb i j).


Qed.

Lemma updateN_len {A} (l : list A) i f : lenN (updateN l i f) = lenN l.
Proof.
  unfold updateN. destruct (i <? lenN l); auto.
  unfold lenN. now rewrite update_nat_length.
Qed.

Lemma updateN_nth {A} (l : list A) i f j :
  nthN (updateN l i f) j = if i =? j then option_map f (nthN l j) else nthN l j.
Proof.
  unfold updateN. destruct (N.ltb_spec i (lenN l)).
  - rewrite !nthN_nth_error, update_nat_nth.
    destruct (Nat.eqb_spec (N.to_nat i) (N.to_nat j)), (N.eqb_spec i j); auto; lia.
  - destruct (N.eqb_spec i j); auto. subst.
    destruct (nthN l j) eqn:E; auto. apply nthN_lt in E. lia.
Qed.

Section MapFacts.
  Context {K V : Type} (eqb : K -> K -> bool).
  Hypothesis eqb_spec : forall a b, reflect (a = b) (eqb a b).

  Lemma mget_mset (m : list (K * V)) k v k' :
    mget eqb (mset eqb m k v) k' = if eqb k k' then Some v else mget eqb m k'.
  Proof.
    induction m as [|[k0 v0] m IH]; cbn; auto.
    destruct (eqb_spec k0 k); cbn.
    - subst. destruct (eqb_spec k k'); auto.
    - destruct (eqb_spec k0 k').
      + subst. destruct (eqb_spec k k'); congruence.
      + apply IH.
  Qed.

  Lemma mget_mset_same (m : list (K * V)) k v : mget eqb (mset eqb m k v) k = Some v.
  Proof. rewrite mget_mset. destruct (eqb_spec k k); congruence. Qed.

  Lemma mget_mset_other (m : list (K * V)) k v k' :
    k <> k' -> mget eqb (mset eqb m k v) k' = mget eqb m k'.
  Proof. rewrite mget_mset. destruct (eqb_spec k k'); congruence. Qed.

  Lemma mget_In (m : list (K * V)) k v : mget eqb m k = Some v -> In (k, v) m.
  Proof.
    induction m as [|[k0 v0] m IH]; cbn; [discriminate|].
    destruct (eqb_spec k0 k); intros H.
    - inversion H; subst; auto.
    - auto.
  Qed.

  Lemma mget_None (m : list (K * V)) k : mget eqb m k = None <-> ~ In k (keys m).
  Proof.
    induction m as [|[k0 v0] m IH]; cbn; [tauto|].
    destruct (eqb_spec k0 k); split; intros H; try discriminate; try tauto.
  Qed.

  Lemma mget_keys (m : list (K * V)) k v : mget eqb m k = Some v -> In k (keys m).
  Proof. intros H%mget_In. apply in_map_iff. exists (k, v). auto. Qed.

  Lemma In_mget (m : list (K * V)) k v :
    NoDup (keys m) -> In (k, v) m -> mget eqb m k = Some v.
  Proof.
    induction m as [|[k0 v0] m IH]; cbn; [tauto|].
    intros H [E|Hi]; inversion H; subst.
    - inversion E; subst. destruct (eqb_spec k k); congruence.
    - destruct (eqb_spec k0 k); subst; auto.
      exfalso. apply H2. apply in_map_iff. exists (k, v). auto.
  Qed.

  Lemma mset_keys (m : list (K * V)) k v :
    keys (mset eqb m k v) = if mhas eqb m k then keys m else keys m ++ [k].
  Proof.
    unfold mhas. induction m as [|[k0 v0] m IH]; cbn; auto.
    destruct (eqb_spec k0 k); cbn; auto.
    unfold keys in *. rewrite IH. now destruct (mget eqb m k).
  Qed.

  Lemma mset_NoDup (m : list (K * V)) k v : NoDup (keys m) -> NoDup (keys (mset eqb m k v)).
  Proof.
    intros H. rewrite mset_keys. unfold mhas. destruct (mget eqb m k) eqn:E; auto.
    apply mget_None in E.
    clear v. revert H E. generalize (keys m). intros l H E.
    induction l as [|x l IH]; cbn; [constructor; auto; constructor|].
    inversion H; subst. constructor.
    - rewrite in_app_iff. cbn. intros [?|[?|[]]]; [auto|]. subst. apply E. now left.
    - apply IH; auto. intros ?. apply E. now right.
  Qed.

  Lemma mset_fresh (m : list (K * V)) k v :
    mget eqb m k = None -> mset eqb m k v = m ++ [(k, v)].
  Proof.
    induction m as [|[k0 v0] m IH]; cbn; auto.
    destruct (eqb_spec k0 k); [discriminate|]. intros H. now rewrite IH.
  Qed.

  Lemma mset_vals_In (m : list (K * V)) k v k' v' :
    In (k', v') (mset eqb m k v) -> (k' = k /\ v' = v) \/ In (k', v') m.
  Proof.
    induction m as [|[k0 v0] m IH]; cbn.
    - intros [E|[]]. inversion E. auto.
    - destruct (eqb_spec k0 k); cbn; intros [E|H].
      + inversion E; subst. auto.
      + auto.
      + inversion E; subst. auto.
      + destruct (IH H); auto.
  Qed.
End MapFacts.

Lemma nget_nset {V} (m : list (N * V)) k v k' :
  nget (nset m k v) k' = if k =? k' then Some v else nget m k'.
Proof. apply mget_mset. apply N.eqb_spec. Qed.

Lemma sget_sset {V} (m : list (list N * V)) k v k' :
  sget (sset m k v) k' = if str_eqb k k' then Some v else sget m k'.
Proof. apply mget_mset. apply str_eqb_spec. Qed.

Lemma all_below_spec n p : all_below n p = true -> forall x, x < N.of_nat n -> p x = true.
Proof.
  induction n as [|n IH]; intros H x Hx; [lia|].
  cbn in H. apply andb_true_iff in H as [H1 H2].
  destruct (N.eq_dec x (N.of_nat n)); [now subst|]. apply IH; auto. lia.
Qed.

(** Finite check of a statement about every byte. *)
Lemma all_bytes p : all_below 256 p = true -> forall x, x < 256 -> p x = true.
Proof. intros H x Hx. apply (all_below_spec _ _ H). exact Hx. Qed.

Lemma bytes_app a b : bytes (a ++ b) <-> bytes a /\ bytes b.
Proof. apply Forall_app. Qed.
