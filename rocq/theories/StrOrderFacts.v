(** Facts about the order of strings. *)
From Coq Require Import NArith List Bool Lia.
From Verif Require Import Prelude PreludeFacts StrOrder Utf8 Utf8Facts.
Import ListNotations.
Local Open Scope N_scope.

Lemma str_leb_refl a : str_leb a a = true.
Proof. induction a as [|x a IH]; auto. cbn. rewrite N.eqb_refl, IH. apply orb_true_r. Qed.

Lemma str_leb_antisym a b : str_leb a b = true -> str_leb b a = true -> a = b.
Proof.
  revert b. induction a as [|x a IH]; intros [|y b]; cbn; auto; try discriminate.
  intros H1 H2. apply orb_true_iff in H1, H2. rewrite !andb_true_iff, N.ltb_lt, N.eqb_eq in *.
  assert (x = y) by lia. subst. f_equal. apply IH; [destruct H1 as [?|[? ?]]|destruct H2 as [?|[? ?]]]; auto; lia.
Qed.

Lemma str_leb_total a b : str_leb a b = true \/ str_leb b a = true.
Proof.
  revert b. induction a as [|x a IH]; intros [|y b]; cbn; auto.
  rewrite !orb_true_iff, !andb_true_iff, !N.ltb_lt, !N.eqb_eq.
  destruct (N.lt_trichotomy x y) as [?|[->|?]]; auto. destruct (IH b); auto.
Qed.

Lemma str_leb_trans a b c : str_leb a b = true -> str_leb b c = true -> str_leb a c = true.
Proof.
  revert b c. induction a as [|x a IH]; intros [|y b] [|z c]; cbn; auto; try discriminate.
  rewrite !orb_true_iff, !andb_true_iff, !N.ltb_lt, !N.eqb_eq.
  intros [H|[-> H]] [H'|[-> H']]; try (left; lia). right. split; auto. eauto.
Qed.

Lemma str_ltb_spec a b : str_ltb a b = true <-> str_leb b a = false.
Proof.
  unfold str_ltb. rewrite andb_true_iff, negb_true_iff, str_eqb_neq. split.
  - intros [H Hn]. destruct (str_leb b a) eqn:E; auto. exfalso. apply Hn. now apply str_leb_antisym.
  - intros H. destruct (str_leb_total a b) as [H'|H']; [|congruence]. split; auto.
    intros ->. rewrite str_leb_refl in H. discriminate.
Qed.

(** The order on code points is the order on UTF-8 bytes. *)
Lemma str_leb_app_same p a b : str_leb (p ++ a) (p ++ b) = str_leb a b.
Proof. induction p as [|x p IH]; auto. cbn. rewrite N.eqb_refl, IH. rewrite N.ltb_irrefl. reflexivity. Qed.

Lemma utf8_char_cons c : exists h t, utf8_char c = h :: t.
Proof. unfold utf8_char. repeat (destruct (_ <? _)); eauto. Qed.

(** Two encoded characters already differ at a byte, in the order of the characters. *)
Definition cuts (p q : list N) : Prop := exists c x y s t, p = c ++ x :: s /\ q = c ++ y :: t /\ x < y.

Lemma cuts_leb p q a b : cuts p q -> str_leb (p ++ a) (q ++ b) = true /\ str_leb (q ++ b) (p ++ a) = false.
Proof.
  intros (c & x & y & s & t & -> & -> & H). rewrite <- !app_assoc, !str_leb_app_same. cbn.
  split; [apply orb_true_iff; left; now apply N.ltb_lt|].
  apply orb_false_iff. split; [apply N.ltb_ge; lia|]. apply andb_false_iff. left. apply N.eqb_neq. lia.
Qed.

Lemma cuts0 x y s t : x < y -> cuts (x :: s) (y :: t).
Proof. intros. exists [], x, y, s, t. auto. Qed.
Lemma cutsS x s t : cuts s t -> cuts (x :: s) (x :: t).
Proof. intros (c & u & v & s' & t' & -> & -> & H). exists (x :: c), u, v, s', t'. auto. Qed.

Lemma cuts_cons x y s t : x <= y -> (x = y -> cuts s t) -> cuts (x :: s) (y :: t).
Proof.
  intros H1 H2. destruct (N.eq_dec x y) as [E|E]; [subst; apply cutsS; auto|apply cuts0; lia].
Qed.

Lemma utf8_char_order c d : scalar c = true -> scalar d = true -> c < d -> cuts (utf8_char c) (utf8_char d).
Proof.
  unfold scalar. intros Hc Hd H.
  assert (c < 0x110000) by lia. assert (d < 0x110000) by lia. clear Hc Hd. unfold utf8_char.
  destruct (N.ltb_spec c 0x80), (N.ltb_spec d 0x80); try lia.
  - apply cuts0. lia.
  - destruct (d <? 0x800); [apply cuts0; lia|]. destruct (d <? 0x10000); apply cuts0; lia.
  - destruct (N.ltb_spec c 0x800), (N.ltb_spec d 0x800); try lia.
    + apply cuts_cons; [lia|intros; apply cuts0; lia].
    + destruct (d <? 0x10000); apply cuts0; lia.
    + destruct (N.ltb_spec c 0x10000), (N.ltb_spec d 0x10000); try lia.
      * apply cuts_cons; [lia|]. intros. apply cuts_cons; [lia|]. intros. apply cuts0. lia.
      * apply cuts0. lia.
      * apply cuts_cons; [lia|]. intros. apply cuts_cons; [lia|]. intros. apply cuts_cons; [lia|]. intros. apply cuts0. lia.
Qed.

Theorem utf8_order a b : is_str a -> is_str b -> str_leb (utf8 a) (utf8 b) = str_leb a b.
Proof.
  revert b. induction a as [|x a IH]; intros [|y b] Ha Hb.
  - reflexivity.
  - reflexivity.
  - change (utf8 (x :: a)) with (utf8_char x ++ utf8 a). destruct (utf8_char_cons x) as (h & t & ->). reflexivity.
  - inversion Ha; inversion Hb; subst. change (utf8 (x :: a)) with (utf8_char x ++ utf8 a).
    change (utf8 (y :: b)) with (utf8_char y ++ utf8 b). cbn [str_leb].
    destruct (N.lt_trichotomy x y) as [H|[E|H]].
    + destruct (cuts_leb _ _ (utf8 a) (utf8 b) (utf8_char_order x y H1 H5 H)) as [-> _].
      symmetry. apply orb_true_iff. left. now apply N.ltb_lt.
    + subst. rewrite str_leb_app_same, IH by auto. rewrite N.ltb_irrefl, N.eqb_refl. reflexivity.
    + destruct (cuts_leb _ _ (utf8 b) (utf8 a) (utf8_char_order y x H5 H1 H)) as [_ ->].
      symmetry. apply orb_false_iff. split; [apply N.ltb_ge; lia|]. apply andb_false_iff. left. apply N.eqb_neq. lia.
Qed.
