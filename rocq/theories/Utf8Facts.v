(** UTF-8 encoding and decoding are mutually inverse. *)
From Coq Require Import NArith ZArith List Bool Lia.
From Verif Require Import Prelude PreludeFacts Utf8.
Import ListNotations.
Local Open Scope N_scope.

Lemma from_utf8_char c rest :
  scalar c = true -> from_utf8 (utf8_char c ++ rest) = ocons c (from_utf8 rest).
Proof.
  unfold scalar, utf8_char. intros Hs.
  destruct (N.ltb_spec c 0x80).
  { cbn [app from_utf8]. now rewrite (proj2 (N.ltb_lt c 0x80)) by lia. }
  destruct (N.ltb_spec c 0x800).
  { cbn [app from_utf8].
    rewrite (proj2 (N.ltb_ge _ 0x80)) by lia.
    replace (in_range _ _ _) with true by (unfold in_range; lia).
    replace (cont _) with true by (unfold cont, in_range; lia).
    f_equal. lia. }
  destruct (N.ltb_spec c 0x10000).
  { cbn [app from_utf8].
    rewrite (proj2 (N.ltb_ge _ 0x80)) by lia.
    replace (in_range 0xC2 0xDF _) with false by (unfold in_range; lia).
    replace (in_range 0xE0 0xEF _) with true by (unfold in_range; lia).
    replace (cont (128 + c mod 64)) with true by (unfold cont, in_range; lia).
    replace (second3 _ _) with true.
    2:{ unfold second3, cont, in_range. symmetry.
        destruct (N.eqb_spec (0xE0 + c / 4096) 0xE0); [lia|].
        destruct (N.eqb_spec (0xE0 + c / 4096) 0xED); lia. }
    cbn [andb]. f_equal. lia. }
  cbn [app from_utf8].
  rewrite (proj2 (N.ltb_ge _ 0x80)) by lia.
  replace (in_range 0xC2 0xDF _) with false by (unfold in_range; lia).
  replace (in_range 0xE0 0xEF _) with false by (unfold in_range; lia).
  replace (in_range 0xF0 0xF4 _) with true by (unfold in_range; lia).
  replace (cont (128 + c mod 64)) with true by (unfold cont, in_range; lia).
  replace (cont (128 + (c / 64) mod 64)) with true by (unfold cont, in_range; lia).
  replace (second4 _ _) with true.
  2:{ unfold second4, cont, in_range. symmetry.
      destruct (N.eqb_spec (0xF0 + c / 262144) 0xF0); [lia|].
      destruct (N.eqb_spec (0xF0 + c / 262144) 0xF4); lia. }
  cbn [andb]. f_equal. lia.
Qed.

Lemma from_utf8_utf8 s : is_str s -> from_utf8 (utf8 s) = Some s.
Proof.
  induction 1 as [|c s Hc Hs IH]; cbn [utf8 flat_map]; auto.
  fold (utf8 s). now rewrite from_utf8_char, IH.
Qed.

Lemma utf8_app a b : utf8 (a ++ b) = utf8 a ++ utf8 b.
Proof. unfold utf8. apply flat_map_app. Qed.

Lemma utf8_char_bytes c : scalar c = true -> bytes (utf8_char c).
Proof.
  unfold scalar, utf8_char, bytes, is_byte. intros.
  destruct (c <? 128) eqn:?; [|destruct (c <? 0x800) eqn:?; [|destruct (c <? 0x10000) eqn:?]];
    repeat constructor; lia.
Qed.

Lemma utf8_bytes s : is_str s -> bytes (utf8 s).
Proof.
  induction 1; cbn [utf8 flat_map]; [constructor|].
  apply bytes_app. split; auto. now apply utf8_char_bytes.
Qed.

Lemma ocons_some {A} (x : A) o l : ocons x o = Some l -> exists l', o = Some l' /\ l = x :: l'.
Proof. destruct o; cbn; intros H; inversion H; eauto. Qed.

(** Decoding accepts only encodings: the decoder is the exact partial inverse. *)
Lemma utf8_from_utf8 l : forall s, from_utf8 l = Some s -> utf8 s = l /\ is_str s.
Proof.
  assert (Hn : forall n l, (length l <= n)%nat ->
            forall s, from_utf8 l = Some s -> utf8 s = l /\ is_str s).
  2:{ eauto. }
  clear l. intros n. induction n as [|n IH]; intros l Hl s.
  { destruct l; [|cbn in Hl; lia]. cbn. intros [= <-]. split; [reflexivity|constructor]. }
  destruct l as [|b0 l1]; cbn [from_utf8].
  { intros [= <-]. split; [reflexivity|constructor]. }
  cbn [length] in Hl.
  destruct (N.ltb_spec b0 0x80).
  { intros (s' & E & ->)%ocons_some. apply IH in E as [E1 E2]; [|lia].
    cbn [utf8 flat_map]. fold (utf8 s'). rewrite E1. unfold utf8_char.
    rewrite (proj2 (N.ltb_lt b0 0x80)) by lia. split; [reflexivity|].
    constructor; auto. unfold scalar. lia. }
  destruct (in_range 0xC2 0xDF b0) eqn:R1.
  { destruct l1 as [|b1 l2]; [discriminate|].
    destruct (cont b1) eqn:C1; [|discriminate].
    intros (s' & E & ->)%ocons_some. cbn [length] in Hl.
    apply IH in E as [E1 E2]; [|lia].
    unfold in_range, cont, in_range in *.
    cbn [utf8 flat_map]. fold (utf8 s'). rewrite E1. unfold utf8_char.
    rewrite (proj2 (N.ltb_ge _ 0x80)) by lia.
    rewrite (proj2 (N.ltb_lt _ 0x800)) by lia.
    split; [cbn [app]; repeat (f_equal; try lia)|].
    constructor; auto. unfold scalar. lia. }
  destruct (in_range 0xE0 0xEF b0) eqn:R2.
  { destruct l1 as [|b1 [|b2 l3]]; try discriminate.
    destruct (second3 b0 b1 && cont b2) eqn:C; [|discriminate].
    apply andb_true_iff in C as [C1 C2].
    intros (s' & E & ->)%ocons_some. cbn [length] in Hl.
    apply IH in E as [E1 E2]; [|lia].
    assert (128 <= b1 <= 191 /\ (b0 = 0xE0 -> 0xA0 <= b1) /\ (b0 = 0xED -> b1 <= 0x9F)) as (B1 & B2 & B3).
    { unfold second3, cont, in_range in C1.
      destruct (N.eqb_spec b0 0xE0); [lia|]. destruct (N.eqb_spec b0 0xED); lia. }
    unfold in_range, cont, in_range in *.
    cbn [utf8 flat_map]. fold (utf8 s'). rewrite E1. unfold utf8_char.
    rewrite (proj2 (N.ltb_ge _ 0x80)) by lia.
    rewrite (proj2 (N.ltb_ge _ 0x800)) by lia.
    rewrite (proj2 (N.ltb_lt _ 0x10000)) by lia.
    split; [cbn [app]; repeat (f_equal; try lia)|].
    constructor; auto. unfold scalar. lia. }
  destruct (in_range 0xF0 0xF4 b0) eqn:R3; [|discriminate].
  destruct l1 as [|b1 [|b2 [|b3 l4]]]; try discriminate.
  destruct (second4 b0 b1 && cont b2 && cont b3) eqn:C; [|discriminate].
  apply andb_true_iff in C as [C C3]. apply andb_true_iff in C as [C1 C2].
  intros (s' & E & ->)%ocons_some. cbn [length] in Hl.
  apply IH in E as [E1 E2]; [|lia].
  assert (128 <= b1 <= 191 /\ (b0 = 0xF0 -> 0x90 <= b1) /\ (b0 = 0xF4 -> b1 <= 0x8F)) as (B1 & B2 & B3).
  { unfold second4, cont, in_range in C1.
    destruct (N.eqb_spec b0 0xF0); [lia|]. destruct (N.eqb_spec b0 0xF4); lia. }
  unfold in_range, cont, in_range in *.
  cbn [utf8 flat_map]. fold (utf8 s'). rewrite E1. unfold utf8_char.
  rewrite (proj2 (N.ltb_ge _ 0x80)) by lia.
  rewrite (proj2 (N.ltb_ge _ 0x800)) by lia.
  rewrite (proj2 (N.ltb_ge _ 0x10000)) by lia.
  split; [cbn [app]; repeat (f_equal; try lia)|].
  constructor; auto. unfold scalar. lia.
Qed.

Lemma utf8_inj a b : is_str a -> is_str b -> utf8 a = utf8 b -> a = b.
Proof.
  intros Ha Hb E. apply from_utf8_utf8 in Ha. apply from_utf8_utf8 in Hb. congruence.
Qed.

Lemma utf8_ascii s : Forall (fun c => c < 128) s -> utf8 s = s.
Proof.
  induction 1; cbn [utf8 flat_map]; auto. fold (utf8 l). rewrite IHForall.
  unfold utf8_char. now rewrite (proj2 (N.ltb_lt x 128)) by lia.
Qed.

Lemma from_utf8_ascii s : Forall (fun c => c < 128) s -> from_utf8 s = Some s.
Proof.
  induction 1; cbn [from_utf8]; auto. rewrite IHForall.
  now rewrite (proj2 (N.ltb_lt x 128)) by lia.
Qed.
