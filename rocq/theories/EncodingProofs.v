From Coq Require Import Ascii String NArith ZArith List Bool Lia.
From Verif Require Import Prelude PreludeFacts Utf8 Utf8Facts EncodingModel EncodingSpec.
Import ListNotations.
Local Open Scope N_scope.

(** [put_path_int] without bit operations. *)
Lemma put_path_int_eq n :
  put_path_int n = if n <? 128 then [n] else [252 + ((n - 128) / 256) mod 4; (n - 128) mod 256].
Proof.
  unfold put_path_int. destruct (N.leb_spec 128 n), (N.ltb_spec n 128); try lia; auto.
  cbv zeta. set (x := n - 128).
  rewrite N.shiftr_div_pow2. change 0x7f with (N.ones 7). change 0xFF with (N.ones 8).
  rewrite !N.land_ones. change (2 ^ 8) with 256. change (2 ^ 7) with 128.
  f_equal.
  assert (F : forall y, y < 128 -> N.lor (N.lor y 128) 124 = 252 + y mod 4).
  { intros y Hy. apply N.eqb_eq.
    refine (all_below_spec 128 (fun y => N.lor (N.lor y 128) 124 =? 252 + y mod 4) _ y Hy).
    vm_compute. reflexivity. }
  rewrite F by lia. f_equal. lia.
Qed.

Lemma get_path_int_two b0 b1 : b0 < 256 -> get_path_int [b0; b1] = 128 + b1.
Proof.
  intros H. unfold get_path_int.
  assert (F : N.land b0 (N.shiftl 127 8) = 0).
  { apply N.eqb_eq.
    refine (all_bytes (fun y => N.land y (N.shiftl 127 8) =? 0) _ b0 H).
    vm_compute. reflexivity. }
  rewrite F. lia.
Qed.

Lemma path_int_roundtrip n : get_path_int (put_path_int n) = n <-> n < 384.
Proof.
  rewrite put_path_int_eq. destruct (N.ltb_spec n 128).
  - cbn. lia.
  - rewrite get_path_int_two by lia. lia.
Qed.

(** What is read back in general. *)
Lemma path_int_readback n :
  get_path_int (put_path_int n) = if n <? 128 then n else 128 + (n - 128) mod 256.
Proof.
  rewrite put_path_int_eq. destruct (N.ltb_spec n 128); auto.
  rewrite get_path_int_two by lia. reflexivity.
Qed.

Lemma mod1024_digits x : x mod 1024 = ((x / 256) mod 4) * 256 + x mod 256.
Proof. lia. Qed.

Lemma mod1024_shift n m : 128 <= n -> 128 <= m ->
  ((n - 128) mod 1024 = (m - 128) mod 1024 <-> n mod 1024 = m mod 1024).
Proof. intros. lia. Qed.

Lemma put_path_int_collide n m :
  put_path_int n = put_path_int m <->
  n = m \/ (128 <= n /\ 128 <= m /\ n mod 1024 = m mod 1024).
Proof.
  rewrite !put_path_int_eq.
  destruct (N.ltb_spec n 128), (N.ltb_spec m 128); split; intros E; try discriminate; try (now inversion E; auto).
  - destruct E as [->|E]; [auto|lia].
  - destruct E as [->|E]; lia.
  - destruct E as [->|E]; lia.
  - right. split; [auto|]. split; [auto|]. apply mod1024_shift; auto.
    rewrite !mod1024_digits. revert E.
    generalize (((n - 128) / 256) mod 4), (((m - 128) / 256) mod 4), ((n - 128) mod 256), ((m - 128) mod 256).
    intros a b c d E. assert (E1 : 252 + a = 252 + b) by congruence. assert (E2 : c = d) by congruence. lia.
  - assert (H1 : (n - 128) mod 1024 = (m - 128) mod 1024).
    { destruct E as [->|E]; [auto|]. now apply mod1024_shift. }
    rewrite !mod1024_digits in H1.
    f_equal; [|f_equal]; lia.
Qed.

Lemma put_path_int_shape n :
  (n < 128 /\ put_path_int n = [n]) \/
  (128 <= n /\ exists b1 b2, put_path_int n = [b1; b2] /\ 0xFC <= b1 <= 0xFF /\ b2 < 256).
Proof.
  rewrite put_path_int_eq. destruct (N.ltb_spec n 128); [left; auto|right].
  split; auto. do 2 eexists. split; [reflexivity|]. lia.
Qed.

Lemma get_int_be bs : bytes bs ->
  get_int bs = if (lenN bs =? 1) || (lenN bs =? 2) || (lenN bs =? 4) then be_value bs else 0.
Proof.
  intros _.
  destruct bs as [|a [|b [|c [|d [|e bs]]]]]; unfold get_int, get_int2, be_value; cbn [fold_left];
    try reflexivity; try (rewrite ?N.shiftl_mul_pow2; change (2 ^ 8) with 256; change (2 ^ 16) with 65536; cbn; lia).
  replace (_ || _ || _) with false; auto. unfold lenN. cbn [length]. lia.
Qed.

Lemma loop3 p f a b c d n :
  put_int_loop p (S f) [a; b; c; d] 3 n =
  if n =? 0 then Ok [a; b; c; d] else put_int_loop p f [a; b; c; n mod 256] 2 (n / 256).
Proof. cbn [put_int_loop]. destruct (n =? 0); [reflexivity|]. destruct p; reflexivity. Qed.

Lemma loop2 p f a b c d n :
  put_int_loop p (S f) [a; b; c; d] 2 n =
  if n =? 0 then Ok [a; b; c; d] else put_int_loop p f [a; b; n mod 256; d] 1 (n / 256).
Proof. cbn [put_int_loop]. destruct (n =? 0); [reflexivity|]. destruct p; reflexivity. Qed.

Lemma loop1 p f a b c d n :
  put_int_loop p (S f) [a; b; c; d] 1 n =
  if n =? 0 then Ok [a; b; c; d] else put_int_loop p f [a; n mod 256; c; d] 0 (n / 256).
Proof. cbn [put_int_loop]. destruct (n =? 0); [reflexivity|]. destruct p; reflexivity. Qed.

Lemma loop0_debug f a b c d n :
  put_int_loop Debug (S f) [a; b; c; d] 0 n = if n =? 0 then Ok [a; b; c; d] else Panic.
Proof. cbn [put_int_loop]. destruct (n =? 0); reflexivity. Qed.

Lemma loop0_release f a b c d n :
  put_int_loop Release (S f) [a; b; c; d] 0 n =
  if n =? 0 then Ok [a; b; c; d]
  else put_int_loop Release f [n mod 256; b; c; d] (2 ^ 64 - 1) (n / 256).
Proof. cbn [put_int_loop]. destruct (n =? 0); reflexivity. Qed.

Lemma loopX_release f a b c d n :
  put_int_loop Release (S f) [a; b; c; d] (2 ^ 64 - 1) n =
  if n =? 0 then Ok [a; b; c; d] else Panic.
Proof. cbn [put_int_loop]. destruct (n =? 0); reflexivity. Qed.

Lemma Ok4 (a b c d a' b' c' d' : N) :
  a = a' -> b = b' -> c = c' -> d = d' -> Ok [a; b; c; d] = Ok [a'; b'; c'; d'].
Proof. congruence. Qed.

Local Ltac zcase :=
  match goal with |- context [?x =? 0] => destruct (N.eqb_spec x 0) end.

Lemma put_int_small p n : n < 2 ^ 24 ->
  put_int p n = Ok [0; n / 65536; (n / 256) mod 256; n mod 256].
Proof.
  intros H. change (2 ^ 24) with 16777216 in H. unfold put_int.
  rewrite loop3. zcase; [apply Ok4; lia|].
  rewrite loop2. zcase; [apply Ok4; lia|].
  rewrite loop1. zcase; [apply Ok4; lia|].
  destruct p; [rewrite loop0_debug|rewrite loop0_release]; (zcase; [apply Ok4; lia|lia]).
Qed.

Lemma put_int_debug_panics n : usize n -> 2 ^ 24 <= n -> put_int Debug n = Panic.
Proof.
  unfold usize. intros Hu H. change (2 ^ 24) with 16777216 in H. unfold put_int.
  rewrite loop3. zcase; [lia|]. rewrite loop2. zcase; [lia|]. rewrite loop1. zcase; [lia|].
  rewrite loop0_debug. zcase; [lia|]. reflexivity.
Qed.

Lemma put_int_release_mid n : 2 ^ 24 <= n -> n < 2 ^ 32 ->
  put_int Release n = Ok [n / 16777216; (n / 65536) mod 256; (n / 256) mod 256; n mod 256].
Proof.
  intros H H2. change (2 ^ 24) with 16777216 in H. change (2 ^ 32) with 4294967296 in H2. unfold put_int.
  rewrite loop3. zcase; [lia|]. rewrite loop2. zcase; [lia|]. rewrite loop1. zcase; [lia|].
  rewrite loop0_release. zcase; [lia|]. rewrite loopX_release. zcase; [apply Ok4; lia|lia].
Qed.

Lemma put_int_release_panics n : usize n -> 2 ^ 32 <= n -> put_int Release n = Panic.
Proof.
  unfold usize. intros Hu H. change (2 ^ 32) with 4294967296 in H. unfold put_int.
  rewrite loop3. zcase; [lia|]. rewrite loop2. zcase; [lia|]. rewrite loop1. zcase; [lia|].
  rewrite loop0_release. zcase; [lia|]. rewrite loopX_release. zcase; [lia|]. reflexivity.
Qed.

Lemma put_int_debug_spec n : usize n ->
  (n < 2 ^ 24 -> exists bs, put_int Debug n = Ok bs /\ lenN bs = 4 /\ bytes bs /\ be_value bs = n) /\
  (2 ^ 24 <= n -> put_int Debug n = Panic).
Proof.
  intros Hu. split; intros H.
  - rewrite put_int_small by auto. eexists. split; [reflexivity|].
    split; [reflexivity|]. change (2 ^ 24) with 16777216 in H. split.
    + repeat constructor; unfold is_byte; lia.
    + unfold be_value. cbn [fold_left]. lia.
  - now apply put_int_debug_panics.
Qed.

Lemma put_int_release_spec n : usize n ->
  (n < 2 ^ 32 -> exists bs, put_int Release n = Ok bs /\ lenN bs = 4 /\ bytes bs /\ be_value bs = n) /\
  (2 ^ 32 <= n -> put_int Release n = Panic).
Proof.
  intros Hu. split; intros H.
  - destruct (N.ltb_spec n (2 ^ 24)).
    + rewrite put_int_small by auto. eexists. split; [reflexivity|].
      split; [reflexivity|]. change (2 ^ 24) with 16777216 in H0. split.
      * repeat constructor; unfold is_byte; lia.
      * unfold be_value. cbn [fold_left]. lia.
    + rewrite put_int_release_mid by auto. eexists. split; [reflexivity|].
      split; [reflexivity|]. change (2 ^ 24) with 16777216 in *. change (2 ^ 32) with 4294967296 in H. split.
      * repeat constructor; unfold is_byte; lia.
      * unfold be_value. cbn [fold_left]. lia.
  - now apply put_int_release_panics.
Qed.

Lemma get_put_int p n bs : usize n -> put_int p n = Ok bs -> get_int bs = n.
Proof.
  intros Hu E.
  assert (exists bs, put_int p n = Ok bs /\ lenN bs = 4 /\ bytes bs /\ be_value bs = n) as (bs' & E' & L & B & V).
  { destruct p.
    - destruct (put_int_debug_spec n Hu) as [H1 H2].
      destruct (N.ltb_spec n (2 ^ 24)); [auto|]. rewrite H2 in E by auto. discriminate.
    - destruct (put_int_release_spec n Hu) as [H1 H2].
      destruct (N.ltb_spec n (2 ^ 32)); [auto|]. rewrite H2 in E by auto. discriminate. }
  rewrite E in E'. inversion E'. subst bs'.
  rewrite get_int_be by auto. now rewrite L.
Qed.

Lemma xor_invol c : N.lxor (N.lxor c 0x5A) 0x5A = c.
Proof. now rewrite N.lxor_assoc, N.lxor_nilpotent, N.lxor_0_r. Qed.

Lemma map_xor_invol l : map (fun c => N.lxor c 0x5A) (map (fun c => N.lxor c 0x5A) l) = l.
Proof. rewrite map_map. erewrite map_ext; [apply map_id|]. intros. apply xor_invol. Qed.

Lemma decrypt_encrypt s : is_str s -> fm_string_decrypt (fm_string_encrypt s) = s.
Proof.
  intros H. unfold fm_string_decrypt, fm_string_encrypt.
  now rewrite map_xor_invol, from_utf8_utf8.
Qed.

Lemma encrypt_len s : lenN (fm_string_encrypt s) = lenN (utf8 s).
Proof. unfold fm_string_encrypt. apply lenN_map. Qed.

Lemma xor_byte b : b < 256 -> N.lxor b 0x5A < 256.
Proof.
  intros H. apply N.ltb_lt.
  refine (all_bytes (fun y => N.lxor y 0x5A <? 256) _ b H). vm_compute. reflexivity.
Qed.

Lemma encrypt_bytes s : is_str s -> bytes (fm_string_encrypt s).
Proof.
  intros H. apply utf8_bytes in H. unfold fm_string_encrypt, bytes, is_byte in *.
  induction H; cbn; constructor; auto. now apply xor_byte.
Qed.

Lemma encrypt_inj a b : is_str a -> is_str b -> fm_string_encrypt a = fm_string_encrypt b -> a = b.
Proof.
  intros Ha Hb E. apply decrypt_encrypt in Ha. apply decrypt_encrypt in Hb. congruence.
Qed.

(** Every byte string either is the encryption of exactly one string, which decryption returns, or
    decrypts to the message. *)
Lemma decrypt_total bs :
  (exists s, is_str s /\ bs = fm_string_encrypt s /\ fm_string_decrypt bs = s) \/
  ((forall s, is_str s -> bs <> fm_string_encrypt s) /\ fm_string_decrypt bs = lit "value not utf-8.").
Proof.
  unfold fm_string_decrypt. destruct (from_utf8 _) as [s|] eqn:E.
  - left. exists s. apply utf8_from_utf8 in E as [E1 E2]. split; auto. split; auto.
    unfold fm_string_encrypt. rewrite E1. now rewrite map_xor_invol.
  - right. split; auto. intros s Hs ->. unfold fm_string_encrypt in E.
    rewrite map_xor_invol, from_utf8_utf8 in E by auto. discriminate.
Qed.
