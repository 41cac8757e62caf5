(** C01-C05: integer and text encodings. *)
From Coq Require Import Ascii String NArith List Bool Lia.
From Verif Require Import Prelude PreludeFacts Utf8 Utf8Facts EncodingModel EncodingSpec EncodingProofs.
Import ListNotations.
Local Open Scope N_scope.

(** C01 *)
Theorem path_int_roundtrip_iff : forall n, u32 n ->
  (get_path_int (put_path_int n) = n <-> n < 384).
Proof. intros n _. exact (path_int_roundtrip n). Qed.
Print Assumptions path_int_roundtrip_iff.
Example path_int_roundtrip_iff_ex :
  get_path_int (put_path_int 383) = 383 /\ get_path_int (put_path_int 384) = 128.
Proof. vm_compute. auto. Qed.

(** C01: what comes back for every number. *)
Theorem path_int_readback_exact : forall n, u32 n ->
  get_path_int (put_path_int n) = if n <? 128 then n else 128 + (n - 128) mod 256.
Proof. intros n _. exact (path_int_readback n). Qed.
Print Assumptions path_int_readback_exact.
Example path_int_readback_exact_ex : u32 70000 /\ get_path_int (put_path_int 70000) = 128 + 240.
Proof. vm_compute. auto. Qed.

(** C01: the naive expectation is false. *)
Theorem path_int_roundtrip_refuted : exists n, u32 n /\ get_path_int (put_path_int n) <> n.
Proof. exists 384. vm_compute. split; [reflexivity|discriminate]. Qed.
Print Assumptions path_int_roundtrip_refuted.

(** C02 *)
Theorem put_path_int_shape_all : forall n, u32 n ->
  (n < 128 /\ put_path_int n = [n]) \/
  (128 <= n /\ exists b1 b2, put_path_int n = [b1; b2] /\ 0xFC <= b1 <= 0xFF /\ b2 < 256).
Proof. intros n _. exact (put_path_int_shape n). Qed.
Print Assumptions put_path_int_shape_all.
Example put_path_int_shape_all_ex : put_path_int 127 = [127] /\ put_path_int 1151 = [255; 255].
Proof. vm_compute. auto. Qed.

Theorem put_path_int_collision_iff : forall n m, u32 n -> u32 m ->
  (put_path_int n = put_path_int m <->
   n = m \/ (128 <= n /\ 128 <= m /\ n mod 1024 = m mod 1024)).
Proof. intros n m _ _. exact (put_path_int_collide n m). Qed.
Print Assumptions put_path_int_collision_iff.
Example put_path_int_collision_iff_ex : put_path_int 128 = put_path_int 1152 /\ put_path_int 128 <> put_path_int 1151.
Proof. vm_compute. split; [reflexivity|discriminate]. Qed.

(** C03 *)
Theorem put_int_debug_range : forall n, usize n ->
  (n < 2 ^ 24 -> exists bs, put_int Debug n = Ok bs /\ lenN bs = 4 /\ bytes bs /\ be_value bs = n) /\
  (2 ^ 24 <= n -> put_int Debug n = Panic).
Proof. exact put_int_debug_spec. Qed.
Print Assumptions put_int_debug_range.
Example put_int_debug_range_ex :
  put_int Debug 16777215 = Ok [0; 255; 255; 255] /\ put_int Debug 16777216 = Panic.
Proof. vm_compute. auto. Qed.

Theorem put_int_release_range : forall n, usize n ->
  (n < 2 ^ 32 -> exists bs, put_int Release n = Ok bs /\ lenN bs = 4 /\ bytes bs /\ be_value bs = n) /\
  (2 ^ 32 <= n -> put_int Release n = Panic).
Proof. exact put_int_release_spec. Qed.
Print Assumptions put_int_release_range.
Example put_int_release_range_ex :
  put_int Release 4294967295 = Ok [255; 255; 255; 255] /\ put_int Release 4294967296 = Panic.
Proof. vm_compute. auto. Qed.

Theorem get_int_put_int : forall p n bs, usize n -> put_int p n = Ok bs -> get_int bs = n.
Proof. exact get_put_int. Qed.
Print Assumptions get_int_put_int.
Example get_int_put_int_ex : put_int Debug 67 = Ok [0; 0; 0; 67] /\ get_int [0; 0; 0; 67] = 67.
Proof. vm_compute. auto. Qed.

(** C04 *)
Theorem get_int_big_endian : forall bs, bytes bs ->
  get_int bs = if (lenN bs =? 1) || (lenN bs =? 2) || (lenN bs =? 4) then be_value bs else 0.
Proof. exact get_int_be. Qed.
Print Assumptions get_int_big_endian.
Example get_int_big_endian_ex : get_int [1; 2; 3; 4] = 16909060 /\ get_int [1; 2; 3] = 0.
Proof. vm_compute. auto. Qed.

(** C05 *)
Theorem text_decrypt_encrypt : forall s, is_str s -> fm_string_decrypt (fm_string_encrypt s) = s.
Proof. exact decrypt_encrypt. Qed.
Print Assumptions text_decrypt_encrypt.
Example text_decrypt_encrypt_ex :
  is_str [0x24; 0xE9; 0x20AC; 0x1F600] /\
  fm_string_encrypt [0x24; 0xE9; 0x20AC; 0x1F600] =
    [126; 153; 243; 184; 216; 246; 170; 197; 194; 218].
Proof. split; [repeat constructor|vm_compute; reflexivity]. Qed.

Theorem text_encrypt_shape : forall s, is_str s ->
  bytes (fm_string_encrypt s) /\ lenN (fm_string_encrypt s) = lenN (utf8 s) /\
  forall s', is_str s' -> fm_string_encrypt s = fm_string_encrypt s' -> s = s'.
Proof.
  intros s H. split; [exact (encrypt_bytes s H)|]. split; [exact (encrypt_len s)|].
  intros s' H'. exact (encrypt_inj s s' H H').
Qed.
Print Assumptions text_encrypt_shape.
Example text_encrypt_shape_ex : lenN (fm_string_encrypt [0x20AC; 0x41]) = 4.
Proof. vm_compute. reflexivity. Qed.

Theorem text_decrypt_total : forall bs,
  (exists s, is_str s /\ bs = fm_string_encrypt s /\ fm_string_decrypt bs = s) \/
  ((forall s, is_str s -> bs <> fm_string_encrypt s) /\ fm_string_decrypt bs = lit "value not utf-8.").
Proof. exact decrypt_total. Qed.
Print Assumptions text_decrypt_total.
Example text_decrypt_total_ex :
  fm_string_decrypt [0x19; 0x3b; 0x34; 0x39; 0x3f; 0x36] = lit "Cancel" /\
  fm_string_decrypt [0xA5] = lit "value not utf-8.".
Proof. vm_compute. auto. Qed.
