(** C06, C07, C58, C77: double byte text form. *)
From Coq Require Import Ascii String NArith List Bool Lia.
From Verif Require Import Prelude PreludeFacts CharConvModel CharConvSpec CharConvProofs.
Import ListNotations.
Local Open Scope N_scope.

(** C06 *)
Theorem sortform_roundtrip : forall s,
  Forall (fun c => visible c = true) s ->
  decode_bytes (encode_text s ++ [0; 0]) = Ok (map fold_case s).
Proof. exact text_roundtrip. Qed.
Print Assumptions sortform_roundtrip.
Example sortform_roundtrip_ex :
  Forall (fun c => visible c = true) (lit "Job_Id z") /\
  decode_bytes (encode_text (lit "Job_Id z") ++ [0; 0]) = Ok (lit "job_id z").
Proof. split; [repeat constructor|vm_compute; reflexivity]. Qed.

(** C06: any text; unsupported characters come back as NUL. *)
Theorem sortform_roundtrip_any : forall s,
  decode_bytes (encode_text s ++ [0; 0]) =
  Ok (map (fun c => if visible c then fold_case c else 0) s).
Proof. exact text_roundtrip_any. Qed.
Print Assumptions sortform_roundtrip_any.
Example sortform_roundtrip_any_ex :
  decode_bytes (encode_text (lit "A-1") ++ [0; 0]) = Ok [97; 0; 0].
Proof. vm_compute. reflexivity. Qed.

(** C06: the encoder does not write the terminator the decoder insists on. *)
Theorem sortform_unterminated : forall s,
  decode_bytes (encode_text s) =
  match rev s with
  | c :: _ => if visible c then Panic
              else Ok (map (fun c => if visible c then fold_case c else 0) (removelast s))
  | [] => Panic
  end.
Proof. exact decode_unterminated. Qed.
Print Assumptions sortform_unterminated.
Example sortform_unterminated_ex :
  decode_bytes (encode_text (lit "ab")) = Panic /\ decode_bytes (encode_text (lit "ab!")) = Ok (lit "ab").
Proof. vm_compute. auto. Qed.

(** C07 *)
Theorem sortform_unsupported : forall c, supported c = false -> encode_char c = (0, 0).
Proof.
  intros c H. apply encode_invisible. unfold visible. now rewrite H.
Qed.
Print Assumptions sortform_unsupported.
Example sortform_unsupported_ex : supported 0x20AC = false /\ encode_char 0x20AC = (0, 0).
Proof. vm_compute. auto. Qed.

Theorem sortform_shape : forall s, lenN (encode_text s) = 2 * lenN s /\ bytes (encode_text s).
Proof. intros s. split; [exact (encode_text_len s)|exact (encode_text_bytes s)]. Qed.
Print Assumptions sortform_shape.
Example sortform_shape_ex : encode_text (lit "h!") = [0x12; 0xd3; 0; 0].
Proof. vm_compute. reflexivity. Qed.

Theorem sortform_collision_iff : forall s t,
  encode_text s = encode_text t <-> Forall2 same_class s t.
Proof. exact encode_text_eq. Qed.
Print Assumptions sortform_collision_iff.
Example sortform_collision_iff_ex :
  encode_text (lit "A1") = encode_text (lit "a2") /\ encode_text (lit "ab") <> encode_text (lit "ac").
Proof. vm_compute. split; [reflexivity|discriminate]. Qed.

(** C58: byte order of the encoded form is the order of the case-folded text. *)
Theorem sortform_order : forall s t,
  Forall (fun c => supported c = true) s -> Forall (fun c => supported c = true) t ->
  (lex_lt (map fold_case s) (map fold_case t) <-> lex_lt (encode_text s) (encode_text t)).
Proof. exact encode_text_order. Qed.
Print Assumptions sortform_order.
Example sortform_order_ex :
  Forall (fun c => supported c = true) (lit "Abc") /\ Forall (fun c => supported c = true) (lit "abd") /\
  lex_lt (encode_text (lit "Abc")) (encode_text (lit "abd")).
Proof. split; [repeat constructor|]. split; [repeat constructor|]. vm_compute. intuition. Qed.

(** C77: the codes that are written. *)
Theorem sortform_codes : forall c, encode_char c = match sort_code (fold_case c) with Some k => (k / 256, k mod 256) | None => (0, 0) end.
Proof. exact encode_code. Qed.
Print Assumptions sortform_codes.
Example sortform_codes_ex : sort_code (fold_case 74) = Some 0x1305 /\ encode_char 74 = (0x13, 0x05) /\ sort_code 45 = None.
Proof. repeat split. Qed.

(** C77: what any bytes are read as; without a zero code at the end reading aborts. *)
Theorem sortform_decode : forall bs, bytes bs ->
  (forall t, decode_bytes bs = Ok t <-> stand_for bs (t ++ [0])) /\
  ((forall t, ~ stand_for bs (t ++ [0])) -> decode_bytes bs = Panic).
Proof.
  intros bs B. assert (X : forall t, decode_bytes bs = Ok t <-> stand_for bs (t ++ [0])).
  { intros t. unfold decode_bytes. rewrite strip_nul_iff. split.
    - intros <-. now apply (decode_stands (length bs)).
    - intros H. symmetry. now apply stands_unique. }
  split; [exact X|]. intros H. destruct (strip_nul_total (decode_pairs bs)) as [P|(t & P)]; [exact P|]. elim (H t). now apply X.
Qed.
Print Assumptions sortform_decode.
Example sortform_decode_ex : stand_for [0x12; 0x0f; 0xff; 0xff; 0; 0; 7] (lit "a?" ++ [0]) /\ decode_bytes [0x12; 0x0f; 0xff; 0xff; 0; 0; 7] = Ok (lit "a?").
Proof.
  split; [|vm_compute; reflexivity]. apply StandCode; [reflexivity|]. apply StandOther.
  - intros c H. apply code_in_table in H. cbn in H. intuition discriminate.
  - apply StandCode; [reflexivity|]. apply StandOdd.
Qed.
