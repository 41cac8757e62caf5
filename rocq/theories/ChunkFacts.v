From Coq Require Import NArith ZArith List Bool Lia.
From Verif Require Import Prelude PreludeFacts EncodingModel EncodingProofs ChunkModel ChunkSpec.
Import ListNotations.
Local Open Scope N_scope.

Definition kind_type (k : kind) : chunk_type :=
  match k with
  | KData => DataSimple | KKey => RefSimple | KLongKey => RefLong | KSegment => DataSegment
  | KPush => PathPush | KPop => PathPop | KNothing => Noop
  end.

Definition enter (d : dir) (path : list N) : list N :=
  match d with Stay => path | Enter n => path ++ [n] | Leave => removelast path end.

Definition arm_of (pre : list N) (path : list N) (r : reading) : arm_result :=
  (kind_type (rkind r), rdata r, rref r, rseg r, rkey r, lenN pre + rused r, enter (rdir r) path).

(** The opcodes in use. *)
Definition known : list N :=
  [0x00; 0x01; 0x02; 0x03; 0x04; 0x05; 0x06; 0x07; 0x08; 0x09; 0x0A; 0x0B; 0x0C; 0x0D; 0x0E; 0x0F;
   0x10; 0x11; 0x12; 0x13; 0x14; 0x15; 0x16; 0x17; 0x19; 0x1A; 0x1B; 0x1C; 0x1D; 0x1E; 0x1F;
   0x20; 0x23; 0x28; 0x30; 0x38; 0x3D; 0x40; 0x80].

Definition is_none {A} (o : option A) : bool := match o with None => true | Some _ => false end.

Lemma layout_of_next c next : is_none (layout_of c next) = is_none (layout_of c 0).
Proof.
  unfold layout_of.
  destruct c as [|p]; [reflexivity|].
  repeat match goal with
         | |- context [match ?p with xI _ => _ | xO _ => _ | xH => _ end] => destruct p as [p|p|]; try reflexivity
         end.
Qed.

Lemma layout_of_unknown c next : c < 256 -> ~ In c known -> layout_of c next = None.
Proof.
  intros Hc H.
  assert (E : existsb (N.eqb c) known || is_none (layout_of c 0) = true).
  { refine (all_bytes (fun c => existsb (N.eqb c) known || is_none (layout_of c 0)) _ c Hc).
    vm_compute. reflexivity. }
  apply orb_true_iff in E as [E|E].
  - apply existsb_exists in E as (x & Hx & Ex). apply N.eqb_eq in Ex. now subst.
  - rewrite <- (layout_of_next c next) in E. now destruct (layout_of c next).
Qed.

Ltac inlist := repeat first [left; reflexivity | right].

Lemma arms_unknown code c off path local : ~ In c known ->
  chunk_arms code c off path local = (dist <- subU off local ;; if dist =? 0 then Panic else Ok None).
Proof.
  intros H.
  assert (F : forall k, In k known -> c =? k = false).
  { intros k Hk. apply N.eqb_neq. now intros ->. }
  assert (R1 : (0x01 <=? c) && (c <=? 0x05) = false).
  { apply not_true_is_false. intros E. apply H.
    assert (c = 1 \/ c = 2 \/ c = 3 \/ c = 4 \/ c = 5) as [->|[->|[->|[->| ->]]]] by lia; inlist. }
  assert (R2 : (0x09 <=? c) && (c <=? 0x0D) = false).
  { apply not_true_is_false. intros E. apply H.
    assert (c = 9 \/ c = 10 \/ c = 11 \/ c = 12 \/ c = 13) as [->|[->|[->|[->| ->]]]] by lia; inlist. }
  assert (R3 : (0x11 <=? c) && (c <=? 0x15) = false).
  { apply not_true_is_false. intros E. apply H.
    assert (c = 17 \/ c = 18 \/ c = 19 \/ c = 20 \/ c = 21) as [->|[->|[->|[->| ->]]]] by lia; inlist. }
  unfold chunk_arms. rewrite R1, R2, R3.
  rewrite (F 0x00), (F 0x06), (F 0x07), (F 0x08), (F 0x0E), (F 0x0F), (F 0x10), (F 0x16), (F 0x17), (F 0x1B),
    (F 0x19), (F 0x1A), (F 0x1C), (F 0x1D), (F 0x1E), (F 0x1F), (F 0x20), (F 0x23), (F 0x28), (F 0x30),
    (F 0x38), (F 0x3D), (F 0x40), (F 0x80) by inlist.
  reflexivity.
Qed.

Lemma slice_view {A} (pre suf : list A) a n :
  slice (pre ++ suf) (lenN pre + a) (lenN pre + a + n) = slice suf a (a + n).
Proof. rewrite <- N.add_assoc. apply slice_shift. Qed.

Lemma slice_take (l : list N) a n : a <= lenN l ->
  slice l a (a + n) = match take n (skipn (N.to_nat a) l) with Some (d, _) => Ok d | None => Panic end.
Proof.
  intros H. unfold slice, take.
  replace (a <=? a + n) with true by lia.
  assert (E : lenN (skipn (N.to_nat a) l) = lenN l - a).
  { unfold lenN in *. rewrite skipn_length. lia. }
  rewrite E. replace (a + n <=? lenN l) with (n <=? lenN l - a) by lia.
  cbn [andb]. destruct (n <=? lenN l - a); auto. do 2 f_equal. lia.
Qed.

Lemma take_len n l d r : take n l = Some (d, r) -> lenN d = n /\ l = d ++ r.
Proof.
  unfold take. destruct (N.leb_spec n (lenN l)); [|discriminate]. intros [= <- <-].
  split; [|symmetry; apply firstn_skipn]. unfold lenN in *. rewrite firstn_length. lia.
Qed.

Lemma at_cons (x : N) l : at_ (x :: l) 0 = Ok x.
Proof. reflexivity. Qed.

Definition lift (pre path : list N) (local : N) (b : body_result) : outcome (option arm_result) :=
  match b with
  | BRead r => Ok (Some (arm_of pre path r))
  | BBadOpcode => dist <- subU (lenN pre) local ;; if dist =? 0 then Panic else Ok None
  | BTruncated => Panic
  end.

Lemma get_int_two a b : get_int [a; b] = 256 * a + b.
Proof. unfold get_int, get_int2. rewrite N.shiftl_mul_pow2. change (2 ^ 8) with 256. lia. Qed.

(** Reading two bytes is a match on the list. *)
Lemma take2 (l : list N) : take 2 l = match l with a :: b :: r => Some ([a; b], r) | _ => None end.
Proof.
  destruct l as [|a [|b l]]; try reflexivity. unfold take.
  replace (2 <=? lenN (a :: b :: l)) with true by (unfold lenN; cbn [length]; lia). reflexivity.
Qed.

Lemma take1 (l : list N) : take 1 l = match l with a :: r => Some ([a], r) | _ => None end.
Proof.
  destruct l as [|a l]; try reflexivity. unfold take.
  replace (1 <=? lenN (a :: l)) with true by (unfold lenN; cbn [length]; lia). reflexivity.
Qed.

Lemma take0 (l : list N) : take 0 l = Some ([], l).
Proof. unfold take. now replace (0 <=? lenN l) with true by lia. Qed.

Lemma take3 (l : list N) : take 3 l = match l with a :: b :: c :: r => Some ([a; b; c], r) | _ => None end.
Proof.
  destruct l as [|a [|b [|c l]]]; try reflexivity. unfold take.
  replace (3 <=? lenN (a :: b :: c :: l)) with true by (unfold lenN; cbn [length]; lia). reflexivity.
Qed.

Lemma at_nth (l : list N) k : at_ l k = match skipn (N.to_nat k) l with x :: _ => Ok x | [] => Panic end.
Proof.
  unfold at_. rewrite nthN_nth_error. revert l. induction (N.to_nat k) as [|n IH]; intros [|x l]; cbn; auto.
Qed.

Lemma bind_at {B} l k (f : N -> outcome B) :
  bind (at_ l k) f = match skipn (N.to_nat k) l with x :: _ => f x | [] => Panic end.
Proof. rewrite at_nth. now destruct (skipn _ l). Qed.

Lemma bind_slice {B} l a n (f : list N -> outcome B) : a <= lenN l ->
  bind (slice l a (a + n)) f =
  match take n (skipn (N.to_nat a) l) with Some (d, _) => f d | None => Panic end.
Proof. intros H. rewrite slice_take by auto. now destruct (take _ _) as [[? ?]|]. Qed.

Ltac len_ok := unfold lenN; cbn [length]; lia.

Lemma arm_eq ty d rd seg r off path ty' d' rd' seg' r' off' path' :
  ty = ty' -> d = d' -> rd = rd' -> seg = seg' -> r = r' -> off = off' -> path = path' ->
  @Ok (option arm_result) (Some (ty, d, rd, seg, r, off, path)) = Ok (Some (ty', d', rd', seg', r', off', path')).
Proof. intros; subst; reflexivity. Qed.

Ltac fin := unfold arm_of; cbn [rkind rkey rref rdata rseg rdir rused kind_type enter];
  apply arm_eq; auto; try (repeat f_equal; lia); try lia.

