From Coq Require Import NArith ZArith List Bool Lia.
From Verif Require Import Prelude PreludeFacts EncodingModel EncodingProofs ChunkModel ChunkSpec ChunkFacts.
Import ListNotations.
Local Open Scope N_scope.

Lemma v_at {B} pre b (l : list N) m (f : N -> outcome B) : 1 <= m ->
  bind (at_ (pre ++ b :: l) (lenN pre + m)) f =
  match skipn (N.to_nat (m - 1)) l with x :: _ => f x | [] => Panic end.
Proof.
  intros H. rewrite at_shift, bind_at.
  replace (N.to_nat m) with (S (N.to_nat (m - 1))) by lia. reflexivity.
Qed.

Lemma v_slice {B} pre b (l : list N) m n (f : list N -> outcome B) : 1 <= m -> m <= 1 + lenN l ->
  bind (slice (pre ++ b :: l) (lenN pre + m) (lenN pre + m + n)) f =
  match take n (skipn (N.to_nat (m - 1)) l) with Some (d, _) => f d | None => Panic end.
Proof.
  intros H H'. rewrite slice_view, bind_slice by (rewrite lenN_cons; lia).
  replace (N.to_nat m) with (S (N.to_nat (m - 1))) by lia. reflexivity.
Qed.

Ltac ifs :=
  repeat match goal with
         | |- context [if ?c then _ else _] =>
           first [ change c with true; cbv iota | change c with false; cbv iota ]
         end.

Ltac red_nat m := let k := eval compute in (N.to_nat (m - 1)) in change (N.to_nat (m - 1)) with k.

Ltac acc :=
  match goal with
  | |- context [bind (at_ (?pre ++ ?b :: ?l) (lenN ?pre + ?m)) ?f] =>
    rewrite (v_at pre b l m f) by lia; red_nat m; cbn [skipn]
  | |- context [bind (slice (?pre ++ ?b :: ?l) (lenN ?pre + ?m) (lenN ?pre + ?m + ?n)) ?f] =>
    rewrite (v_slice pre b l m n f) by first [lia | len_ok]; red_nat m; cbn [skipn];
    rewrite ?take1, ?take2, ?take3
  end.

Ltac spec_red :=
  cbn [read_layout field skipn N.to_nat hd tl]; change (Pos.to_nat 1) with 1%nat; cbn [skipn];
  rewrite ?take1, ?take2, ?take3, ?take0.

Ltac normtake :=
  repeat match goal with
         | |- context [take ?n ?l] =>
           let k := eval vm_compute in n in
           lazymatch k with
           | N0 => idtac
           | Npos _ => idtac
           end;
           progress change (take n l) with (take k l)
         end; rewrite ?take0, ?take1, ?take2, ?take3.

Ltac taking :=
  repeat match goal with
         | |- context [take ?n ?l] =>
           let T := fresh "T" in
           destruct (take n l) as [[? ?]|] eqn:T; cbv iota beta;
           [pose proof (take_len _ _ _ _ T) as [? ?]|]
         end.

Ltac dl :=
  match goal with
  | |- context [match ?l with [] => _ | _ :: _ => _ end] => is_var l; destruct l; cbv iota beta
  end.

Ltac eqs :=
  match goal with
  | |- context [?x =? ?k] => is_var x; destruct (N.eqb_spec x k); subst; cbn [negb]
  end.

Ltac done := first [ reflexivity | cbn [lift]; fin ].

Ltac go Htwo :=
  repeat first [ progress ifs | acc | eqs | dl
               | progress spec_red
               | rewrite !Htwo by (cbn; tauto)
               | rewrite !get_int_two ];
  normtake; taking; ifs; try done.

(** [chunk_arms] agrees with the table, for each opcode. *)
Lemma arms_spec pre b l path local c :
  bytes l -> 2 <= lenN (pre ++ b :: l) -> c < 256 ->
  chunk_arms (pre ++ b :: l) c (lenN pre) path local = lift pre path local (read_body c l).
Proof.
  intros Hb H2 Hc.
  destruct (in_dec N.eq_dec c known) as [Hin|Hin].
  2:{ rewrite arms_unknown by auto. unfold read_body. destruct l as [|x l].
      - replace (peeks c) with false.
        + now rewrite layout_of_unknown.
        + symmetry. apply not_true_is_false. intros E. apply Hin. unfold peeks, known in *. cbn [In]. lia.
      - now rewrite layout_of_unknown. }
  assert (Htwo : forall a x, In a l -> get_path_int [a; x] = 128 + x).
  { intros a x Hi. apply get_path_int_two. unfold bytes in Hb. rewrite Forall_forall in Hb. now apply Hb. }
  assert (A1 : exists y, at_ (pre ++ b :: l) 1 = Ok y).
  { destruct (nthN_ex (pre ++ b :: l) 1) as [y Hy]; [lia|]. exists y. now apply at_ok. }
  unfold known in Hin. cbn [In] in Hin. clear Hc.
  repeat match goal with H : _ \/ _ |- _ => destruct H as [<-|H] end; [..|destruct Hin].
  all: unfold chunk_arms, read_body, layout_of, lead_of, peeks, b2n; ifs.
  1:{ (* 0x00 *)
    replace (slice (pre ++ b :: l) (lenN pre + 1) (lenN pre + 1)) with (@Ok (list N) []).
    2:{ symmetry. apply slice_ok. rewrite lenN_app, lenN_cons. split; [lia|]. split; [lia|].
        now rewrite N.sub_diag. }
    destruct A1 as [y ->]. cbn [bind]. destruct l; ifs; cbn [lift read_layout]; fin. }
  all: try (go Htwo).
  - (* 0x1E *)
    assert (E : pre ++ b :: n :: l = (pre ++ b :: n :: l0) ++ l1) by (subst l; now rewrite <- app_assoc).
    assert (E2 : lenN pre + 2 + n = lenN (pre ++ b :: n :: l0)) by (rewrite lenN_app, !lenN_cons; lia).
    rewrite E, E2. rewrite <- (N.add_0_r (lenN (pre ++ _))) at 1. rewrite at_shift.
    destruct l1 as [|m l1]; [reflexivity|].
    rewrite at_cons. cbn [bind].
    rewrite v_slice by (try lia; rewrite lenN_cons; lia).
    change (N.to_nat (1 - 1)) with 0%nat. cbn [skipn]. taking; [|reflexivity].
    cbn [lift]. rewrite <- E2. fin.
  - acc. reflexivity.
  - acc. reflexivity.
  - acc. rewrite get_int_two. acc. rewrite T0. cbn [lift]. fin.
  - acc. rewrite get_int_two. acc. now rewrite T0.
  - (* 0x20 0xFE *)
    destruct l0 as [|x l0]; [discriminate|]. subst l. cbn [app] in *.
    acc. cbn [lift hd get_path_int]. unfold arm_of; cbn [rkind rkey rref rdata rseg rdir rused kind_type enter].
    apply arm_eq; auto. rewrite H. lia.
  - unfold lenN. cbn [length]. lia.
Qed.

Lemma split_opcode_spec b : b < 256 ->
  (N.land b 0xC0 =? 0xC0, if N.land b 0xC0 =? 0xC0 then N.land b 0x3F else b) =
  (snd (split_opcode b), fst (split_opcode b)) /\ fst (split_opcode b) < 256.
Proof.
  intros H.
  set (p := fun b => Bool.eqb (N.land b 0xC0 =? 0xC0) (snd (split_opcode b)) &&
              ((if N.land b 0xC0 =? 0xC0 then N.land b 0x3F else b) =? fst (split_opcode b)) &&
              (fst (split_opcode b) <? 256)).
  assert (E : p b = true).
  { refine (all_bytes p _ b H). vm_compute. reflexivity. }
  unfold p in E. apply andb_true_iff in E as [E E3]. apply andb_true_iff in E as [E1 E2].
  apply Bool.eqb_prop in E1. apply N.eqb_eq in E2. apply N.ltb_lt in E3.
  split; [|auto]. congruence.
Qed.

(** What the program returns, in terms of the specification. *)
Definition chunk_of (c : N) (r : reading) (late : bool) (path : list N) : chunk :=
  mkChunk (kind_type (rkind r)) c (rdata r) (rref r) (apply_dir (rdir r) late path) (rseg r) (rkey r).

Definition expected (pos : N) (path : list N) (local : N) (s : spec_result)
  : outcome (result (chunk * N * list N) unit) :=
  match s with
  | SRead c r late =>
    Ok (ROk (chunk_of c r late path, pos + rused r, apply_dir (rdir r) late path))
  | SBadOpcode => if local <? pos then Ok (RErr tt) else Panic
  | STruncated => Panic
  end.

Lemma get_chunk_spec pre suf path local :
  bytes suf -> 2 <= lenN (pre ++ suf) ->
  get_chunk (pre ++ suf) (lenN pre) path local = expected (lenN pre) path local (spec_read suf).
Proof.
  intros Hb H2. unfold get_chunk. destruct suf as [|b l].
  - rewrite app_nil_r. unfold at_. rewrite (proj2 (nthN_None pre (lenN pre))) by lia. reflexivity.
  - unfold at_ at 1. rewrite nthN_app_len. cbn [unwrap bind].
    inversion Hb; subst. destruct (split_opcode_spec b H1) as [E Hc].
    assert (E1 : (N.land b 0xC0 =? 0xC0) = snd (split_opcode b)) by congruence.
    assert (E2 : (if N.land b 0xC0 =? 0xC0 then N.land b 0x3F else b) = fst (split_opcode b)) by congruence.
    rewrite E2, E1. clear E E1 E2. rewrite arms_spec by auto.
    unfold spec_read. destruct (split_opcode b) as [c late]. cbn [fst snd].
    destruct (read_body c l) as [r| |]; cbn [lift bind expected].
    + unfold arm_of, chunk_of, apply_dir, enter. reflexivity.
    + unfold subU. destruct (N.leb_spec local (lenN pre)).
      * cbn [bind]. destruct (N.eqb_spec (lenN pre - local) 0), (N.ltb_spec local (lenN pre)); try reflexivity; lia.
      * cbn [bind]. destruct (N.ltb_spec local (lenN pre)); [lia|reflexivity].
    + reflexivity.
Qed.
