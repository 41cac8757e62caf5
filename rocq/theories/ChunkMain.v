(** Lemmas behind ChunkProps. *)
From Coq Require Import NArith ZArith List Bool Lia.
From Verif Require Import Prelude PreludeFacts EncodingModel EncodingProofs ChunkModel ChunkSpec ChunkFacts ChunkProofs ChunkLemmas.
Import ListNotations.
Local Open Scope N_scope.

Lemma split_at (code : list N) pos : pos <= lenN code ->
  exists pre suf, code = pre ++ suf /\ lenN pre = pos /\ skipn (N.to_nat pos) code = suf.
Proof.
  intros H. exists (firstn (N.to_nat pos) code), (skipn (N.to_nat pos) code).
  rewrite firstn_skipn. repeat split; auto. unfold lenN in *. rewrite firstn_length. lia.
Qed.

Lemma chunk_table code pos path local :
  bytes code -> 2 <= lenN code ->
  get_chunk code pos path local =
  match (if pos <=? lenN code then spec_read (skipn (N.to_nat pos) code) else STruncated) with
  | STruncated => Panic
  | SBadOpcode => if local <? pos then Ok (RErr tt) else Panic
  | SRead c r late =>
    let path' := apply_dir (rdir r) late path in
    Ok (ROk (mkChunk (kind_type (rkind r)) c (rdata r) (rref r) path' (rseg r) (rkey r), pos + rused r, path'))
  end.
Proof.
  intros Hb H2. destruct (N.leb_spec pos (lenN code)) as [Hp|Hp].
  - destruct (split_at code pos Hp) as (pre & suf & -> & <- & E). rewrite E.
    apply bytes_app in Hb as [_ Hs]. rewrite get_chunk_spec by auto. unfold expected, chunk_of.
    destruct (spec_read suf); reflexivity.
  - unfold get_chunk, at_. rewrite (proj2 (nthN_None code pos)) by lia. reflexivity.
Qed.

(** A successful read, taken apart. *)
Lemma chunk_inv code pos path local ch pos' path' :
  bytes code -> 2 <= lenN code ->
  get_chunk code pos path local = Ok (ROk (ch, pos', path')) ->
  exists pre suf c r late, code = pre ++ suf /\ lenN pre = pos /\ spec_read suf = SRead c r late /\
    ch = chunk_of c r late path /\ pos' = pos + rused r /\ path' = apply_dir (rdir r) late path.
Proof.
  intros Hb H2 H. rewrite chunk_table in H by auto.
  destruct (N.leb_spec pos (lenN code)) as [Hp|Hp]; [|discriminate].
  destruct (split_at code pos Hp) as (pre & suf & -> & <- & E). rewrite E in H.
  exists pre, suf. destruct (spec_read suf) as [c r late| |]; try discriminate.
  - cbn zeta in H. exists c, r, late.
    assert (K : forall A B C (a a' : A) (b b' : B) (c c' : C) (E : Type),
               @Ok (result (A * B * C) E) (ROk (a, b, c)) = Ok (ROk (a', b', c')) -> a = a' /\ b = b' /\ c = c').
    { intros * K. injection K. auto. }
    apply K in H as (<- & <- & <-). repeat split; auto.
  - destruct (_ <? _); discriminate.
Qed.

Lemma split_code b c late : b < 256 -> split_opcode b = (c, late) ->
  late = (0xC0 <=? b) /\ b = (if late then c + 0xC0 else c) /\ (late = true -> c < 64).
Proof.
  intros Hb. unfold split_opcode. destruct (N.leb_spec 0xC0 b); intros [= <- <-]; repeat split; try lia; discriminate.
Qed.

Lemma chunk_unknown code pos path local b :
  bytes code -> 2 <= lenN code -> local < pos -> nthN code pos = Some b ->
  (get_chunk code pos path local = Ok (RErr tt) <-> ~ In (fst (split_opcode b)) known).
Proof.
  intros Hb H2 Hl Hn. rewrite chunk_table by auto.
  assert (Hp : pos < lenN code) by (apply nthN_lt in Hn; auto).
  replace (pos <=? lenN code) with true by lia.
  destruct (split_at code pos) as (pre & suf & -> & <- & E); [lia|]. rewrite E.
  apply bytes_app in Hb as [_ Hs].
  destruct suf as [|b' l]; [rewrite app_nil_r in Hp; lia|]. rewrite nthN_app_len in Hn. injection Hn as ->.
  inversion Hs; subst. destruct (split_opcode_spec b H1) as [_ Hc].
  cbn [spec_read]. destruct (split_opcode b) as [c late]. cbn [fst] in *.
  replace (local <? lenN pre) with true by lia.
  assert (Hnext : forall next, layout_of c next = None <-> ~ In c known).
  { intros next. split; [|now apply layout_of_unknown].
    intros Hl0 Hin.
    assert (is_none (layout_of c 0) = true) by (rewrite <- (layout_of_next c next), Hl0; reflexivity).
    cbn in Hin. repeat destruct Hin as [<-|Hin]; try discriminate; auto. }
  destruct l as [|next l]; cbn [read_body].
  - destruct (peeks c) eqn:P.
    + split; [discriminate|]. intros Hk. exfalso. apply Hk.
      unfold peeks in P. rewrite !orb_true_iff, !N.eqb_eq in P.
      destruct P as [[[-> | ->] | ->] | ->]; inlist.
    + destruct (layout_of c 0) as [y|] eqn:Y.
      * assert (~ ~ In c known). { intros K. apply (Hnext 0) in K. congruence. }
        split; [|tauto]. destruct (read_layout y 1 []); discriminate.
      * apply Hnext in Y. tauto.
  - destruct (layout_of c next) as [y|] eqn:Y.
    + assert (~ ~ In c known). { intros K. apply (Hnext next) in K. congruence. }
      split; [|tauto]. destruct (read_layout y _ _); discriminate.
    + apply Hnext in Y. tauto.
Qed.

Lemma chunk_progress code pos path local ch pos' path' :
  bytes code -> 2 <= lenN code ->
  get_chunk code pos path local = Ok (ROk (ch, pos', path')) ->
  pos <= pos' /\
  (pos' = pos <-> (nthN code pos = Some 0x0F \/ nthN code pos = Some 0xCF) /\ nthN code (pos + 1) <> Some 0x80).
Proof.
  intros Hb H2 H. apply chunk_inv in H as (pre & suf & c & r & late & -> & <- & S & -> & -> & ->); auto.
  split; [lia|]. apply bytes_app in Hb as [_ Hs].
  destruct (spec_read_facts _ _ _ _ S) as (F & _).
  apply spec_read_inv in S as (b & l & y & next & -> & Sp & Y & Hnil & Hcons & R).
  rewrite nthN_app_len. inversion Hs; subst.
  destruct (split_code _ _ _ H1 Sp) as (El & Eb & Ec).
  assert (A : (Some b = Some 0x0F \/ Some b = Some 0xCF) <-> c = 0x0F).
  { destruct late; subst b; split.
    - intros [[= K]|[= K]]; lia.
    - intros ->. auto.
    - intros [[= ->]|[= ->]]; auto. lia.
    - intros ->. auto. }
  rewrite A.
  assert (B : nthN (pre ++ b :: l) (lenN pre + 1) = nthN l 0).
  { rewrite nthN_app_add. apply (nthN_succ b l 0). }
  rewrite B.
  split.
  - intros E. assert (E0 : rused r = 0) by lia. apply F in E0 as (-> & b' & x & l' & [= <- ->] & Hx).
    split; auto. rewrite nthN_0. congruence.
  - intros (-> & Hx). assert (E0 : rused r = 0); [|lia]. apply F. split; auto.
    destruct l as [|x l]; [destruct (Hnil eq_refl); discriminate|].
    exists b, x, l. split; auto. rewrite nthN_0 in Hx. congruence.
Qed.

Lemma chunk_inside code pos path local ch pos' path' :
  bytes code -> 2 <= lenN code ->
  get_chunk code pos path local = Ok (ROk (ch, pos', path')) ->
  (forall d, cdata ch = Some d -> exists x z,
     code = x ++ d ++ z /\ pos < lenN x /\ (ccode ch <> 0x38 -> lenN x + lenN d <= pos')) /\
  (forall d, cref_data ch = Some d -> exists x z,
     code = x ++ d ++ z /\ pos < lenN x /\ (ccode ch <> 0x1F -> lenN x + lenN d <= pos')) /\
  (~ In (ccode ch) [0x00; 0x19; 0x1A; 0x1B; 0x1C; 0x1D; 0x38] -> pos' <= lenN code).
Proof.
  intros Hb H2 H. apply chunk_inv in H as (pre & suf & c & r & late & -> & <- & S & -> & -> & ->); auto.
  destruct (spec_read_facts _ _ _ _ S) as (_ & F & (h1 & D1 & D2) & (h2 & R1 & R2)).
  cbn [cdata cref_data ccode chunk_of].
  split; [|split].
  - intros d E. rewrite E in D1. cbn [fits] in D1. destruct D1 as (x & z & -> & L1 & L2).
    exists (pre ++ x), z. rewrite <- app_assoc, lenN_app. repeat split; auto; [lia|]. intros Hc. specialize (D2 Hc). lia.
  - intros d E. rewrite E in R1. cbn [fits] in R1. destruct R1 as (x & z & -> & L1 & L2).
    exists (pre ++ x), z. rewrite <- app_assoc, lenN_app. repeat split; auto; [lia|]. intros Hc. specialize (R2 Hc). lia.
  - intros Hc. rewrite lenN_app.
    assert (E38 : c <> 0x38) by (intros ->; apply Hc; inlist). specialize (F E38).
    assert (slack c = 0); [|lia].
    unfold slack. destruct c as [|p]; [exfalso; apply Hc; inlist|].
    repeat match goal with
           | |- context [match ?p with xI _ => _ | xO _ => _ | xH => _ end] => destruct p as [p|p|]; try reflexivity
           end; exfalso; apply Hc; inlist.
Qed.

Lemma chunk_outside :
  Forall (fun c => exists code pos ch pos' path',
            bytes code /\ 2 <= lenN code /\ get_chunk code pos [] 0 = Ok (ROk (ch, pos', path')) /\
            ccode ch = c /\ lenN code < pos')
         [0x00; 0x19; 0x1A; 0x1B; 0x1C; 0x1D; 0x38].
Proof.
  repeat constructor.
  1: exists [1; 0x00], 1.
  2: exists [0x19; 1; 0], 0.
  3: exists [0x1A; 1; 0], 0.
  4: exists [0x1B; 1; 0], 0.
  5: exists [0x1C; 1; 0], 0.
  6: exists [0x1D; 1; 0], 0.
  7: exists [0x38; 200; 0; 0], 0.
  all: eexists _, _, _; split; [repeat constructor|split; [vm_compute; discriminate|split; [reflexivity|split; reflexivity]]].
Qed.

(** Kind and directory effect go together. *)
Lemma read_layout_dir y u l r : bytes l -> read_layout y u l = Some r ->
  match rkind r with
  | KPush => exists n, n < 384 /\ rdir r = Enter n
  | KPop => rdir r = Leave
  | _ => rdir r = Stay
  end.
Proof.
  intros Hb. destruct y; cbn [read_layout]; intros H; fields; assert (K : forall A (a b : A), Some a = Some b -> b = a) by congruence; apply K in H; subst r; cbn [rkind rdir]; auto.
  - inversion Hb; subst. eexists; split; [|reflexivity]. unfold is_byte in *. lia.
  - eexists; split; [|reflexivity]. apply take_len in T as [L E].
    destruct l0 as [|x l0]; [discriminate|]. cbn [hd].
    destruct l as [|y l]; [discriminate|]. cbn [tl] in E. subst l. inversion Hb; subst. inversion H2; subst.
    unfold is_byte in *. lia.
  - inversion Hb; subst. inversion H2; subst. eexists; split; [|reflexivity]. unfold is_byte in *. lia.
  - eexists; split; [|reflexivity]. lia.
  - inversion Hb; subst. inversion H2; subst. inversion H4; subst. eexists; split; [|reflexivity]. unfold is_byte in *. lia.
Qed.

Lemma chunk_path code pos path local ch pos' path' b :
  bytes code -> 2 <= lenN code -> nthN code pos = Some b ->
  get_chunk code pos path local = Ok (ROk (ch, pos', path')) ->
  cpath ch = path' /\
  match ctype ch with
  | PathPush => if 0xC0 <=? b then path' = path else exists n, n < 384 /\ path' = path ++ [n]
  | PathPop => path' = if 0xC0 <=? b then removelast (removelast path) else removelast path
  | _ => path' = if 0xC0 <=? b then removelast path else path
  end.
Proof.
  intros Hb H2 Hn H. apply chunk_inv in H as (pre & suf & c & r & late & -> & <- & S & -> & -> & ->); auto.
  split; [reflexivity|]. apply bytes_app in Hb as [_ Hs].
  apply spec_read_inv in S as (b' & l & y & next & -> & Sp & Y & Hnil & Hcons & R).
  rewrite nthN_app_len in Hn. injection Hn as ->. inversion Hs; subst.
  destruct (split_code _ _ _ H1 Sp) as (El & _ & _).
  apply read_layout_dir in R.
  2:{ unfold lead_of. destruct (_ && _); [|exact H3]. change (N.to_nat 1) with 1%nat.
      destruct l; cbn [skipn]; auto. now inversion H3. }
  cbn [ctype chunk_of]. rewrite <- El. unfold apply_dir.
  destruct (rkind r); cbn [kind_type]; try (rewrite R; now destruct late).
  destruct R as (n & Hn & ->). destruct late; [apply removelast_last|]. eauto.
Qed.

Lemma chunk_locality pre suf path local ch pos' path' pre2 ext local2 :
  bytes pre -> bytes suf -> bytes pre2 -> bytes ext ->
  2 <= lenN (pre ++ suf) -> 2 <= lenN (pre2 ++ suf ++ ext) ->
  get_chunk (pre ++ suf) (lenN pre) path local = Ok (ROk (ch, pos', path')) ->
  get_chunk (pre2 ++ suf ++ ext) (lenN pre2) path local2 =
    Ok (ROk (ch, lenN pre2 + (pos' - lenN pre), path')).
Proof.
  intros B1 B2 B3 B4 L1 L2 H. rewrite get_chunk_spec in H by auto.
  rewrite get_chunk_spec by (auto; now apply bytes_app).
  destruct (spec_read suf) as [c r late| |] eqn:S; cbn [expected] in H; try discriminate.
  2: destruct (_ <? _); discriminate.
  rewrite (spec_read_ext _ ext _ _ _ S). cbn [expected].
  assert (K : forall A B C (a a' : A) (b b' : B) (c c' : C) (E : Type),
             @Ok (result (A * B * C) E) (ROk (a, b, c)) = Ok (ROk (a', b', c')) -> a = a' /\ b = b' /\ c = c').
  { intros * K. injection K. auto. }
  apply K in H as (<- & <- & <-). do 4 f_equal. lia.
Qed.
