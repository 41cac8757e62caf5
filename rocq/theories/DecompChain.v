(** The sector loop ends exactly when the chain of sectors does. *)
From Coq Require Import Ascii String NArith ZArith List Bool Lia.
From Verif Require Import Prelude PreludeFacts Utf8 EncodingModel EncodingSpec EncodingProofs CharConvModel
  ChunkModel ChunkSpec ChunkFacts ChunkProofs ChunkLemmas ChunkMain InstrModel ComponentModel AsmSpec AsmFacts AsmRound AsmLemmas DecompModel DecompSpec DecompStream DecompImage.
Import ListNotations.
Local Open Scope N_scope.

(** * Nothing but the two loops runs out of fuel *)

Lemma nf_at {A} (l : list A) i : at_ l i <> NoFuel.
Proof. unfold at_, unwrap. destruct (nthN l i); discriminate. Qed.
Lemma nf_unwrap {A} (o : option A) : unwrap o <> NoFuel.
Proof. destruct o; discriminate. Qed.
Lemma nf_subU a b : subU a b <> NoFuel.
Proof. unfold subU. destruct (_ <=? _); discriminate. Qed.
Lemma nf_ok {A} (x : A) : Ok x <> NoFuel.
Proof. discriminate. Qed.
Lemma nf_panic {A} : @Panic A <> NoFuel.
Proof. discriminate. Qed.
Lemma nf_bind {A B} (x : outcome A) (k : A -> outcome B) : x <> NoFuel -> (forall a, k a <> NoFuel) -> bind x k <> NoFuel.
Proof. intros H1 H2. destruct x; cbn [bind]; auto; discriminate. Qed.
Lemma nf_take n l : take_exact n l <> NoFuel.
Proof. unfold take_exact. destruct (_ <=? _); discriminate. Qed.

Ltac nf := repeat first
  [ apply nf_bind; [|intros ?]
  | apply nf_ok | apply nf_panic | apply nf_at | apply nf_unwrap | apply nf_subU | apply slice_nofuel | apply nf_take
  | match goal with |- match ?x with _ => _ end <> NoFuel => destruct x end ].

Lemma nf_calc_loop fuel : forall l r, (length l < fuel)%nat -> calc_loop fuel l r <> NoFuel.
Proof.
  induction fuel as [|fuel IH]; intros l r H; [lia|]. cbn [calc_loop].
  destruct l as [|c l1]; [discriminate|]. cbn [length] in H.
  assert (I : forall r, calc_loop fuel l1 r <> NoFuel) by (intros; apply IH; lia).
  assert (I2 : forall b l2 r, l1 = b :: l2 -> calc_loop fuel l2 r <> NoFuel)
    by (intros b l2 r0 ->; apply IH; cbn [length] in *; lia).
  assert (I3 : forall n r b, at_ l1 8 = Ok b -> calc_loop fuel (skipn n l1) r <> NoFuel)
    by (intros; apply IH; rewrite skipn_length; lia).
  assert (I4 : forall (g : list N -> list N) b l2 n, l1 = b :: l2 ->
            bind (take_exact n l2) (fun '(t, l3) => calc_loop fuel l3 (g t)) <> NoFuel).
  { intros g b l2 n ->. unfold take_exact. destruct (_ <=? _); cbn [bind]; [|discriminate].
    apply IH. rewrite skipn_length. cbn [length] in *. lia. }
  assert (J2 : forall g : N -> list N, match l1 with [] => Panic | b :: l2 => calc_loop fuel l2 (g b) end <> NoFuel)
    by (intros; destruct l1; [discriminate|eapply I2; reflexivity]).
  assert (J3 : (b <- at_ l1 8 ;; calc_loop fuel (skipn 19 l1) (r ++ dec3 b)) <> NoFuel).
  { destruct (at_ l1 8) eqn:E; cbn [bind]; try discriminate; [eapply I3; reflexivity|now apply nf_at in E]. }
  assert (J4 : forall g : list N -> list N, match l1 with [] => Panic | n :: l2 =>
                 bind (take_exact n l2) (fun '(t, l3) => calc_loop fuel l3 (g t)) end <> NoFuel)
    by (intros; destruct l1; [discriminate|eapply I4; reflexivity]).
  destruct c as [|c]; [apply I|].
  do 8 (try (destruct c as [c|c|]; [| |first [apply I | apply J3 | apply (J2 (fun b => _)) | apply (J4 (fun t => _))]])).
  all: first [apply I | apply J3 | apply (J2 (fun b => _)) | apply (J4 (fun t => _))].
Qed.

Lemma nf_calc l : decompile_calculation l <> NoFuel.
Proof. apply nf_calc_loop. lia. Qed.

Lemma nf_push_switch steps i g : (forall st, g st <> NoFuel) -> push_switch steps i g <> NoFuel.
Proof.
  intros H. induction steps as [|st steps IH]; [discriminate|]. cbn [push_switch].
  destruct (_ =? _); apply nf_bind; auto; intros; apply nf_ok.
Qed.

Lemma nf_mod_steps s sid g : (forall l, g l <> NoFuel) -> mod_steps s sid g <> NoFuel.
Proof. intros H. unfold mod_steps. nf. apply H. Qed.

Lemma nf_mod_field f t y g : mod_field f t y g <> NoFuel.
Proof. unfold mod_field. nf. Qed.

Lemma nf_decode_step sc ins : decode_step sc ins <> NoFuel.
Proof. unfold decode_step. nf. Qed.

Lemma nf_steps_loop l : forall m sid ins s, (forall a b, ins a b <> NoFuel) -> steps_loop l m sid ins s <> NoFuel.
Proof.
  induction l as [|i l IH]; intros m sid ins s H; [discriminate|]. cbn [steps_loop].
  destruct (_ <=? _); auto. apply nf_bind; [apply nf_decode_step|]. intros [st|]; auto.
  apply nf_bind; auto. apply nf_mod_steps. auto.
Qed.

Lemma nf_vec_insert {A} (l : list A) n x : vec_insert l n x <> NoFuel.
Proof. unfold vec_insert. destruct (_ <=? _); discriminate. Qed.

Lemma nf_location bs : location_from_bytes bs <> NoFuel.
Proof. unfold location_from_bytes. cbv zeta. nf. Qed.

Lemma nf_decode_bytes bs : decode_bytes bs <> NoFuel.
Proof.
  unfold decode_bytes. induction (decode_pairs bs) as [|c [|c2 l] IH]; [discriminate| |].
  - cbn [strip_nul]. destruct (c =? 0); discriminate.
  - change (strip_nul (c :: c2 :: l)) with (r <- strip_nul (c2 :: l) ;; Ok (c :: r)). apply nf_bind; auto. intros; apply nf_ok.
Qed.

Lemma nf_arms path ch s : dispatch path ch s <> NoFuel.
Proof.
  assert (A1 : arm_relation ch s <> NoFuel) by (unfold arm_relation; cbv zeta; nf).
  assert (A2 : arm_occurrence ch s <> NoFuel) by (unfold arm_occurrence; cbv zeta; nf).
  assert (A3 : forall x, arm_relation_fields x ch s <> NoFuel) by (intros; unfold arm_relation_fields; cbv zeta; nf).
  assert (A4 : forall x, arm_layout x ch s <> NoFuel) by (intros; unfold arm_layout; cbv zeta; nf).
  assert (A5 : forall x y, arm_field x y ch s <> NoFuel).
  { intros. unfold arm_field; cbv zeta.
    repeat first [apply nf_bind; [first [apply nf_mod_field | apply nf_unwrap]|intros ?]
                 | apply nf_ok | match goal with |- match ?x with _ => _ end <> NoFuel => destruct x end]. }
  assert (A6 : forall x, arm_table x ch s <> NoFuel) by (intros; unfold arm_table; cbv zeta; nf).
  assert (A7 : forall x, arm_segment x ch s <> NoFuel) by (intros; unfold arm_segment; nf).
  assert (A8 : forall x y, arm_step_value x y ch s <> NoFuel).
  { intros. unfold arm_step_value; cbv zeta.
    repeat (match goal with |- match ?x with _ => _ end <> NoFuel => destruct x end; try apply nf_ok).
    all: apply nf_mod_steps; intros; apply nf_push_switch; intros; nf; apply nf_calc. }
  assert (A9 : forall x y, arm_step_name x y ch s <> NoFuel).
  { intros. unfold arm_step_name; cbv zeta.
    repeat (match goal with |- match ?x with _ => _ end <> NoFuel => destruct x end; try apply nf_ok).
    all: apply nf_mod_steps; intros; apply nf_push_switch; intros; nf. }
  assert (A10 : forall x y, arm_step_calc x y ch s <> NoFuel).
  { intros. unfold arm_step_calc. apply nf_bind; [|intros; nf].
    repeat (match goal with |- match ?x with _ => _ end <> NoFuel => destruct x end; try apply nf_ok).
    all: apply nf_bind; [apply nf_unwrap|intros]; apply nf_bind; [apply nf_calc|intros];
      apply nf_mod_steps; intros; apply nf_push_switch; intros; apply nf_ok. }
  assert (A11 : forall x, arm_script x ch s <> NoFuel).
  { intros. unfold arm_script.
    repeat (match goal with |- match ?x with _ => _ end <> NoFuel => destruct x end; try apply nf_ok).
    all: apply nf_bind; [apply nf_unwrap|intros]; apply nf_steps_loop; intros; first [apply nf_vec_insert | apply nf_ok]. }
  assert (A12 : forall y, arm_script_name y ch s <> NoFuel) by (intros; unfold arm_script_name; cbv zeta; nf).
  assert (A13 : arm_source_name ch s <> NoFuel) by (unfold arm_source_name; nf; apply nf_decode_bytes).
  assert (A14 : forall x, arm_source x ch s <> NoFuel) by (intros; unfold arm_source; cbv zeta; nf; apply nf_location).
  set (d := dispatch path ch s). assert (D : dispatch path ch s = d) by reflexivity. clearbody d.
  unfold dispatch in D.
  repeat match type of D with
         | arm_relation _ _ = _ => now rewrite <- D
         | arm_occurrence _ _ = _ => now rewrite <- D
         | arm_relation_fields _ _ _ = _ => now rewrite <- D
         | arm_layout _ _ _ = _ => now rewrite <- D
         | arm_field _ _ _ _ = _ => now rewrite <- D
         | arm_table _ _ _ = _ => now rewrite <- D
         | arm_segment _ _ _ = _ => now rewrite <- D
         | arm_step_value _ _ _ _ = _ => now rewrite <- D
         | arm_step_name _ _ _ _ = _ => now rewrite <- D
         | arm_step_calc _ _ _ _ = _ => now rewrite <- D
         | arm_script _ _ _ = _ => now rewrite <- D
         | arm_script_name _ _ _ = _ => now rewrite <- D
         | arm_source_name _ _ = _ => now rewrite <- D
         | arm_source _ _ _ = _ => now rewrite <- D
         | Ok _ = _ => now rewrite <- D
         | match ?x with _ => _ end = _ => destruct x
         end.
Qed.

(** * Sector headers *)

Lemma bytes_slice buf a b r : bytes buf -> slice buf a b = Ok r -> bytes r.
Proof.
  intros H E. apply slice_split in E as (p & q & -> & _). apply bytes_app in H as [_ H]. now apply bytes_app in H as [H _].
Qed.

Lemma sector_header buf start rest sec : slice buf start (lenN buf) = Ok rest -> get_sector rest = Ok sec ->
  exists b, slice buf (start + 8) (start + 12) = Ok b /\ s_next sec = get_int b /\ lenN b = 4.
Proof.
  intros H E. apply slice_split in H as (p & q & -> & <- & L & _).
  rewrite lenN_app, lenN_app in L. 
  assert (Q : q = []) by (destruct q; auto; rewrite lenN_cons in L; lia). subst q. rewrite app_nil_r.
  unfold get_sector in E.
  destruct (at_ rest 0); try discriminate. destruct (at_ rest 1); try discriminate. cbn [bind] in E.
  destruct (slice rest 4 8); try discriminate. cbn [bind] in E.
  destruct (slice rest 8 12) as [b| |] eqn:S; try discriminate. cbn [bind] in E.
  destruct (slice rest 20 (lenN rest)); try discriminate. cbn [bind] in E. injection E as <-.
  exists b. rewrite slice_shift. repeat split; auto. now apply slice_len in S.
Qed.

Lemma sector_succ buf i rest sec : bytes buf -> slice buf (i * 4096) (lenN buf) = Ok rest -> get_sector rest = Ok sec ->
  sector_next buf i (s_next sec).
Proof.
  intros HB H E. destruct (sector_header _ _ _ _ H E) as (b & S & N & L). exists b.
  rewrite (N.mul_comm 4096 i). split; auto. rewrite N, get_int_be by (eapply bytes_slice; eauto). now rewrite L.
Qed.

Lemma succ_det buf i n m : sector_next buf i n -> sector_next buf i m -> n = m.
Proof. intros (b & E & ->) (c & F & ->). congruence. Qed.

Lemma nf_get_sector l : get_sector l <> NoFuel.
Proof. unfold get_sector. nf. Qed.

Lemma loop_ends fuel : forall buf n i s s', bytes buf -> sector_loop fuel buf n i s = Ok s' -> ends buf i.
Proof.
  induction fuel as [|fuel IH]; intros buf n i s s' HB H; [discriminate|]. cbn [sector_loop] in H. fold chunk_loop in H.
  destruct (N.eqb_spec i 0) as [->|Hi]; [constructor|].
  destruct (slice buf (i * 4096) (lenN buf)) as [rest| |] eqn:E; try discriminate. cbn [bind] in H.
  destruct (get_sector rest) as [sec| |] eqn:G; try discriminate. cbn [bind] in H.
  destruct (i <? n); try discriminate.
  destruct (chunk_loop _ _ _ _ _ _ _) as [s1| |]; try discriminate. cbn [bind] in H.
  eapply EndsLater; eauto. eapply sector_succ; eauto.
Qed.

Lemma decompile_ends order fuel buf f : bytes buf -> decompile order fuel buf = Ok f -> ends buf 2.
Proof.
  intros HB H. unfold decompile in H.
  destruct (slice buf 4096 (lenN buf)); try discriminate. cbn [bind] in H.
  destruct (get_sector a); try discriminate. cbn [bind] in H.
  destruct (sector_loop _ _ _ _ _) eqn:E; try discriminate. eapply loop_ends; eauto.
Qed.

(** A set of sectors without way out. *)
Lemma closed_never buf (C : N -> Prop) : C 2 -> (forall i, C i -> i <> 0 /\ forall n, sector_next buf i n -> C n) -> ~ ends buf 2.
Proof.
  intros H2 HC HE. revert H2. generalize 2, HE. clear HE. intros i HE. induction HE as [|i n Hi HS HE IH]; intros Ci.
  - now apply HC in Ci.
  - apply IH. destruct (HC _ Ci) as [_ H]. auto.
Qed.

(** * Termination *)

Lemma nf_get_chunk buf off path st : bytes buf -> 2 <= lenN buf -> get_chunk buf off path st <> NoFuel.
Proof.
  intros HB H2. rewrite chunk_table by auto.
  destruct (if off <=? lenN buf then _ else _); [discriminate|destruct (st <? off); discriminate|cbv zeta; discriminate].
Qed.

Lemma chunk_loop_halts fuel : forall buf off bound st path s, bytes buf -> 2 <= lenN buf -> no_stuck buf ->
  (N.to_nat (bound - off) < fuel)%nat -> chunk_loop fuel buf off bound st path s <> NoFuel.
Proof.
  induction fuel as [|fuel IH]; intros buf off bound st path s HB H2 NS Hf; [lia|]. cbn [chunk_loop].
  destruct (N.ltb_spec off bound) as [Ho|Ho]; [|discriminate].
  pose proof (nf_get_chunk buf off path st HB H2) as NG.
  destruct (get_chunk buf off path st) as [r| |] eqn:G; cbn [bind]; try discriminate; [|congruence].
  destruct r as [[[ch off'] path']|]; [|discriminate].
  pose proof (nf_arms path' ch s) as NA.
  destruct (dispatch path' ch s) as [s'| |]; cbn [bind]; try discriminate; [|congruence].
  apply IH; auto. destruct (chunk_progress _ _ _ _ _ _ _ HB H2 G) as [P1 P2].
  assert (off' <> off); [|lia]. intros E. apply P2 in E as [E1 E2]. apply NS in E1. congruence.
Qed.

Lemma nf_build_scripts l : forall s, build_scripts l s <> NoFuel.
Proof.
  induction l as [|[sid segs] l IH]; intros s; [discriminate|]. cbn [build_scripts]. apply nf_bind; auto.
  unfold build_script. apply nf_steps_loop. intros; apply nf_ok.
Qed.

Lemma sector_loop_halts buf i : bytes buf -> 2 <= lenN buf -> no_stuck buf -> ends buf i ->
  exists k, forall fuel n s, (k <= fuel)%nat -> sector_loop fuel buf n i s <> NoFuel.
Proof.
  intros HB H2 NS. induction 1 as [|i n Hi HS HE [k IH]].
  - exists 1%nat. intros [|fuel] n s Hf; [lia|]. discriminate.
  - exists (S (k + N.to_nat 4100)). intros [|fuel] m s Hf; [lia|]. cbn [sector_loop]. fold chunk_loop.
    replace (i =? 0) with false by lia. 
    pose proof (@slice_nofuel _ buf (i * 4096) (lenN buf)) as NS1.
    destruct (slice buf (i * 4096) (lenN buf)) as [rest| |] eqn:E; cbn [bind]; try discriminate; [|congruence].
    pose proof (nf_get_sector rest) as NG.
    destruct (get_sector rest) as [sec| |] eqn:G; cbn [bind]; try discriminate; [|congruence].
    destruct (i <? m); [|discriminate].
    match goal with |- bind ?x _ <> _ => assert (NC : x <> NoFuel); [|destruct x; cbn [bind]; try discriminate; [|congruence]] end.
    { apply chunk_loop_halts; auto. lia. }
    rewrite (succ_det _ _ _ _ (sector_succ _ _ _ _ HB E G) HS). apply IH. lia.
Qed.

Lemma decompile_halts order buf : bytes buf -> no_stuck buf -> ends buf 2 ->
  exists k, forall fuel, (k <= fuel)%nat -> decompile order fuel buf <> NoFuel.
Proof.
  intros HB NS HE. destruct (N.leb_spec 2 (lenN buf)) as [H2|H2].
  - destruct (sector_loop_halts buf 2 HB H2 NS HE) as (k & H). exists k. intros fuel Hf. unfold decompile.
    apply nf_bind; [apply slice_nofuel|]. intros rest. apply nf_bind; [apply nf_get_sector|]. intros first.
    apply nf_bind; [auto|]. intros s. apply nf_bind; [apply nf_build_scripts|]. intros; apply nf_ok.
  - exists 0%nat. intros fuel _. unfold decompile, slice.
    replace ((4096 <=? lenN buf) && (lenN buf <=? lenN buf)) with false by lia. discriminate.
Qed.

(** * Standing still *)

Lemma chunk_loop_stuck fuel : forall buf off bound st, bytes buf -> 2 <= lenN buf -> off < bound ->
  nthN buf off = Some 15 -> (exists x, nthN buf (off + 1) = Some x /\ x <> 128) ->
  forall s, chunk_loop fuel buf off bound st [] s = NoFuel.
Proof.
  induction fuel as [|fuel IH]; intros buf off bound st HB H2 Ho H15 Hx s; [reflexivity|].
  assert (G : get_chunk buf off [] st = Ok (ROk (mkChunk Noop 15 None None [] None None, off, []))).
  { destruct Hx as (x & Hx & Hn). rewrite chunk_table by auto. pose proof (nthN_lt _ _ _ H15).
    replace (off <=? lenN buf) with true by lia.
    assert (E : exists t, skipn (N.to_nat off) buf = 15 :: x :: t).
    { rewrite nthN_nth_error in H15, Hx. replace (N.to_nat (off + 1)) with (S (N.to_nat off)) in Hx by lia.
      revert H15 Hx. generalize (N.to_nat off). clear. intros n. revert buf.
      induction n as [|n IHn]; intros [|a buf] H1 H2; try discriminate.
      - cbn in *. destruct buf; [discriminate|]. injection H1 as ->. injection H2 as ->. eauto.
      - cbn in *. apply IHn; auto. }
    destruct E as (t & ->). cbn [spec_read]. rewrite split_small by lia. cbn [read_body].
    assert (L : layout_of 15 x = Some LStuck) by (unfold layout_of; replace (x =? 128) with false by lia; reflexivity).
    rewrite L. cbn. now rewrite N.add_0_r. }
  erewrite loop_step; eauto. change (dispatch [] _ s) with (Ok s). cbn [bind]. now apply IH.
Qed.

(** A file whose chain ends at once, with an opcode on which the reader stands still. *)
Definition stuck_file : list N :=
  (zeros 4104 ++ be4 2 ++ zeros 4084) ++ zeros 20 ++ [15; 0] ++ zeros 4074.

Lemma stuck_file_bytes : bytes stuck_file.
Proof.
  unfold stuck_file. repeat (apply bytes_app; split); try apply zeros_bytes; try (apply be4_bytes; lia). repeat constructor.
Qed.

Lemma stuck_len : lenN stuck_file = 12288.
Proof. unfold stuck_file. rewrite !lenN_app, !lenN_zeros. reflexivity. Qed.

Lemma stuck_next : slice stuck_file (2 * 4096 + 8) (2 * 4096 + 12) = Ok (zeros 4).
Proof.
  unfold stuck_file. 
  replace ((zeros 4104 ++ be4 2 ++ zeros 4084) ++ zeros 20 ++ [15; 0] ++ zeros 4074)
    with (((zeros 4104 ++ be4 2 ++ zeros 4084) ++ zeros 8) ++ zeros 4 ++ zeros 8 ++ [15; 0] ++ zeros 4074)
    by (change (zeros 20) with (zeros 8 ++ zeros 4 ++ zeros 8); rewrite <- !app_assoc; reflexivity).
  apply slice_mid; rewrite !lenN_app, !lenN_zeros; reflexivity.
Qed.

Lemma stuck_ends : ends stuck_file 2.
Proof.
  apply (EndsLater _ 2 0); [discriminate| |constructor].
  exists (zeros 4). split; [exact stuck_next|reflexivity].
Qed.

Lemma stuck_runs order fuel : decompile order fuel stuck_file = NoFuel.
Proof.
  assert (A : lenN (zeros 4104 ++ be4 2 ++ zeros 4084) = 8192) by (rewrite !lenN_app, !lenN_zeros; reflexivity).
  assert (S1 : slice stuck_file (4096 + 8) (4096 + 12) = Ok (be4 2)).
  { unfold stuck_file. rewrite <- !app_assoc. apply slice_mid; rewrite lenN_zeros; reflexivity. }
  destruct (sector_in stuck_file 4096 _ ltac:(rewrite stuck_len; lia) S1) as (r1 & s1 & R1 & G1 & N1).
  destruct (sector_in stuck_file (2 * 4096) _ ltac:(rewrite stuck_len; lia) stuck_next) as (r2 & s2 & R2 & G2 & N2).
  unfold decompile. rewrite R1. cbn [bind]. rewrite G1. cbn [bind]. rewrite N1. change (get_int (be4 2) + 1) with 3.
  destruct fuel as [|fuel]; [reflexivity|]. cbn [sector_loop]. fold chunk_loop. change (2 =? 0) with false. cbn iota.
  rewrite R2. cbn [bind]. rewrite G2. cbn [bind]. change (2 <? 3) with true. cbn iota.
  change (2 * 4096 + 20) with 8212. change (2 * 4096 + 4096) with 12288. change (2 * 4096) with 8192.
  assert (E : stuck_file = ((zeros 4104 ++ be4 2 ++ zeros 4084) ++ zeros 20) ++ 15 :: 0 :: zeros 4074)
    by (unfold stuck_file; rewrite <- !app_assoc; reflexivity).
  rewrite chunk_loop_stuck; [reflexivity|apply stuck_file_bytes|rewrite stuck_len; lia|lia| |].
  - rewrite E. replace 8212 with (lenN ((zeros 4104 ++ be4 2 ++ zeros 4084) ++ zeros 20))
      by (rewrite lenN_app, A; reflexivity). apply nthN_app_len.
  - exists 0. split; [|discriminate]. rewrite E.
    replace (8212 + 1) with (lenN ((zeros 4104 ++ be4 2 ++ zeros 4084) ++ zeros 20) + 1)
      by (rewrite lenN_app, A; reflexivity). rewrite nthN_app_add. reflexivity.
Qed.

(** * C19 *)

Lemma header_layout pre del lvl a b prev next junk payload i :
  lenN pre = 4096 * i -> prev < 2 ^ 32 -> next < 2 ^ 32 -> lvl < 256 -> lenN junk = 8 ->
  let buf := pre ++ [del; lvl; a; b] ++ be4 prev ++ be4 next ++ junk ++ payload in
  (rest <- slice buf (4096 * i) (lenN buf) ;; get_sector rest) = Ok (mkSector (negb (del =? 0)) lvl prev next payload).
Proof.
  intros HP Hp Hn Hl HJ buf.
  assert (E : slice buf (4096 * i) (lenN buf) = Ok ([del; lvl; a; b] ++ be4 prev ++ be4 next ++ junk ++ payload)).
  { subst buf. rewrite <- (app_nil_r (_ ++ be4 prev ++ _)) at 1. apply slice_mid; auto. now rewrite lenN_app. }
  rewrite E. cbn [bind]. unfold get_sector.
  replace (slice ([del; lvl; a; b] ++ be4 prev ++ be4 next ++ junk ++ payload) 4 8) with (Ok (be4 prev))
    by (symmetry; apply slice_mid; reflexivity).
  replace (slice ([del; lvl; a; b] ++ be4 prev ++ be4 next ++ junk ++ payload) 8 12) with (Ok (be4 next))
    by (symmetry; rewrite app_assoc; apply slice_mid; reflexivity).
  match goal with |- context [slice ?l 20 ?n] => replace (slice l 20 n) with (Ok payload) end.
  2: { symmetry. rewrite !app_assoc. set (h := (_ ++ be4 next) ++ junk).
       assert (HL : lenN h = 20) by (subst h; rewrite !lenN_app, HJ; reflexivity).
       pose proof (slice_mid h payload [] 20 (lenN (h ++ payload))) as X. rewrite app_nil_r in X.
       apply X; auto. apply lenN_app. }
  unfold at_. rewrite nthN_app_l, nthN_app_l by reflexivity.
  change (nthN [del; lvl; a; b] 0) with (Some del). change (nthN [del; lvl; a; b] 1) with (Some lvl). cbn [unwrap bind].
  assert (G : forall n, n < 2 ^ 32 -> get_int (be4 n) = n).
  { intros n H. rewrite get_int_be by now apply be4_bytes. cbn -[N.mul N.add N.div N.modulo]. unfold be_value. cbn [be4 fold_left]. lia. }
  rewrite !G by auto. f_equal. f_equal. change 0xFFFFFF with (N.ones 24). rewrite N.land_ones. apply N.mod_small. lia.
Qed.

Lemma header_short l : lenN l < 20 -> get_sector l = Panic.
Proof.
  intros H. unfold get_sector. destruct (at_ l 0) eqn:E0; auto; [|now apply nf_at in E0]. cbn [bind].
  destruct (at_ l 1) eqn:E1; auto; [|now apply nf_at in E1]. cbn [bind].
  destruct (slice l 4 8) eqn:E2; auto; [|now apply slice_nofuel in E2]. cbn [bind].
  destruct (slice l 8 12) eqn:E3; auto; [|now apply slice_nofuel in E3]. cbn [bind].
  unfold slice. now replace ((20 <=? lenN l) && (lenN l <=? lenN l)) with false by lia.
Qed.
