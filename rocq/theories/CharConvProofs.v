From Coq Require Import Ascii String NArith ZArith List Bool Lia.
From Verif Require Import Prelude PreludeFacts CharConvModel CharConvSpec.
Import ListNotations.
Local Open Scope N_scope.

(** The table restricted to ASCII can be checked completely; everything else is unsupported. *)
Lemma lower_fold c : to_ascii_lowercase c = fold_case c.
Proof. reflexivity. Qed.

Lemma supported_small c : supported c = true -> c < 128.
Proof. unfold supported. lia. Qed.

Lemma table_find_big ch : 123 <= ch -> encode_char ch = (0, 0).
Proof.
  intros H. unfold encode_char, to_ascii_lowercase.
  replace ((65 <=? ch) && (ch <=? 90)) with false by lia.
  cbn [find ENCODING_MAPPING].
  repeat match goal with |- context [?k =? ch] => rewrite (proj2 (N.eqb_neq k ch)) by lia end.
  reflexivity.
Qed.

Definition check_char (c : N) : bool :=
  if visible c then
    match encode_char c with
    | (h, l) => (decode_char h l =? fold_case c) && negb ((h =? 0) && (l =? 0)) && (h <? 256) && (l <? 256) && (0 <? h)
    end
  else match encode_char c with (h, l) => (h =? 0) && (l =? 0) end.

Lemma check_char_all c : check_char c = true.
Proof.
  destruct (N.ltb_spec c 256).
  - refine (all_bytes check_char _ c H). vm_compute. reflexivity.
  - unfold check_char. rewrite table_find_big by lia.
    replace (visible c) with false; [reflexivity|]. unfold visible, supported. lia.
Qed.

Lemma encode_invisible c : visible c = false -> encode_char c = (0, 0).
Proof.
  intros H. pose proof (check_char_all c) as C. unfold check_char in C. rewrite H in C.
  destruct (encode_char c) as [h l]. apply andb_true_iff in C as [C1 C2].
  apply N.eqb_eq in C1. apply N.eqb_eq in C2. congruence.
Qed.

Lemma encode_visible c : visible c = true ->
  exists h l, encode_char c = (h, l) /\ decode_char h l = fold_case c /\ 0 < h < 256 /\ l < 256.
Proof.
  intros H. pose proof (check_char_all c) as C. unfold check_char in C. rewrite H in C.
  destruct (encode_char c) as [h l]. exists h, l. split; auto. lia.
Qed.

Lemma decode_00 : decode_char 0 0 = 0.
Proof. reflexivity. Qed.

Lemma encode_bytes2 c : exists h l, encode_char c = (h, l) /\ h < 256 /\ l < 256 /\
  decode_char h l = if visible c then fold_case c else 0.
Proof.
  destruct (visible c) eqn:V.
  - destruct (encode_visible c V) as (h & l & E & D & Hh & Hl). exists h, l. repeat split; auto; lia.
  - rewrite (encode_invisible c V). exists 0, 0. repeat split; lia.
Qed.

Lemma decode_pairs_encode s rest :
  decode_pairs (encode_text s ++ rest) =
  map (fun c => if visible c then fold_case c else 0) s ++ decode_pairs rest.
Proof.
  induction s as [|c s IH]; cbn [encode_text flat_map app map]; auto.
  fold (encode_text s). destruct (encode_bytes2 c) as (h & l & E & _ & _ & D).
  rewrite E. cbn [app decode_pairs]. now rewrite D, IH.
Qed.

Lemma strip_nul_app s : strip_nul (s ++ [0]) = Ok s.
Proof.
  induction s as [|c s IH]; [reflexivity|].
  cbn [app]. destruct (s ++ [0]) eqn:E; [destruct s; discriminate|].
  cbn [strip_nul]. cbn [strip_nul] in IH. rewrite IH. reflexivity.
Qed.

Lemma strip_nul_iff s t : strip_nul s = Ok t <-> s = t ++ [0].
Proof.
  split; [|intros ->; apply strip_nul_app].
  revert t. induction s as [|c s IH]; intros t; [discriminate|].
  cbn [strip_nul]. destruct s as [|d s].
  - destruct (N.eqb_spec c 0); [|discriminate]. intros [= <-]. now subst.
  - intros (r & E & [= <-])%bind_ok. apply IH in E. cbn. now rewrite E.
Qed.

Lemma strip_nul_nofuel s : strip_nul s <> NoFuel.
Proof.
  induction s as [|c s IH]; [discriminate|]. cbn [strip_nul]. destruct s as [|d s].
  - destruct (c =? 0); discriminate.
  - destruct (strip_nul (d :: s)); cbn; congruence.
Qed.

Lemma text_roundtrip s :
  Forall (fun c => visible c = true) s ->
  decode_bytes (encode_text s ++ [0; 0]) = Ok (map fold_case s).
Proof.
  intros H. unfold decode_bytes. rewrite decode_pairs_encode.
  cbn [decode_pairs]. rewrite decode_00, strip_nul_app. f_equal.
  induction H; cbn; auto. now rewrite H, IHForall.
Qed.

(** With unsupported characters: they come back as NUL. *)
Lemma text_roundtrip_any s :
  decode_bytes (encode_text s ++ [0; 0]) =
  Ok (map (fun c => if visible c then fold_case c else 0) s).
Proof.
  unfold decode_bytes. rewrite decode_pairs_encode.
  cbn [decode_pairs]. now rewrite decode_00, strip_nul_app.
Qed.

(** Without the terminator decoding only works when the text ends in an unsupported character. *)
Lemma decode_unterminated s :
  decode_bytes (encode_text s) =
  match rev s with
  | c :: _ => if visible c then Panic
              else Ok (map (fun c => if visible c then fold_case c else 0) (removelast s))
  | [] => Panic
  end.
Proof.
  unfold decode_bytes. rewrite <- (app_nil_r (encode_text s)), decode_pairs_encode.
  cbn [decode_pairs]. rewrite app_nil_r.
  destruct (rev s) as [|c r] eqn:E.
  - assert (s = []) as -> by (rewrite <- (rev_involutive s), E; reflexivity). reflexivity.
  - assert (s = rev r ++ [c]) as -> by (rewrite <- (rev_involutive s), E; reflexivity).
    rewrite removelast_last, map_app. cbn [map]. destruct (visible c) eqn:V.
    + destruct (strip_nul _) eqn:S; auto.
      * apply strip_nul_iff in S. apply app_inj_tail in S as [_ S].
        exfalso. unfold visible, supported, fold_case in *. destruct ((65 <=? c) && (c <=? 90)) eqn:?; lia.
      * exfalso. now apply (strip_nul_nofuel _ S).
    + apply strip_nul_app.
Qed.

Lemma encode_text_len s : lenN (encode_text s) = 2 * lenN s.
Proof.
  induction s as [|c s IH]; [reflexivity|].
  cbn [encode_text flat_map]. fold (encode_text s). destruct (encode_char c).
  rewrite lenN_app, IH, !lenN_cons, lenN_nil. lia.
Qed.

Lemma encode_text_bytes s : bytes (encode_text s).
Proof.
  induction s as [|c s IH]; [constructor|].
  cbn [encode_text flat_map]. fold (encode_text s).
  destruct (encode_bytes2 c) as (h & l & E & Hh & Hl & _). rewrite E.
  repeat constructor; auto.
Qed.

Lemma encode_char_eq c d : encode_char c = encode_char d <-> same_class c d.
Proof.
  unfold same_class. destruct (visible c) eqn:Vc, (visible d) eqn:Vd.
  - split.
    + intros E. left. split; auto. split; auto.
      destruct (encode_visible c Vc) as (h & l & E1 & D1 & _).
      destruct (encode_visible d Vd) as (h' & l' & E2 & D2 & _). congruence.
    + intros [(_ & _ & E)|[]]; [|discriminate].
      unfold encode_char. rewrite !lower_fold. now rewrite E.
  - split; [|intros [(_ & ? & _)|[? _]]; discriminate].
    intros E. destruct (encode_visible c Vc) as (h & l & E1 & _ & H & _).
    rewrite (encode_invisible d Vd) in E. rewrite E in E1. inversion E1. lia.
  - split; [|intros [(? & _)|[_ ?]]; discriminate].
    intros E. destruct (encode_visible d Vd) as (h & l & E1 & _ & H & _).
    rewrite (encode_invisible c Vc) in E. rewrite <- E in E1. inversion E1. lia.
  - split; auto. intros _. now rewrite !encode_invisible.
Qed.

Lemma encode_text_eq s t : encode_text s = encode_text t <-> Forall2 same_class s t.
Proof.
  revert t. induction s as [|c s IH]; intros [|d t]; cbn [encode_text flat_map].
  - split; auto.
  - fold (encode_text t). destruct (encode_char d). split; [discriminate|]. intros H; inversion H.
  - fold (encode_text s). destruct (encode_char c). split; [discriminate|]. intros H; inversion H.
  - fold (encode_text s). fold (encode_text t). split.
    + intros E. constructor.
      * apply encode_char_eq. destruct (encode_char c), (encode_char d). cbn in E. congruence.
      * apply IH. destruct (encode_char c), (encode_char d). cbn in E. congruence.
    + intros H. inversion H; subst. apply encode_char_eq in H3. apply IH in H5.
      rewrite H3, H5. reflexivity.
Qed.

(** Order. *)
Definition pair_lt (p q : N * N) : bool := (fst p <? fst q) || ((fst p =? fst q) && (snd p <? snd q)).

Definition check_order (c d : N) : bool :=
  negb (supported c) || negb (supported d) ||
  Bool.eqb (fold_case c <? fold_case d) (pair_lt (encode_char c) (encode_char d)).

Lemma check_order_all c d : check_order c d = true.
Proof.
  destruct (supported c) eqn:Sc; [|unfold check_order; now rewrite Sc].
  destruct (supported d) eqn:Sd; [|unfold check_order; rewrite Sd; now destruct (negb (supported c))].
  apply supported_small in Sc. apply supported_small in Sd.
  assert (H : all_below 128 (fun c => all_below 128 (check_order c)) = true) by (vm_compute; reflexivity).
  pose proof (all_below_spec _ _ H c Sc) as H1. cbv beta in H1.
  exact (all_below_spec _ _ H1 d Sd).
Qed.

Lemma encode_char_order c d : supported c = true -> supported d = true ->
  (fold_case c < fold_case d <-> pair_lt (encode_char c) (encode_char d) = true).
Proof.
  intros Sc Sd. pose proof (check_order_all c d) as H. unfold check_order in H.
  rewrite Sc, Sd in H. cbn [negb orb] in H. apply Bool.eqb_prop in H. rewrite <- H. lia.
Qed.

Lemma supported_class c d : supported c = true -> supported d = true ->
  (encode_char c = encode_char d <-> fold_case c = fold_case d).
Proof.
  intros Sc Sd. rewrite encode_char_eq. unfold same_class, visible. rewrite Sc, Sd. cbn [andb].
  unfold supported, fold_case in *. split.
  - intros [(_ & _ & ?)|[? ?]]; auto.
    assert (c = 0 /\ d = 0) as [-> ->] by lia. reflexivity.
  - intros E. destruct ((65 <=? c) && (c <=? 90)) eqn:?, ((65 <=? d) && (d <=? 90)) eqn:?;
      destruct (N.eqb_spec c 0), (N.eqb_spec d 0); cbn; try lia; auto.
Qed.

Lemma encode_text_order s t :
  Forall (fun c => supported c = true) s -> Forall (fun c => supported c = true) t ->
  (lex_lt (map fold_case s) (map fold_case t) <-> lex_lt (encode_text s) (encode_text t)).
Proof.
  intros Hs. revert t. induction Hs as [|c s Sc Hs IH]; intros t Ht.
  - destruct Ht as [|d t Sd Ht]; cbn [map encode_text flat_map]; [reflexivity|].
    destruct (encode_char d). cbn. tauto.
  - destruct Ht as [|d t Sd Ht]; cbn [map encode_text flat_map].
    + destruct (encode_char c). cbn. tauto.
    + fold (encode_text s). fold (encode_text t).
      pose proof (encode_char_order c d Sc Sd) as O.
      pose proof (supported_class c d Sc Sd) as Q.
      destruct (encode_char c) as [h l] eqn:Ec, (encode_char d) as [h' l'] eqn:Ed.
      unfold pair_lt in O. cbn [fst snd] in O.
      cbn [app lex_lt]. rewrite (IH t Ht).
      assert (Q' : fold_case c = fold_case d <-> h = h' /\ l = l').
      { rewrite <- Q. split; [intros E; inversion E; auto|intros [-> ->]; auto]. }
      rewrite Q'. clear Q Q'.
      assert (O' : fold_case c < fold_case d <-> h < h' \/ (h = h' /\ l < l')) by (rewrite O; lia).
      rewrite O'. tauto.
Qed.

(** ** The codes *)
Definition code_matches (c : N) : bool :=
  match sort_code (fold_case c) with
  | Some k => let '(h, l) := encode_char c in (h =? k / 256) && (l =? k mod 256)
  | None => let '(h, l) := encode_char c in (h =? 0) && (l =? 0)
  end.
Lemma encode_code c : encode_char c = match sort_code (fold_case c) with Some k => (k / 256, k mod 256) | None => (0, 0) end.
Proof.
  assert (H : code_matches c = true).
  { destruct (N.ltb_spec c 256).
    - refine (all_bytes code_matches _ c H). vm_compute. reflexivity.
    - unfold code_matches. rewrite table_find_big by lia. unfold fold_case. replace ((65 <=? c) && (c <=? 90)) with false by lia.
      unfold sort_code. rewrite (proj2 (N.eqb_neq c 0)), (proj2 (N.eqb_neq c 32)), (proj2 (N.eqb_neq c 95)) by lia.
      replace ((97 <=? c) && (c <=? 122)) with false by lia. reflexivity. }
  unfold code_matches in H. destruct (sort_code (fold_case c)), (encode_char c) as [h l]; apply andb_true_iff in H as [H1 H2];
    apply N.eqb_eq in H1; apply N.eqb_eq in H2; congruence.
Qed.

Lemma table_codes : Forall (fun e => match e with (h, l, c) => sort_code c = Some (256 * h + l) /\ l < 256 end) ENCODING_MAPPING.
Proof. repeat constructor. Qed.
Definition in_table (c : N) : bool :=
  match sort_code c with
  | Some k => existsb (fun e => match e with (h, l, ch) => (h =? k / 256) && (l =? k mod 256) && (ch =? c) end) ENCODING_MAPPING
  | None => true
  end.
Lemma code_small c k : sort_code c = Some k -> c < 256.
Proof.
  unfold sort_code. destruct (N.eqb_spec c 0); [lia|]. destruct (N.eqb_spec c 32); [lia|]. destruct (N.eqb_spec c 95); [lia|].
  destruct ((97 <=? c) && (c <=? 122)) eqn:E; [lia|discriminate].
Qed.
Lemma code_in_table c k : sort_code c = Some k -> In (k / 256, k mod 256, c) ENCODING_MAPPING.
Proof.
  intros H. assert (T : in_table c = true).
  { apply (all_bytes in_table); [vm_compute; reflexivity|eapply code_small; eauto]. }
  unfold in_table in T. rewrite H in T. apply existsb_exists in T as ([[h l] ch] & Hi & T).
  apply andb_true_iff in T as [T T3]. apply andb_true_iff in T as [T1 T2].
  apply N.eqb_eq in T1. apply N.eqb_eq in T2. apply N.eqb_eq in T3. now subst.
Qed.
Lemma table_keys : NoDup (map (fun e => 256 * fst (fst e) + snd (fst e)) ENCODING_MAPPING).
Proof. repeat (constructor; [vm_compute; intuition discriminate|]). constructor. Qed.
Lemma code_unique c d k : sort_code c = Some k -> sort_code d = Some k -> c = d.
Proof.
  intros H1 H2. apply code_in_table in H1. apply code_in_table in H2.
  pose proof table_keys as K. revert H1 H2 K. generalize ENCODING_MAPPING. intros t H1 H2 K.
  induction t as [|e t IH]; [destruct H1|]. cbn [map] in K. inversion K as [|? ? K1 K2]; subst.
  destruct H1 as [->|H1], H2 as [H2|H2]; [congruence| | |auto].
  - exfalso. apply K1. apply in_map_iff. exists (k / 256, k mod 256, d). auto.
  - subst e. exfalso. apply K1. apply in_map_iff. exists (k / 256, k mod 256, c). auto.
Qed.
Lemma decode_code h l c : h < 256 -> l < 256 -> sort_code c = Some (256 * h + l) -> decode_char h l = c.
Proof.
  intros Hh Hl H. unfold decode_char. destruct (find _ ENCODING_MAPPING) as [[[h' l'] c']|] eqn:F.
  - apply find_some in F as [F1 F2]. apply andb_true_iff in F2 as [F2 F3]. apply N.eqb_eq in F2. apply N.eqb_eq in F3. subst.
    pose proof table_codes as T. rewrite Forall_forall in T. specialize (T _ F1). cbn in T. destruct T as [T _]. eapply code_unique; eauto.
  - exfalso. apply code_in_table in H. pose proof (find_none _ _ F _ H) as N0. cbv beta iota in N0.
    replace ((256 * h + l) / 256) with h in N0 by (apply (N.div_unique _ 256 h l); lia).
    replace ((256 * h + l) mod 256) with l in N0 by (apply (N.mod_unique _ 256 h l); lia).
    rewrite !N.eqb_refl in N0. discriminate.
Qed.
Lemma decode_other h l : (forall c, sort_code c <> Some (256 * h + l)) -> decode_char h l = 63.
Proof.
  intros H. unfold decode_char. destruct (find _ ENCODING_MAPPING) as [[[h' l'] c']|] eqn:F; auto.
  apply find_some in F as [F1 F2]. apply andb_true_iff in F2 as [F2 F3]. apply N.eqb_eq in F2. apply N.eqb_eq in F3. subst.
  pose proof table_codes as T. rewrite Forall_forall in T. specialize (T _ F1). cbn in T. destruct T as [T _]. now elim (H c').
Qed.
Lemma code_dec k : (exists c, sort_code c = Some k) \/ forall c, sort_code c <> Some k.
Proof.
  destruct (existsb (fun e => match sort_code (snd e) with Some k' => k' =? k | None => false end) ENCODING_MAPPING) eqn:X.
  - apply existsb_exists in X as (e & _ & E). destruct (sort_code (snd e)) as [k'|] eqn:S; [|discriminate]. apply N.eqb_eq in E. subst. eauto.
  - right. intros c H. pose proof (code_in_table _ _ H) as I.
    assert (Y : existsb (fun e => match sort_code (snd e) with Some k' => k' =? k | None => false end) ENCODING_MAPPING = true).
    { apply existsb_exists. eexists. split; [exact I|]. cbn [snd]. rewrite H. apply N.eqb_refl. }
    congruence.
Qed.
Lemma decode_stands : forall n bs, (length bs <= n)%nat -> bytes bs -> stand_for bs (decode_pairs bs).
Proof.
  induction n as [|n IH]; intros bs L B; [destruct bs; [constructor|cbn in L; lia]|].
  destruct bs as [|h [|l bs]]; [constructor|constructor|]. cbn [decode_pairs]. cbn in L.
  inversion B as [|? ? B1 B']; subst. inversion B' as [|? ? B2 B'']; subst.
  destruct (code_dec (256 * h + l)) as [(c & H)|H].
  - rewrite (decode_code h l c) by auto. constructor; auto. apply IH; [lia|auto].
  - rewrite (decode_other h l) by auto. apply StandOther; auto. apply IH; [lia|auto].
Qed.
Lemma stands_unique bs s : bytes bs -> stand_for bs s -> s = decode_pairs bs.
Proof.
  intros B H. induction H as [|b|h l c bs s H1 H IH|h l bs s H1 H IH]; auto; cbn [decode_pairs];
    inversion B as [|? ? B1 B']; subst; inversion B' as [|? ? B2 B'']; subst; rewrite IH by auto; f_equal.
  - symmetry. now apply decode_code.
  - symmetry. now apply decode_other.
Qed.
Lemma strip_nul_total s : strip_nul s = Panic \/ exists t, strip_nul s = Ok t.
Proof.
  induction s as [|c s IH]; [now left|]. cbn [strip_nul]. destruct s as [|d s].
  - destruct (c =? 0); eauto.
  - destruct IH as [->|(t & ->)]; [now left|right; eexists; reflexivity].
Qed.
