(** Proofs about compiled calculations and file locations. *)
From Coq Require Import Ascii String NArith ZArith List Bool Lia.
From Verif Require Import Prelude PreludeFacts Utf8 Utf8Facts EncodingModel EncodingSpec EncodingProofs InstrModel ComponentModel DecompModel DecompCalcSpec.
Import ListNotations.
Local Open Scope N_scope.

Lemma cipher_ascii s : ascii s -> ascii (cipher s).
Proof.
  intros H. apply Forall_forall. intros x Hx. apply in_map_iff in Hx as (c & <- & Hc).
  unfold ascii in H. rewrite Forall_forall in H. apply H in Hc.
  assert (A : N.lxor c 90 / 2 ^ 7 = 0).
  { rewrite <- N.shiftr_div_pow2, N.shiftr_lxor, !N.shiftr_div_pow2. rewrite N.div_small by (cbn; lia). reflexivity. }
  apply N.div_small_iff in A; [exact A|discriminate].
Qed.

Lemma cipher_twice s : cipher (cipher s) = s.
Proof.
  unfold cipher. rewrite map_map. rewrite <- (map_id s) at 2. apply map_ext. intros c.
  now rewrite N.lxor_assoc, N.lxor_nilpotent, N.lxor_0_r.
Qed.

Lemma decrypt_cipher s : ascii s -> fm_string_decrypt (utf8 (cipher s)) = s.
Proof.
  intros H. unfold fm_string_decrypt. rewrite utf8_ascii by now apply cipher_ascii.
  change (map _ (cipher s)) with (cipher (cipher s)). now rewrite cipher_twice, from_utf8_ascii.
Qed.

Lemma decimal_dec3 n : n < 256 -> decimal n = dec3 n.
Proof.
  intros H. assert (A : all_below 256 (fun n => if list_eq_dec N.eq_dec (decimal n) (dec3 n) then true else false) = true)
    by (vm_compute; reflexivity).
  pose proof (all_bytes _ A n H) as B. cbv beta in B. destruct (list_eq_dec _ _ _); congruence.
Qed.

Lemma lenN_cipher s : lenN (cipher s) = lenN s.
Proof. unfold lenN, cipher. now rewrite map_length. Qed.

Lemma take_exact_app a b : take_exact (lenN a) (a ++ b) = Ok (a, b).
Proof.
  unfold take_exact. rewrite lenN_app. replace (lenN a <=? lenN a + lenN b) with true by lia.
  replace (N.to_nat (lenN a)) with (length a) by (unfold lenN; lia).
  rewrite firstn_app, skipn_app, Nat.sub_diag, firstn_all, skipn_all. cbn. now rewrite app_nil_r.
Qed.

Lemma calc_unknown fuel b rest r : ~ In b leaders -> calc_loop (S fuel) (b :: rest) r = calc_loop fuel rest r.
Proof.
  intros H. cbn [calc_loop]. destruct b as [|b]; [reflexivity|].
  do 8 (try (destruct b as [b|b|]; [| |try reflexivity; exfalso; apply H; vm_compute; tauto])); try reflexivity.
  all: exfalso; apply H; vm_compute; tauto.
Qed.

Lemma calc_token fuel t rest r : token_ok t ->
  calc_loop (S fuel) (token_bytes t ++ rest) r = calc_loop fuel rest (r ++ token_text t).
Proof.
  destruct t as [b text|b text| |before n after|s|s|b|b|b]; cbn [token_ok token_bytes token_text]; intros H.
  - cbn [In plain_tokens] in H. repeat (destruct H as [H|H]; [injection H as <- <-; reflexivity|]). contradiction.
  - cbn [In get_args] in H. repeat (destruct H as [H|H]; [injection H as <- <-; reflexivity|]). contradiction.
  - reflexivity.
  - destruct H as (H1 & H2 & H3). cbn [app calc_loop]. rewrite <- app_assoc. cbn [app].
    unfold at_. rewrite nthN_app_r by lia. rewrite H1. change (8 - 8) with 0. rewrite nthN_0. cbn [unwrap bind].
    rewrite decimal_dec3 by auto. f_equal.
    replace (before ++ n :: after ++ rest) with ((before ++ n :: after) ++ rest) by (rewrite <- app_assoc; reflexivity).
    assert (L : length (before ++ n :: after) = 19%nat) by (rewrite app_length; cbn [length]; unfold lenN in *; lia).
    rewrite <- L, skipn_app, skipn_all, Nat.sub_diag. reflexivity.
  - destruct H as [H1 H2]. cbn [app calc_loop]. rewrite <- lenN_cipher, take_exact_app. cbn [bind].
    now rewrite decrypt_cipher.
  - destruct H as [H1 H2]. cbn [app calc_loop]. rewrite <- lenN_cipher, take_exact_app. cbn [bind].
    now rewrite decrypt_cipher.
  - rewrite app_nil_r. cbn [app]. now apply calc_unknown.
  - rewrite app_nil_r. cbn [app calc_loop]. f_equal. rewrite <- (app_nil_r r) at 2. f_equal.
    unfold get_name. destruct b as [|b]; [reflexivity|].
    do 7 (try (destruct b as [b|b|]; [| |try reflexivity; exfalso; apply H; vm_compute; tauto])); try reflexivity.
    all: exfalso; apply H; vm_compute; tauto.
  - rewrite app_nil_r. cbn [app calc_loop]. f_equal. rewrite <- (app_nil_r r) at 2. f_equal.
    unfold intrinsic_name. destruct b as [|[[b|b|]|b|]]; try reflexivity. congruence.
Qed.

Lemma calc_tokens ts : forall k rest r, Forall token_ok ts ->
  calc_loop (length ts + k) (flat_map token_bytes ts ++ rest) r = calc_loop k rest (r ++ flat_map token_text ts).
Proof.
  induction ts as [|t ts IH]; intros k rest r H.
  - cbn. now rewrite app_nil_r.
  - inversion H; subst. cbn [length plus flat_map]. rewrite <- app_assoc, calc_token by auto. rewrite IH by auto.
    now rewrite app_assoc.
Qed.

Lemma token_bytes_pos t : (1 <= length (token_bytes t))%nat.
Proof. destruct t; cbn; lia. Qed.

Lemma tokens_len ts : (length ts <= length (flat_map token_bytes ts))%nat.
Proof.
  induction ts as [|t ts IH]; cbn [length flat_map]; [lia|]. rewrite app_length. pose proof (token_bytes_pos t). lia.
Qed.

Lemma calc_roundtrip ts : Forall token_ok ts ->
  decompile_calculation (flat_map token_bytes ts) = Ok (flat_map token_text ts).
Proof.
  intros H. unfold decompile_calculation. pose proof (tokens_len ts) as L.
  remember (S (length (flat_map token_bytes ts)) - length ts)%nat as k.
  replace (S (length (flat_map token_bytes ts))) with (length ts + k)%nat by lia.
  rewrite <- (app_nil_r (flat_map token_bytes ts)) at 1. rewrite calc_tokens by auto.
  destruct k; [lia|]. reflexivity.
Qed.

(** A token cut off in the middle. *)
Definition cut_short (t : ctoken) (p : list N) : Prop :=
  p <> [] /\ (exists q, q <> [] /\ p ++ q = token_bytes t) /\
  match t with CNumber _ _ _ => lenN p < 10 | _ => True end.

Lemma two_cut {A} (p q : list A) a b : p <> [] -> q <> [] -> p ++ q = [a; b] -> p = [a].
Proof.
  destruct p as [|x [|y p]]; cbn; try congruence.
  intros _ Hq E. injection E as -> -> E. destruct p, q; cbn in E; try discriminate. congruence.
Qed.

Lemma take_exact_short n l : lenN l < n -> take_exact n l = Panic.
Proof. intros H. unfold take_exact. now replace (n <=? lenN l) with false by lia. Qed.

Lemma calc_cut fuel t p r : token_ok t -> cut_short t p -> calc_loop (S fuel) p r = Panic.
Proof.
  intros H (Hp & (q & Hq & E) & Hn).
  destruct t as [b text|b text| |before n after|s|s|b|b|b]; cbn [token_bytes] in E.
  1, 7: destruct p as [|x p]; [congruence|]; destruct p, q; cbn in E; congruence.
  1, 2, 6, 7: apply two_cut in E; auto; subst p; reflexivity.
  - destruct p as [|x p]; [congruence|]. cbn [app] in E. injection E as -> E. cbn [calc_loop]. unfold at_.
    rewrite lenN_cons in Hn. replace (nthN p 8) with (@None N) by (symmetry; apply nthN_None; lia). reflexivity.
  - destruct p as [|x p]; [congruence|]. cbn [app] in E. injection E as -> E. cbn [calc_loop].
    destruct p as [|y p]; [reflexivity|]. cbn [app] in E. injection E as -> E.
    rewrite take_exact_short; [reflexivity|]. rewrite <- (lenN_cipher s), <- E, lenN_app.
    destruct q; [congruence|]. rewrite lenN_cons. lia.
  - destruct p as [|x p]; [congruence|]. cbn [app] in E. injection E as -> E. cbn [calc_loop].
    destruct p as [|y p]; [reflexivity|]. cbn [app] in E. injection E as -> E.
    rewrite take_exact_short; [reflexivity|]. rewrite <- (lenN_cipher s), <- E, lenN_app.
    destruct q; [congruence|]. rewrite lenN_cons. lia.
Qed.

Lemma calc_truncated ts t p : Forall token_ok ts -> token_ok t -> cut_short t p ->
  decompile_calculation (flat_map token_bytes ts ++ p) = Panic.
Proof.
  intros H Ht Hc. unfold decompile_calculation. pose proof (tokens_len ts) as L.
  assert (P : (1 <= length p)%nat) by (destruct Hc as (Hp & _); destruct p; [congruence|cbn; lia]).
  rewrite app_length.
  remember (S (length (flat_map token_bytes ts) + length p) - length ts)%nat as k.
  replace (S (length (flat_map token_bytes ts) + length p)) with (length ts + k)%nat by lia.
  rewrite calc_tokens by auto. destruct k; [lia|]. eapply calc_cut; eauto.
Qed.

Lemma lenN_0 {A} (l : list A) : lenN l = 0 -> l = [].
Proof. destruct l; auto. rewrite lenN_cons. lia. Qed.

Lemma app_inj_len {A} (a b c d : list A) : lenN a = lenN c -> a ++ b = c ++ d -> a = c /\ b = d.
Proof.
  revert c. induction a as [|x a IH]; intros [|y c] L E; rewrite ?lenN_cons in L; try (change (lenN (@nil A)) with 0 in L; lia).
  { split; [reflexivity|exact E]. }
  cbn [app] in E. injection E as -> E. apply IH in E as [-> ->]; auto. lia.
Qed.

(** * File locations *)

Lemma path_codes_byte b : path_plain b = path_byte b.
Proof.
  unfold path_plain, path_codes, path_byte. cbn [find fst snd].
  rewrite (N.eqb_sym 50), (N.eqb_sym 65), (N.eqb_sym 218), (N.eqb_sym 219).
  destruct (b =? 50); auto. destruct (b =? 65); auto. destruct (b =? 218); auto. destruct (b =? 219); auto.
Qed.

(** The marker is found at its first place. *)
Lemma find_marker_some l : forall i m, find_marker l i = Some m ->
  exists x y, l = x ++ 65 :: 50 :: y /\ m = i + lenN x /\ (forall u v, x ++ [65] <> u ++ [65; 50] ++ v).
Proof.
  induction l as [|a l IH]; intros i m H; [discriminate|]. cbn [find_marker] in H. destruct l as [|b l]; [discriminate|].
  destruct ((a =? 65) && (b =? 50)) eqn:E.
  - injection H as <-. exists [], l. assert (a = 65 /\ b = 50) as [-> ->] by lia. split; [reflexivity|]. split.
    + change (lenN (@nil N)) with 0. lia.
    + intros [|u [|u2 us]] v Hc; discriminate.
  - apply IH in H as (x & y & Hl & Hm & Hx). exists (a :: x), y. rewrite Hl. split; [reflexivity|]. split.
    + rewrite lenN_cons. lia.
    + intros [|u us] v Hc; cbn [app] in Hc.
      * injection Hc as -> Hc. destruct x as [|x1 x]; cbn [app] in *.
        -- discriminate.
        -- injection Hc as -> Hc. injection Hl as -> _. cbn in E. discriminate.
      * injection Hc as -> Hc. now apply Hx in Hc.
Qed.

Lemma find_marker_none l : forall i, find_marker l i = None -> forall x y, l <> x ++ 65 :: 50 :: y.
Proof.
  induction l as [|a l IH]; intros i H x y E; [destruct x; discriminate|].
  cbn [find_marker] in H. destruct l as [|b l].
  - destruct x as [|x1 [|x2 x]]; discriminate.
  - destruct ((a =? 65) && (b =? 50)) eqn:E2; [discriminate|]. destruct x as [|x1 x].
    + cbn [app] in E. injection E as -> -> _. cbn in E2. discriminate.
    + cbn [app] in E. injection E as _ E. eapply IH; eauto.
Qed.

Lemma find_marker_at x : forall i y, (forall u v, x ++ [65] <> u ++ [65; 50] ++ v) -> find_marker (x ++ 65 :: 50 :: y) i = Some (i + lenN x).
Proof.
  intros i y H. destruct (find_marker (x ++ 65 :: 50 :: y) i) as [m|] eqn:E.
  - apply find_marker_some in E as (x' & y' & El & -> & Hx'). f_equal. f_equal. 
    revert x' El Hx' H. clear. induction x as [|a x IH]; intros [|b x'] El H1 H2; auto.
    + cbn [app] in El. destruct x' as [|c x']; cbn [app] in El.
      * discriminate.
      * injection El as <- <- _. exfalso. apply (H1 [] (x' ++ [65])). reflexivity.
    + cbn [app] in El. destruct x as [|c x]; cbn [app] in El.
      * discriminate.
      * injection El as -> -> _. exfalso. apply (H2 [] (x ++ [65])). reflexivity.
    + cbn [app] in El. injection El as -> El. rewrite !lenN_cons. f_equal. apply IH; auto.
      * intros u v E. apply (H1 (b :: u) v). cbn [app]. now rewrite E.
      * intros u v E. apply (H2 (b :: u) v). cbn [app]. now rewrite E.
  - exfalso. eapply find_marker_none; eauto.
Qed.

Lemma flat_path l : flat_map path_plain l = flat_map path_byte l.
Proof. induction l as [|b l IH]; cbn [flat_map]; auto. now rewrite IH, path_codes_byte. Qed.

Lemma location_found bs loc : located bs loc -> location_from_bytes bs = Ok loc.
Proof.
  intros (head & t0 & ty & path & file & rest & -> & H4 & Hm & ->). rewrite flat_path.
  unfold location_from_bytes.
  replace (slice _ 0 4) with (Ok head) by (symmetry; apply (slice_mid [] head); rewrite ?H4; reflexivity). cbn [bind].
  set (body := [t0] ++ ty ++ [lenN path] ++ [65; 50] ++ path ++ [lenN file] ++ file ++ rest).
  replace (slice (head ++ body) 4 (lenN (head ++ body))) with (Ok body).
  2: { symmetry. pose proof (slice_mid head body [] 4 (lenN (head ++ body))) as X. rewrite app_nil_r in X.
       apply X; auto. apply lenN_app. }
  cbn [bind].
  assert (F : find_marker body 0 = Some (2 + lenN ty)).
  { assert (EB : body = ([t0] ++ ty ++ [lenN path]) ++ 65 :: 50 :: (path ++ [lenN file] ++ file ++ rest)).
    { unfold body. rewrite <- !app_assoc. reflexivity. }
    rewrite EB, find_marker_at.
    - rewrite !lenN_app. change (lenN [t0]) with 1. change (lenN [lenN path]) with 1. f_equal. lia.
    - intros u v E. apply (Hm u v). rewrite <- E. rewrite <- !app_assoc. reflexivity. }
  rewrite F. unfold subU at 1. replace (1 <=? 2 + lenN ty) with true by lia. cbn [bind].
  replace (2 + lenN ty - 1) with (lenN ([t0] ++ ty)) by (rewrite lenN_app; change (lenN [t0]) with 1; lia).
  assert (A : at_ body (lenN ([t0] ++ ty)) = Ok (lenN path)).
  { apply at_ok. unfold body. rewrite app_assoc. apply nthN_app_len. }
  rewrite A. cbn [bind].
  replace (slice body (lenN ([t0] ++ ty) + 3) (lenN ([t0] ++ ty) + 3 + lenN path)) with (Ok path).
  2: { symmetry. unfold body.
       replace ([t0] ++ ty ++ [lenN path] ++ [65; 50] ++ path ++ [lenN file] ++ file ++ rest)
         with (([t0] ++ ty ++ [lenN path] ++ [65; 50]) ++ path ++ ([lenN file] ++ file ++ rest)) by (rewrite <- !app_assoc; reflexivity).
       apply slice_mid; rewrite !lenN_app; change (lenN [lenN path]) with 1; change (lenN [65; 50]) with 2; lia. }
  cbn [bind]. set (j := lenN ([t0] ++ ty) + 3 + lenN path).
  replace (j + 1 - 1) with j by lia.
  assert (EB : body = ([t0] ++ ty ++ [lenN path] ++ [65; 50] ++ path) ++ lenN file :: file ++ rest)
    by (unfold body; rewrite <- !app_assoc; reflexivity).
  assert (J : j = lenN ([t0] ++ ty ++ [lenN path] ++ [65; 50] ++ path)).
  { subst j. rewrite !lenN_app; change (lenN [lenN path]) with 1; change (lenN [65; 50]) with 2; lia. }
  assert (A2 : at_ body j = Ok (lenN file)) by (apply at_ok; rewrite EB, J; apply nthN_app_len).
  rewrite A2. cbn [bind].
  replace (slice body (j + 1) (j + 1 + lenN file)) with (Ok file).
  2: { symmetry. rewrite EB.
       replace (([t0] ++ ty ++ [lenN path] ++ [65; 50] ++ path) ++ lenN file :: file ++ rest)
         with ((([t0] ++ ty ++ [lenN path] ++ [65; 50] ++ path) ++ [lenN file]) ++ file ++ rest) by (rewrite <- !app_assoc; reflexivity).
       apply slice_mid; rewrite lenN_app, <- J; change (lenN [lenN file]) with 1; lia. }
  cbn [bind].
  replace (slice body 1 (lenN ([t0] ++ ty))) with (Ok ty); [reflexivity|].
  symmetry. unfold body. apply slice_mid; [reflexivity|apply lenN_app].
Qed.

Lemma location_inv bs loc : location_from_bytes bs = Ok loc -> located bs loc.
Proof.
  unfold location_from_bytes. intros H.
  destruct (slice bs 0 4) as [head| |] eqn:S0; try discriminate. cbn [bind] in H.
  destruct (slice bs 4 (lenN bs)) as [body| |] eqn:S1; try discriminate. cbn [bind] in H.
  assert (EB : bs = head ++ body /\ lenN head = 4).
  { apply slice_split in S0 as (p & q & -> & L0 & L1 & _). apply lenN_0 in L0. subst p. cbn [app] in *.
    assert (L4 : lenN head = 4) by lia. split; auto. f_equal.
    assert (S1' : slice (head ++ q) 4 (lenN (head ++ q)) = Ok q).
    { pose proof (slice_mid head q [] 4 (lenN (head ++ q))) as X. rewrite app_nil_r in X. apply X; auto. apply lenN_app. }
    congruence. }
  destruct EB as [-> L4]. clear S0 S1.
  unfold subU at 1 in H. destruct (find_marker body 0) as [m|] eqn:F; [|discriminate].
  destruct (N.leb_spec 1 m) as [Hm|]; [|discriminate]. cbn [bind] in H.
  apply find_marker_some in F as (x & y & -> & Em & Hx). rewrite N.add_0_l in Em. subst m.
  destruct (at_ _ (lenN x - 1)) as [plen| |] eqn:A; try discriminate. cbn [bind] in H.
  destruct (slice _ (lenN x - 1 + 3) _) as [path| |] eqn:S2; try discriminate. cbn [bind] in H.
  destruct (at_ _ (lenN x - 1 + 3 + plen + 1 - 1)) as [flen| |] eqn:A2; try discriminate. cbn [bind] in H.
  destruct (slice _ (lenN x - 1 + 3 + plen + 1) _) as [file| |] eqn:S3; try discriminate. cbn [bind] in H.
  destruct (slice _ 1 (lenN x - 1)) as [ty| |] eqn:S4; try discriminate. cbn [bind] in H.
  injection H as <-.
  (* the part before the marker *)
  assert (L1 : 1 <= lenN x - 1) by (apply slice_ok in S4 as [? _]; lia).
  destruct x as [|t0 x0]; [change (lenN (@nil N)) with 0 in L1; lia|].
  destruct x0 as [|x1 x0] using rev_ind; [change (lenN [t0]) with 1 in L1; lia|]. clear IHx0. rewrite lenN_cons, lenN_app in *.
  change (lenN [x1]) with 1 in *.
  replace (1 + (lenN x0 + 1) - 1) with (lenN (t0 :: x0)) in * by (rewrite lenN_cons; lia).
  assert (E1 : (t0 :: x0 ++ [x1]) ++ 65 :: 50 :: y = (t0 :: x0) ++ x1 :: 65 :: 50 :: y) by (cbn [app]; rewrite <- app_assoc; reflexivity).
  rewrite E1 in *. clear E1. apply at_ok in A. rewrite (nthN_app_len (t0 :: x0)) in A. injection A as ->.
  (* the path *)
  apply slice_split in S2 as (p2 & q2 & E2 & L2 & L2' & _).
  assert (P2 : (t0 :: x0) ++ plen :: 65 :: 50 :: y = (t0 :: x0 ++ [plen; 65; 50]) ++ y) by (cbn [app]; rewrite <- app_assoc; reflexivity).
  rewrite P2 in E2. 
  assert (E2' : (t0 :: x0 ++ [plen; 65; 50]) = p2 /\ y = path ++ q2).
  { apply app_inj_len; auto. rewrite L2. rewrite !lenN_cons, lenN_app. change (lenN [plen; 65; 50]) with 3. lia. }
  destruct E2' as [<- ->].
  assert (L2'' : lenN path = plen) by lia.
  (* the file *)
  replace (lenN (t0 :: x0) + 3 + plen + 1 - 1) with (lenN (t0 :: x0) + 3 + plen) in A2 by lia.
  apply at_ok in A2. rewrite P2 in A2.
  assert (P3 : (t0 :: x0 ++ [plen; 65; 50]) ++ path ++ q2 = ((t0 :: x0 ++ [plen; 65; 50]) ++ path) ++ q2) by (rewrite app_assoc; reflexivity).
  rewrite P3 in A2. rewrite nthN_app_r in A2 by (rewrite lenN_app, L2; lia).
  rewrite lenN_app, L2 in A2. replace (lenN (t0 :: x0) + 3 + plen - (lenN (t0 :: x0) + 3 + lenN path)) with 0 in A2 by lia.
  destruct q2 as [|fl q2]; [discriminate|]. rewrite nthN_0 in A2. injection A2 as ->.
  apply slice_split in S3 as (p3 & q3 & E3 & L3 & L3' & _).
  rewrite P2, P3 in E3.
  assert (P4 : ((t0 :: x0 ++ [plen; 65; 50]) ++ path) ++ flen :: q2 = (((t0 :: x0 ++ [plen; 65; 50]) ++ path) ++ [flen]) ++ q2)
    by (rewrite <- (app_assoc _ [flen]); reflexivity).
  rewrite P4 in E3.
  assert (E3' : ((t0 :: x0 ++ [plen; 65; 50]) ++ path) ++ [flen] = p3 /\ q2 = file ++ q3).
  { apply app_inj_len; auto. rewrite L3, lenN_app, lenN_app, L2. change (lenN [flen]) with 1. lia. }
  destruct E3' as [<- ->].
  assert (L3'' : lenN file = flen) by lia.
  (* the type *)
  assert (T : ty = x0).
  { assert (X : slice ((t0 :: x0) ++ plen :: 65 :: 50 :: path ++ flen :: file ++ q3) 1 (lenN (t0 :: x0)) = Ok x0)
      by (apply (slice_mid [t0] x0); [reflexivity|rewrite lenN_cons; reflexivity]).
    congruence. }
  subst ty. exists head, t0, x0, path, file, q3. rewrite L2'', L3''. split; [|split; [auto|split]].
  - f_equal.
  - intros u v E. apply (Hx u v). cbn [app] in *. rewrite <- E. rewrite <- app_assoc. reflexivity.
  - now rewrite flat_path.
Qed.
