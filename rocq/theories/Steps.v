(** Proofs about the steps of scripts in arbitrary files. *)
From Coq Require Import Ascii String NArith Arith List Bool Lia Permutation Sorting.Sorted.
From Verif Require Import Prelude PreludeFacts Utf8 EncodingModel ChunkModel InstrModel ComponentModel DecompModel DecompSpec DecompCalcSpec DecompCalc
  DecompScriptSpec DecompScript HistorySpec History History2 History3 StepsSpec.
Import ListNotations.
Local Open Scope N_scope.

(** ** Calculations *)
Lemma decimal_any n : decimal n = dec3 n.
Proof.
  unfold decimal, dec3. destruct (N.ltb_spec n 10) as [H|H].
  - rewrite (N.div_small n 100), (N.div_small n 10), (N.mod_small n 10) by lia. change (0 mod 10) with 0. destruct n; reflexivity.
  - destruct (N.ltb_spec n 100) as [H2|H2].
    + rewrite (N.div_small n 100) by lia. assert (D : n / 10 < 10) by (apply N.div_lt_upper_bound; lia). rewrite (N.mod_small (n / 10)) by lia.
      assert (P : n / 10 <> 0) by (intros E; apply N.div_small_iff in E; lia).
      cbn [map]. destruct (n / 10) eqn:E; [contradiction|]. reflexivity.
    + assert (P : n / 100 <> 0) by (intros E; apply N.div_small_iff in E; lia). destruct (n / 100) eqn:E; [contradiction|]. reflexivity.
Qed.

Lemma take_exact_inv n l a b : take_exact n l = Ok (a, b) -> l = a ++ b /\ n = lenN a.
Proof.
  unfold take_exact. destruct (N.leb_spec n (lenN l)) as [H|H]; [|discriminate]. intros [= <- <-]. split; [symmetry; apply firstn_skipn|].
  unfold lenN in *. rewrite firstn_length. lia.
Qed.

Lemma calc_said d c : calc_says d c -> forall fuel r, (length d < fuel)%nat -> calc_loop fuel d r = Ok (r ++ c).
Proof.
  induction 1 as [|b t d c I H IH|b d c I H IH|b t d c I H IH|b d c I H IH|d c H IH|b d c I H IH|before n after d c L A H IH|raw d c H IH|raw d c H IH];
    intros fuel r L'; (destruct fuel as [|fuel]; [cbn [length] in L'; lia|]); cbn [length] in L'.
  - cbn [calc_loop]. now rewrite app_nil_r.
  - rewrite app_assoc. rewrite <- IH with (fuel := fuel) by lia. exact (calc_token fuel (CPlain b t) d r I).
  - rewrite calc_unknown by exact I. apply IH. lia.
  - rewrite app_assoc. rewrite <- IH with (fuel := fuel) by lia. exact (calc_token fuel (CGetArg b t) d r I).
  - rewrite <- IH with (fuel := fuel) by lia. rewrite <- (app_nil_r r) at 2. exact (calc_token fuel (CUnknownGet b) d r I).
  - rewrite app_assoc. rewrite <- IH with (fuel := fuel) by lia. exact (calc_token fuel CChar d r I).
  - rewrite <- IH with (fuel := fuel) by lia. rewrite <- (app_nil_r r) at 2. exact (calc_token fuel (CUnknownFunction b) d r I).
  - cbn [calc_loop]. unfold at_. rewrite nthN_app_r by lia. rewrite L. change (8 - 8) with 0. rewrite nthN_0. cbn [unwrap bind].
    rewrite app_assoc, decimal_any. rewrite !app_length in L'. cbn [length] in L'. rewrite app_length in L'.
    rewrite <- IH with (fuel := fuel) by lia. f_equal.
    replace (before ++ n :: after ++ d) with ((before ++ n :: after) ++ d) by (rewrite <- app_assoc; reflexivity).
    assert (LL : length (before ++ n :: after) = (9 + length after)%nat) by (rewrite app_length; cbn [length]; unfold lenN in L; lia).
    rewrite skipn_app, LL. destruct A as [A|[A ->]].
    + assert (A' : length after = 10%nat) by (unfold lenN in A; lia). rewrite A'. rewrite skipn_all2 by lia. reflexivity.
    + rewrite skipn_nil, app_nil_r. apply skipn_all2. unfold lenN in A. lia.
  - cbn [calc_loop]. rewrite take_exact_app. cbn [bind]. rewrite app_length in L'. rewrite IH by lia. unfold deciphered. now rewrite <- !app_assoc.
  - cbn [calc_loop]. rewrite take_exact_app. cbn [bind]. rewrite app_length in L'. rewrite IH by lia. unfold deciphered. now rewrite <- !app_assoc.
Qed.

Lemma calc_loop_inv fuel : forall l r x, calc_loop fuel l r = Ok x -> exists c, x = r ++ c /\ calc_says l c.
Proof.
  induction fuel as [|fuel IH]; intros l r x H; [discriminate|].
  destruct l as [|b l]; [cbn [calc_loop] in H; injection H as <-; exists []; split; [now rewrite app_nil_r|constructor]|].
  destruct (in_dec N.eq_dec b leaders) as [I|I].
  2: { rewrite calc_unknown in H by exact I. destruct (IH _ _ _ H) as (c & -> & S). exists c. split; [reflexivity|]. now apply CsNone. }
  assert (PL : forall b t, In (b, t) plain_tokens -> calc_loop fuel l (r ++ t) = Ok x -> exists c, x = r ++ c /\ calc_says (b :: l) c).
  { intros b' t I' H'. destruct (IH _ _ _ H') as (c & -> & S). exists (t ++ c). split; [now rewrite app_assoc|]. now apply CsPlain. }
  unfold leaders in I. apply in_app_iff in I as [I|I].
  - apply in_map_iff in I as ([b' t] & E & I). cbn [fst] in E. subst b'.
    pose proof (calc_token fuel (CPlain b t) l r I) as E. cbn [token_bytes token_text app] in E. rewrite E in H. exact (PL _ _ I H).
  - cbn [In] in I. destruct I as [<-|[<-|[<-|[<-|[<-|[]]]]]]; cbn [calc_loop] in H.
    + destruct l as [|b l]; [discriminate|]. destruct (in_dec N.eq_dec b (map fst get_args)) as [I|I].
      * apply in_map_iff in I as ([b' t] & E & I). cbn [fst] in E. subst b'. apply IH in H as (c & -> & S). exists (get_name b ++ c). split; [now rewrite app_assoc|].
        assert (E : get_name b = t) by (cbn [In get_args] in I; repeat (destruct I as [I|I]; [injection I as <- <-; reflexivity|]); contradiction).
        rewrite E. now apply CsGet.
      * pose proof (calc_token fuel (CUnknownGet b) l r I) as E. cbn [token_bytes token_text app calc_loop] in E. rewrite E, app_nil_r in H.
        apply IH in H as (c & -> & S). exists c. split; [reflexivity|]. now apply CsGetNone.
    + destruct l as [|b l]; [discriminate|]. destruct (N.eq_dec b 3) as [->|I].
      * apply IH in H as (c & -> & S). exists (lit "Char" ++ c). split; [now rewrite app_assoc|]. now apply CsChar.
      * pose proof (calc_token fuel (CUnknownFunction b) l r I) as E. cbn [token_bytes token_text app calc_loop] in E. rewrite E, app_nil_r in H.
        apply IH in H as (c & -> & S). exists c. split; [reflexivity|]. now apply CsFunctionNone.
    + unfold at_ in H. destruct (nthN l 8) as [n|] eqn:E; [|discriminate]. cbn [unwrap bind] in H.
      apply IH in H as (c & -> & S). exists (decimal n ++ c). split; [now rewrite decimal_any, app_assoc|].
      assert (D : exists before rest, l = before ++ n :: rest /\ lenN before = 8).
      { unfold nthN in E. destruct (8 <? lenN l); [|discriminate]. change (N.to_nat 8) with 8%nat in E. apply nth_error_split in E as (l1 & l2 & -> & E). exists l1, l2. split; [reflexivity|]. unfold lenN. lia. }
      destruct D as (before & rest & -> & L).
      assert (SK : skipn 19 (before ++ n :: rest) = skipn 10 rest).
      { assert (L' : length before = 8%nat) by (unfold lenN in L; lia). rewrite skipn_app, L'. rewrite skipn_all2 by lia. reflexivity. }
      rewrite SK in S. rewrite <- (firstn_skipn 10 rest) at 1. apply CsNumber; [exact L| |exact S].
      destruct (le_lt_dec 10 (length rest)) as [G|G].
      * left. unfold lenN. rewrite firstn_length. lia.
      * right. split; [unfold lenN; rewrite firstn_length; lia|]. apply skipn_all2. lia.
    + destruct l as [|n l]; [discriminate|]. destruct (take_exact n l) as [[t l3]| |] eqn:T; try discriminate. cbn [bind] in H.
      apply take_exact_inv in T as [-> ->]. apply IH in H as (c & -> & S). exists ([34] ++ deciphered t ++ [34] ++ c).
      split; [unfold deciphered; now rewrite <- !app_assoc|]. now apply CsText.
    + destruct l as [|n l]; [discriminate|]. destruct (take_exact n l) as [[t l3]| |] eqn:T; try discriminate. cbn [bind] in H.
      apply take_exact_inv in T as [-> ->]. apply IH in H as (c & -> & S). exists (deciphered t ++ c).
      split; [unfold deciphered; now rewrite <- !app_assoc|]. now apply CsVar.
Qed.

Theorem calc_exact d c : decompile_calculation d = Ok c <-> calc_says d c.
Proof.
  unfold decompile_calculation. split; intros H.
  - apply calc_loop_inv in H as (c' & -> & S). exact S.
  - apply (calc_said _ _ H _ []). lia.
Qed.

(** ** Blocks *)
Lemma slice_inv {A} (l : list A) a b x : slice l a b = Ok x -> exists p q, l = p ++ x ++ q /\ lenN p = a /\ a + lenN x = b.
Proof.
  unfold slice. destruct (_ && _) eqn:E; [|discriminate]. apply andb_true_iff in E as [E1 E2]. apply N.leb_le in E1, E2. intros [= <-].
  exists (firstn (N.to_nat a) l), (skipn (N.to_nat (b - a)) (skipn (N.to_nat a) l)).
  split; [now rewrite !firstn_skipn|]. unfold lenN in *. rewrite !firstn_length, skipn_length. lia.
Qed.

Lemma decode_reads scripts block o : decode_step scripts block = Ok o <-> reads_as (names_of scripts) block o.
Proof.
  split.
  - intros H. destruct (decode_inv _ _ _ H) as (op & Hop & Ho). exists op. split; [exact Hop|]. destruct o as [st|]; [|exact Ho]. split; [exact Ho|].
    revert H. unfold decode_step, at_. rewrite Hop. cbn [unwrap bind]. destruct (nthN INSTRUCTIONMAP op) as [[i|]|]; try discriminate. cbn [unwrap bind].
    intros H. destruct (if instr_eqb i IPerformScript then _ else _) as [sw| |] eqn:SW; try discriminate. cbn [bind] in H.
    destruct (nthN block 0) as [n0|] eqn:Z; try discriminate. cbn [unwrap bind] in H.
    destruct (slice block 2 (n0 + 1)) as [ib| |] eqn:S; try discriminate. cbn [bind] in H. injection H as <-. cbn [opcode step_index switches]. split.
    + apply slice_inv in S as (p & q & -> & L1 & L2). destruct p as [|a [|x [|y p]]]; try (unfold lenN in L1; cbn [length] in L1; lia).
      exists x, ib, q. split; [|reflexivity]. cbn in Z. injection Z as ->. cbn [app]. do 2 f_equal. lia.
    + destruct (instr_eqb i IPerformScript); [|now injection SW as <-].
      destruct (nthN block 8) as [k|]; [|discriminate]. cbn [unwrap bind] in SW. destruct (nget scripts k) as [sc|] eqn:G; [|discriminate].
      cbn [unwrap bind] in SW. injection SW as <-. exists k, (sc_name sc). unfold names_of. rewrite G. auto.
  - intros (op & Hop & Ho). unfold decode_step, at_. rewrite Hop. cbn [unwrap bind]. destruct o as [st|].
    + destruct Ho as (Hn & (x & ib & rest & E & Hi) & Hs).
      assert (M : nthN INSTRUCTIONMAP op = Some (Some (opcode st))).
      { destruct (map_total op) as (o & Ho); [destruct Hn; lia|]. rewrite Ho. f_equal. apply map_exact in Ho.
        destruct o as [i|]; [f_equal; eapply step_number_det; eauto|]. destruct Ho as [_ Ho]. now apply Ho in Hn. }
      rewrite M. cbn [unwrap bind].
      assert (SW : (if instr_eqb (opcode st) IPerformScript
                    then k <- unwrap (nthN block 8) ;; sc <- unwrap (nget scripts k) ;; Ok [sc_name sc] else Ok []) = Ok (switches st)).
      { destruct (instr_eqb _ _).
        - destruct Hs as (k & n & Hk & Hnm & ->). rewrite Hk. cbn [unwrap bind]. unfold names_of in Hnm.
          destruct (nget scripts k); [|discriminate]. cbn in Hnm. injection Hnm as <-. reflexivity.
        - now rewrite Hs. }
      rewrite SW. cbn [bind]. rewrite E. change (nthN ((lenN ib + 1) :: x :: ib ++ rest) 0) with (Some (lenN ib + 1)). cbn [unwrap bind].
      change ((lenN ib + 1) :: x :: ib ++ rest) with ([lenN ib + 1; x] ++ ib ++ rest).
      replace (slice ([lenN ib + 1; x] ++ ib ++ rest) 2 (lenN ib + 1 + 1)) with (Ok ib)
        by (symmetry; apply slice_mid; [reflexivity|change (lenN [lenN ib + 1; x]) with 2; lia]).
      cbn [bind]. rewrite <- Hi. destruct st; reflexivity.
    + destruct Ho as [Hl Ho]. destruct (map_total op) as (o & E2); [lia|]. rewrite E2. cbn [unwrap bind].
      apply map_exact in E2. destruct o; auto. now apply Ho in E2.
Qed.

Lemma reads_det names block o o' : reads_as names block o -> reads_as names block o' -> o = o'.
Proof.
  intros (op & H1 & H2) (op' & H1' & H2'). rewrite H1 in H1'. injection H1' as <-.
  destruct o as [st|], o' as [st'|]; try reflexivity.
  - destruct H2 as (N & (x & ib & rest & E & I) & S), H2' as (N' & (x' & ib' & rest' & E' & I') & S').
    pose proof (step_number_det _ _ _ N N') as O. rewrite E in E'. injection E' as EL -> EA.
    assert (EI : ib = ib') by (apply app_inj_len in EA; [tauto|lia]).
    rewrite <- O in S'.
    assert (SW : switches st = switches st').
    { destruct (instr_eqb (opcode st) IPerformScript); [|congruence]. destruct S as (k & n & K & M & ->), S' as (k' & n' & K' & M' & ->). congruence. }
    destruct st, st'. cbn in *. congruence.
  - destruct H2 as (N & _), H2' as (_ & N'). now apply N' in N.
  - destruct H2 as (_ & N), H2' as (N' & _). now apply N in N'.
Qed.

Lemma cut_chunks_loop fuel : forall d, (length d <= fuel)%nat -> cut d (chunks_loop fuel 28 d).
Proof.
  induction fuel as [|fuel IH]; intros d H; [destruct d; [constructor|cbn [length] in H; lia]|]. cbn [chunks_loop].
  destruct d as [|x d]; [constructor|]. set (l := x :: d) in *.
  destruct (le_lt_dec 28 (length l)) as [G|G].
  - rewrite <- (firstn_skipn 28 l) at 1. apply CutMore; [unfold lenN; rewrite firstn_length; lia|]. apply IH. rewrite skipn_length. lia.
  - rewrite firstn_all2, skipn_all2 by lia. assert (E : chunks_loop fuel 28 [] = []) by (destruct fuel; reflexivity). rewrite E.
    apply CutShort; [discriminate|unfold lenN; lia].
Qed.
Lemma cut_chunks d : cut d (chunks 28 d).
Proof. apply cut_chunks_loop. lia. Qed.
Lemma cut_det d bs : cut d bs -> forall bs', cut d bs' -> bs = bs'.
Proof.
  induction 1 as [|d N L|b d bs L C IH]; intros bs' H'.
  - inversion H' as [|? N|b d bs L C]; subst; try reflexivity; [contradiction|].
    destruct b; [discriminate L|discriminate].
  - inversion H' as [|? N'|b d0 bs L' C]; subst; try reflexivity; [contradiction|]. rewrite lenN_app in L. lia.
  - inversion H' as [E|d0 N' L' E|b' d' bs0 L' C' E]; subst.
    + destruct b; [discriminate L|discriminate].
    + rewrite lenN_app in L'. lia.
    + apply app_inj_len in E as [-> ->]; [|lia]. f_equal. now apply IH.
Qed.

Lemma decode_list_reads sc m l : forall sts, decode_list sc m l = Ok sts ->
  exists os, Forall2 (reads_as (names_of sc)) (filter (fun b => m <=? lenN b) l) os /\ sts = present os.
Proof.
  induction l as [|b l IH]; intros sts H; cbn [decode_list filter] in *.
  - injection H as <-. exists []. split; [constructor|reflexivity].
  - destruct (m <=? lenN b); [|now apply IH].
    destruct (decode_step sc b) as [o| |] eqn:D; try discriminate. cbn [bind] in H.
    destruct (decode_list sc m l) as [r| |] eqn:L; try discriminate. cbn [bind] in H. injection H as <-.
    destruct (IH _ eq_refl) as (os & F & ->). exists (o :: os). split; [constructor; [now apply decode_reads|exact F]|].
    destruct o; reflexivity.
Qed.
Lemma code_steps sc m d sts : decode_list sc m (chunks 28 d) = Ok sts -> steps_in (names_of sc) m d sts.
Proof. intros H. apply decode_list_reads in H as (os & F & ->). exists (chunks 28 d), os. split; [apply cut_chunks|]. auto. Qed.

Lemma reads_list_det names l os : Forall2 (reads_as names) l os -> forall os', Forall2 (reads_as names) l os' -> os = os'.
Proof. induction 1; intros os' H'; inversion H'; subst; [reflexivity|]. f_equal; [eapply reads_det; eauto|auto]. Qed.
Lemma steps_in_det names m d l l' : steps_in names m d l -> steps_in names m d l' -> l = l'.
Proof.
  intros (bs & os & C & F & ->) (bs' & os' & C' & F' & ->). rewrite (cut_det _ _ C _ C') in F. now rewrite (reads_list_det _ _ _ F _ F').
Qed.
Lemma steps_in_ext n1 n2 m d l : (forall k, n1 k = n2 k) -> steps_in n1 m d l -> steps_in n2 m d l.
Proof.
  intros E (bs & os & C & F & ->). exists bs, os. split; [exact C|]. split; [|reflexivity].
  induction F as [|b o bs' os' R F IH]; constructor; auto. destruct R as (op & H1 & H2). exists op. split; [exact H1|]. destruct o as [st|]; [|exact H2].
  destruct H2 as (N & X & S). split; [exact N|]. split; [exact X|]. destruct (instr_eqb _ _); [|exact S]. destruct S as (k & n & K & M & W). exists k, n. rewrite <- E. auto.
Qed.

(** ** Inserting, and giving parameters *)
Lemma vec_insert_inv {A} (l : list A) n x l' : vec_insert l n x = Ok l' -> exists a b, l = a ++ b /\ lenN a = n /\ l' = a ++ x :: b.
Proof.
  unfold vec_insert. destruct (N.leb_spec n (lenN l)) as [H|H]; [|discriminate]. intros [= <-].
  exists (firstn (N.to_nat n) l), (skipn (N.to_nat n) l). split; [now rewrite firstn_skipn|]. split; [|reflexivity]. unfold lenN in *. rewrite firstn_length. lia.
Qed.
Lemma inserted_det sts l l1 : inserted sts l l1 -> forall l2, inserted sts l l2 -> l1 = l2.
Proof.
  induction 1 as [l|st sts a b l L I IH]; intros l2 H2; inversion H2 as [|? ? a' b' ? L' I' E1 E]; subst; [reflexivity|].
  apply app_inj_len in E as [-> ->]; [now apply IH|lia].
Qed.

Lemma push_inv i g l : forall l', push_switch l i g = Ok l' ->
  exists pre st post st', l = pre ++ st :: post /\ step_index st = i /\ Forall (fun x => step_index x <> i) pre /\ g st = Ok st' /\ l' = pre ++ st' :: post.
Proof.
  induction l as [|x l IH]; intros l' H; [discriminate|]. cbn [push_switch] in H. destruct (N.eqb_spec (step_index x) i) as [E|E].
  - destruct (g x) as [st'| |] eqn:G; try discriminate. cbn [bind] in H. injection H as <-. exists [], x, l, st'. repeat split; auto.
  - destruct (push_switch l i g) as [r| |]; try discriminate. cbn [bind] in H. injection H as <-.
    destruct (IH _ eq_refl) as (pre & st & post & st' & -> & I & F & G & ->). exists (x :: pre), st, post, st'. repeat split; auto.
Qed.
Lemma first_det i (pre : list step) : forall st post pre' st' post', pre ++ st :: post = pre' ++ st' :: post' -> step_index st = i -> step_index st' = i ->
  Forall (fun x => step_index x <> i) pre -> Forall (fun x => step_index x <> i) pre' -> pre = pre' /\ st = st' /\ post = post'.
Proof.
  induction pre as [|x pre IH]; intros st post pre' st' post' E I I' F F'; destruct pre' as [|y pre']; cbn [app] in E; injection E.
  - intros -> ->. auto.
  - intros _ ->. inversion F'; subst; contradiction.
  - intros _ ->. inversion F; subst; contradiction.
  - intros E' ->. inversion F; subst. inversion F'; subst. destruct (IH _ _ _ _ _ E' eq_refl I' H2 H4) as (-> & -> & ->). auto.
Qed.
Lemma given_det i (adds : instruction -> list (list N) -> Prop) l l1 l2 : (forall op ts ts', adds op ts -> adds op ts' -> ts = ts') -> given i adds l l1 -> given i adds l l2 -> l1 = l2.
Proof.
  intros D (pre & st & post & ts & E & I & F & A & ->) (pre' & st' & post' & ts' & E' & I' & F' & A' & ->).
  rewrite E in E'. destruct (first_det _ _ _ _ _ _ _ E' I I' F F') as (-> & -> & ->). now rewrite (D _ _ _ A A').
Qed.
