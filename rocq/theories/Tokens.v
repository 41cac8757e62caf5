(** The tokeniser of calculations is exact. *)
From Coq Require Import NArith List Bool Lia Arith.
From Verif Require Import Prelude PreludeFacts CalcModel LexSpec LexProofs EvalProofs TokensSpec.
Import ListNotations.
Local Open Scope N_scope.

Section P.
Context (E : fenv).
Notation lex_loop := (lex_loop E). Notation splits := (splits E).

Lemma bind_inv {A B} (x : outcome A) (g : A -> outcome B) r : bind x g = Ok r -> exists a, x = Ok a /\ g a = Ok r.
Proof. destruct x; cbn; intros H; try discriminate. eauto. Qed.

Lemma flush_token b acc r : flush E b acc = Ok r -> (b = [] /\ r = acc) \/ exists t, b <> [] /\ word_token E b t /\ r = acc ++ [t].
Proof.
  destruct b as [|c b]; cbn [flush]; intros H; [left; now inversion H|]. right. apply bind_inv in H as (t & H & R). inversion R; subst. exists t.
  split; [discriminate|]. split; [|reflexivity]. unfold flush_buffer in H. destruct (parse64 E (c :: b)) as [x|] eqn:P; [inversion H; subst; now constructor|].
  unfold is_digit in H. destruct ((48 <=? c) && (c <=? 57)) eqn:D; [discriminate|]. inversion H; subst. constructor; auto.
  intros K. apply andb_false_iff in D as [D|D]; apply N.leb_gt in D; lia.
Qed.
Lemma token_flush b acc t : b <> [] -> word_token E b t -> flush E b acc = Ok (acc ++ [t]).
Proof.
  intros Hb H. destruct b as [|c b]; [easy|]. unfold flush, flush_buffer. inversion H as [? x P|? ? P D]; subst; rewrite P; [reflexivity|].
  unfold is_digit. replace ((48 <=? c) && (c <=? 57)) with false; [reflexivity|]. symmetry. apply andb_false_iff. rewrite !N.leb_gt. lia.
Qed.

Lemma read_string_spec s : forall a r, read_string s = (a, r) ->
  (exists b, s = b ++ 34 :: r /\ a = b ++ [34] /\ ~ In 34 b) \/ (s = a /\ r = [] /\ ~ In 34 a).
Proof.
  induction s as [|c s IH]; intros a r H; [inversion H; right; auto|]. cbn in H. destruct (N.eqb_spec c 34) as [->|Hc].
  - inversion H; subst. left. exists []. auto.
  - destruct (read_string s) as [a' r'] eqn:R. inversion H; subst. destruct (IH _ _ eq_refl) as [(b & -> & -> & Hb)|(-> & -> & Hb)].
    + left. exists (c :: b). cbn. intuition.
    + right. cbn. intuition.
Qed.
Lemma read_name_spec s : forall a r, read_name E s = (a, r) -> s = a ++ r /\ name_part E a r.
Proof.
  assert (G : forall s c a r, read_name E (c :: s) = (a, r) -> exists b, a = c :: b /\ s = b ++ r /\ Forall (fun c => alnum E c = true) b /\ not_alnum E (hd_error r)).
  { clear. induction s as [|d s IH]; intros c a r H.
    - inversion H; subst. exists []. repeat split; constructor.
    - change (read_name E (c :: d :: s)) with (if alnum E d then let (a, r) := read_name E (d :: s) in (c :: a, r) else ([c], d :: s)) in H.
      destruct (alnum E d) eqn:D.
      + destruct (read_name E (d :: s)) as [a' r'] eqn:R. inversion H; subst. destruct (IH _ _ _ R) as (b & -> & -> & Hb & Hr).
        exists (d :: b). repeat split; auto.
      + inversion H; subst. exists []. repeat split; [constructor|exact D]. }
  intros a r H. destruct s as [|c s]; [inversion H; subst; split; [reflexivity|constructor]|].
  destruct (G _ _ _ _ H) as (b & -> & -> & Hb & Hr). split; [reflexivity|]. now constructor.
Qed.
Lemma read_name_back a r : name_part E a r -> a = [] -> r = [].
Proof. intros H Ha. destruct H; [reflexivity|discriminate]. Qed.

Lemma literal_of s : literal E s (if existsb (alnum E) s then [mkTok TString s] else []).
Proof.
  destruct (existsb (alnum E) s) eqn:X.
  - apply LiText. apply existsb_exists in X as (x & X1 & X2). apply Exists_exists. eauto.
  - apply LiBlank. apply Forall_forall. intros x Hx. apply not_true_iff_false. intros K. assert (existsb (alnum E) s = true); [|congruence].
    apply existsb_exists. eauto.
Qed.
Lemma literal_is s k : literal E s k -> k = if existsb (alnum E) s then [mkTok TString s] else [].
Proof.
  intros H. destruct H as [s H|s H].
  - apply Exists_exists in H as (x & H1 & H2). replace (existsb (alnum E) s) with true; auto. symmetry. apply existsb_exists. eauto.
  - replace (existsb (alnum E) s) with false; auto. symmetry. apply not_true_iff_false. intros K. apply existsb_exists in K as (x & K1 & K2).
    rewrite Forall_forall in H. rewrite H in K2; auto. discriminate.
Qed.

(** The word so far, and what flushing it means. *)
Definition partial (b : list N) : Prop := word b /\ starts_solid b.
Lemma flushed b acc ts' c s ts : partial b -> flush E b acc = Ok ts' -> In c specials -> c <> 58 -> splits (c :: s) ts ->
  exists us, ts' ++ ts = acc ++ us /\ splits (b ++ c :: s) us.
Proof.
  intros [Hw Hs] H Hc Hn S. apply flush_token in H as [[-> ->]|(t & Hb & Ht & ->)].
  - exists ts. auto.
  - exists (t :: ts). split; [now rewrite <- app_assoc|]. apply SlWord; cbn; auto.
Qed.

Lemma special_cases c : single c = None -> c <> 32 -> c <> 33 -> c <> 61 -> c <> 60 -> c <> 62 -> c <> 34 -> c <> 58 -> ~ In c specials.
Proof.
  intros H N1 N2 N3 N4 N5 N6 N7 K. cbn in K. repeat destruct K as [K|K]; subst; try congruence; cbn in H; discriminate.
Qed.
Lemma single_in c t : single c = Some t ->
  In (t, c) [(TOpenParen, 40); (TCloseParen, 41); (TPlus, 43); (TComma, 44); (TMinus, 45); (TMultiply, 42); (TDivide, 47); (TAmpersand, 38)].
Proof.
  unfold single. intros H.
  repeat match type of H with (if ?c =? ?k then _ else _) = _ => destruct (N.eqb_spec c k); [inversion H; subst; cbn; tauto|] end. discriminate.
Qed.
Lemma single_special t c : In (t, c) [(TOpenParen, 40); (TCloseParen, 41); (TPlus, 43); (TComma, 44); (TMinus, 45); (TMultiply, 42); (TDivide, 47); (TAmpersand, 38)] ->
  In c specials /\ c <> 58.
Proof. cbn. intros H. repeat destruct H as [H|H]; inversion H; subst; split; try tauto; discriminate. Qed.

Lemma splits_nil s ts : splits s ts -> s = [] -> ts = [].
Proof.
  intros H. destruct H; intros K; try discriminate; try reflexivity.
  - apply app_eq_nil in K as [K _]. contradiction.
  - destruct w; discriminate.
  - destruct w; discriminate.
  - destruct w; discriminate.
Qed.

Lemma loop_splits f : forall s b acc r, partial b -> lex_loop f s b acc = Ok r -> exists ts, r = acc ++ ts /\ splits (b ++ s) ts.
Proof.
  induction f as [|f IH]; intros s b acc r Hb H; [discriminate|]. assert (P0 : partial []) by (split; [constructor|exact I]).
  destruct s as [|c s].
  - cbn [CalcModel.lex_loop] in H. apply flush_token in H as [[-> ->]|(t & Hn & Ht & ->)].
    + exists []. rewrite app_nil_r. split; [reflexivity|constructor].
    + exists [t]. split; auto. destruct Hb. apply SlWord; cbn; auto. constructor.
  - cbn [CalcModel.lex_loop] in H.
    destruct (whitespace c && match b with [] => true | _ => false end) eqn:W.
    { apply andb_true_iff in W as [W1 W2]. destruct b; [|discriminate]. apply IH in H as (ts & -> & H); auto. exists ts. split; auto. now apply SlSpace. }
    destruct (N.eqb_spec c 32) as [->|N1].
    { apply bind_inv in H as (ts' & F & H). apply IH in H as (ts & -> & H); auto.
      apply (flushed b acc ts' 32 s ts Hb F); [cbn; tauto|discriminate|]. now apply SlSpace. }
    destruct (single c) as [t|] eqn:Sg.
    { apply bind_inv in H as (ts' & F & H). apply IH in H as (ts & -> & H); auto. apply single_in in Sg. destruct (single_special _ _ Sg) as [S1 S2].
      rewrite <- app_assoc. apply (flushed b acc ts' c s (tok t :: ts) Hb F S1 S2). now apply SlPunct. }
    destruct (N.eqb_spec c 33) as [->|N2].
    { apply bind_inv in H as (ts' & F & H). destruct s as [|d s]; [discriminate|]. destruct (N.eqb_spec d 61) as [->|Nd].
      - apply IH in H as (ts & -> & H); auto. rewrite <- app_assoc. apply (flushed b acc ts' 33 (61 :: s) (tok TNeq :: ts) Hb F); [cbn; tauto|discriminate|]. now apply SlNeq.
      - apply IH in H as (ts & -> & H); auto. apply (flushed b acc ts' 33 (d :: s) ts Hb F); [cbn; tauto|discriminate|]. now apply SlNot. }
    destruct (N.eqb_spec c 61) as [->|N3].
    { apply bind_inv in H as (ts' & F & H). destruct s as [|d s]; [discriminate|]. apply IH in H as (ts & -> & H); auto. destruct (N.eqb_spec d 61) as [->|Nd].
      - rewrite <- app_assoc. apply (flushed b acc ts' 61 (61 :: s) (tok TEq :: ts) Hb F); [cbn; tauto|discriminate|]. now apply SlEq.
      - apply (flushed b acc ts' 61 (d :: s) ts Hb F); [cbn; tauto|discriminate|]. now apply SlAssign. }
    destruct (N.eqb_spec c 60) as [->|N4].
    { apply bind_inv in H as (ts' & F & H). destruct s as [|d s]; [discriminate|]. apply IH in H as (ts & -> & H); auto. rewrite <- app_assoc.
      destruct (N.eqb_spec d 61) as [->|Nd].
      - apply (flushed b acc ts' 60 (61 :: s) (tok TLtq :: ts) Hb F); [cbn; tauto|discriminate|]. now apply SlLtq.
      - apply (flushed b acc ts' 60 (d :: s) (tok TLt :: ts) Hb F); [cbn; tauto|discriminate|]. now apply SlLt. }
    destruct (N.eqb_spec c 62) as [->|N5].
    { apply bind_inv in H as (ts' & F & H). destruct s as [|d s]; [discriminate|]. apply IH in H as (ts & -> & H); auto. rewrite <- app_assoc.
      destruct (N.eqb_spec d 61) as [->|Nd].
      - apply (flushed b acc ts' 62 (61 :: s) (tok TGtq :: ts) Hb F); [cbn; tauto|discriminate|]. now apply SlGtq.
      - apply (flushed b acc ts' 62 (d :: s) (tok TGt :: ts) Hb F); [cbn; tauto|discriminate|]. now apply SlGt. }
    destruct (N.eqb_spec c 34) as [->|N6].
    { apply bind_inv in H as (ts' & F & H). destruct (read_string s) as [a q] eqn:R. apply IH in H as (ts & -> & H); auto.
      pose proof (literal_of (34 :: a)) as L.
      assert (X : exists us, (ts' ++ (if existsb (alnum E) (34 :: a) then [mkTok TString (34 :: a)] else []) ++ ts) = acc ++ us /\ splits (b ++ 34 :: s) us).
      { apply (flushed b acc ts' 34 s _ Hb F); [cbn; tauto|discriminate|].
        destruct (read_string_spec _ _ _ R) as [(w & -> & -> & Hw)|(-> & -> & Hw)].
        - now apply SlString.
        - rewrite (splits_nil _ _ H eq_refl), app_nil_r. now apply SlOpenString. }
      destruct X as (us & X1 & X2). exists us. split; [|exact X2]. rewrite <- X1. destruct (existsb (alnum E) (34 :: a)); [now rewrite <- app_assoc|reflexivity]. }
    destruct (N.eqb_spec c 58) as [->|N7].
    { destruct Hb as [Hw Hs]. destruct (read_name E (tl s)) as [a q] eqn:R. apply IH in H as (ts & -> & H); auto. apply read_name_spec in R as [Rt Rn].
      eexists. rewrite <- app_assoc. split; [reflexivity|]. destruct s as [|d s].
      - cbn [tl] in Rt. symmetry in Rt. apply app_eq_nil in Rt as [-> ->].
        rewrite (splits_nil _ _ H eq_refl). repeat (rewrite <- ?app_assoc; cbn [app]). now apply SlColonEnd.
      - cbn [tl] in Rt. subst s. destruct (N.eqb_spec d 58) as [->|Nd]; repeat (rewrite <- ?app_assoc; cbn [app]).
        + now apply SlField.
        + now apply SlColon. }
    assert (Hc : ~ In c specials) by (apply special_cases; auto).
    apply IH in H as (ts & -> & H).
    + exists ts. split; auto. now rewrite <- app_assoc in H.
    + destruct Hb as [Hw Hs]. split.
      * apply Forall_app. split; [exact Hw|]. constructor; [exact Hc|constructor].
      * destruct b as [|b0 b]; [cbn; rewrite andb_true_r in W; exact W|exact Hs].
Qed.

Ltac one := cbn [CalcModel.lex_loop]; cbn [whitespace single andb orb N.eqb N.leb N.compare Pos.compare Pos.compare_cont Pos.eqb CalcModel.flush bind].
Lemma splits_loop s ts : splits s ts -> forall f acc, (length s < f)%nat -> lex_loop f s [] acc = Ok (acc ++ ts).
Proof.
  induction 1 as [|c s ts Hc _ IH|w t r ts Hn Hw Hs He Ht _ IH|t c s ts Ht _ IH|s ts _ IH|d s ts Hd _ IH|s ts _ IH|s ts _ IH|s ts _ IH|d s ts Hd _ IH|d s ts Hd _ IH
    |d s ts Hd _ IH|body s k ts Hb L _ IH|body k Hb L|w name r ts Hw Hs Hp _ IH|w d name r ts Hw Hs Hd Hp _ IH|w Hw Hs]; intros f acc Hf.
  - destruct f as [|f]; [lia|]. cbn. now rewrite app_nil_r.
  - destruct f as [|f]; [lia|]. cbn [length] in Hf. cbn [CalcModel.lex_loop]. rewrite Hc. cbn [andb]. apply IH. lia.
  - rewrite app_length in Hf. replace f with (length w + S (f - length w - 1))%nat by lia. rewrite word_run by auto. cbn [app].
    rewrite (flush_first _ _ _ _ _ t); auto; [|now apply token_flush]. rewrite IH by lia. now rewrite <- app_assoc.
  - destruct f as [|f]; [lia|]. cbn [length] in Hf. change (tok t :: ts) with ([tok t] ++ ts). rewrite app_assoc.
    cbn in Ht. repeat destruct Ht as [Ht|Ht]; try (destruct Ht; fail); inversion Ht; subst; one; apply IH; lia.
  - destruct f as [|f]; [lia|]. cbn [length] in Hf. change (tok TNeq :: ts) with ([tok TNeq] ++ ts). rewrite app_assoc. one. apply IH. lia.
  - destruct f as [|f]; [lia|]. cbn [length] in Hf. one. apply N.eqb_neq in Hd. rewrite Hd. apply IH. cbn [length]. lia.
  - destruct f as [|f]; [lia|]. cbn [length] in Hf. change (tok TEq :: ts) with ([tok TEq] ++ ts). rewrite app_assoc. one. apply IH. cbn [length]. lia.
  - destruct f as [|f]; [lia|]. cbn [length] in Hf. change (tok TLtq :: ts) with ([tok TLtq] ++ ts). rewrite app_assoc. one. apply IH. cbn [length]. lia.
  - destruct f as [|f]; [lia|]. cbn [length] in Hf. change (tok TGtq :: ts) with ([tok TGtq] ++ ts). rewrite app_assoc. one. apply IH. cbn [length]. lia.
  - destruct f as [|f]; [lia|]. cbn [length] in Hf. one. apply N.eqb_neq in Hd. rewrite Hd. apply IH. cbn [length]. lia.
  - destruct f as [|f]; [lia|]. cbn [length] in Hf. change (tok TLt :: ts) with ([tok TLt] ++ ts). rewrite app_assoc. one. apply N.eqb_neq in Hd. rewrite Hd. apply IH. cbn [length]. lia.
  - destruct f as [|f]; [lia|]. cbn [length] in Hf. change (tok TGt :: ts) with ([tok TGt] ++ ts). rewrite app_assoc. one. apply N.eqb_neq in Hd. rewrite Hd. apply IH. cbn [length]. lia.
  - destruct f as [|f]; [lia|]. cbn [length] in Hf. rewrite app_length in Hf. cbn [length] in Hf. one.
    rewrite read_string_body by auto. rewrite (literal_is _ _ L). destruct (existsb (alnum E) (34 :: body ++ [34])).
    + rewrite IH by lia. now rewrite <- app_assoc.
    + rewrite IH by lia. reflexivity.
  - destruct f as [|f]; [lia|]. cbn [length] in Hf. one.
    assert (R : read_string body = (body, [])).
    { clear - Hb. induction body as [|c b IH]; [reflexivity|]. cbn in Hb. cbn. destruct (N.eqb_spec c 34); [subst; tauto|]. rewrite IH by tauto. reflexivity. }
    rewrite R, (literal_is _ _ L). destruct f as [|f]; [lia|]. cbn [CalcModel.lex_loop flush]. destruct (existsb (alnum E) (34 :: body)); [reflexivity|now rewrite app_nil_r].
  - rewrite app_length in Hf. cbn [length] in Hf. rewrite app_length in Hf.
    replace f with (length w + S (f - length w - 1))%nat by lia. rewrite word_run by auto. cbn [app]. one. cbn [tl].
    assert (R : read_name E (name ++ r) = (name, r)) by (destruct Hp; [reflexivity|now apply read_name_run]).
    rewrite R. rewrite IH by lia. repeat (rewrite <- ?app_assoc; cbn [app]). reflexivity.
  - rewrite app_length in Hf. cbn [length] in Hf. rewrite app_length in Hf.
    replace f with (length w + S (f - length w - 1))%nat by lia. rewrite word_run by auto. cbn [app]. one. apply N.eqb_neq in Hd. rewrite Hd. cbn [tl].
    assert (R : read_name E (name ++ r) = (name, r)) by (destruct Hp; [reflexivity|now apply read_name_run]).
    rewrite R. rewrite IH by lia. repeat (rewrite <- ?app_assoc; cbn [app]). reflexivity.
  - rewrite app_length in Hf. cbn [length] in Hf. replace f with (length w + S (f - length w - 1))%nat by lia. rewrite word_run by auto. cbn [app]. one. cbn [tl read_name].
    destruct (f - length w - 1)%nat as [|g] eqn:Eg; [lia|]. cbn [CalcModel.lex_loop flush]. repeat (rewrite <- ?app_assoc; cbn [app]). reflexivity.
Qed.

Lemma lex_exact s ts : lex E s = Ok ts <-> splits s ts.
Proof.
  unfold lex. split.
  - intros H. apply loop_splits in H as (us & -> & H); [exact H|]. split; [constructor|exact I].
  - intros H. rewrite (splits_loop _ _ H) by lia. reflexivity.
Qed.
End P.
