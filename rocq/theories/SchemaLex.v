(** The tokeniser of schemas gives exactly the tokens of the text. *)
From Coq Require Import Ascii String NArith List Bool Lia Arith.
From Verif Require Import Prelude PreludeFacts InstrModel ComponentModel CalcModel BurnModel SchemaModel SchemaSpec.
Import ListNotations.
Local Open Scope N_scope.

Section W.
Context (E : fenv).
Local Notation loop := (tokenize_loop E).
Local Notation kw := (keyword_or_word E).

Lemma digit_first c u : starts_with_digit (c :: u) <-> (48 <=? c) && (c <=? 57) = true.
Proof.
  unfold starts_with_digit. rewrite andb_true_iff, !N.leb_le. split; [intros (x & v & H & K); inversion H; subst; lia|intros H; exists c, u; split; [reflexivity|lia]].
Qed.
Ltac words w H1 := repeat (match goal with |- context [str_eqb w ?k] => destruct (str_eqb_spec w k) as [->|]; [try (exfalso; apply H1; do 2 eexists; split; [|reflexivity]; cbn; tauto)|] end).
Lemma not_reserved w :
  w <> lit "table" -> w <> lit "relationship" -> w <> lit "value_list" -> w <> lit "table_occurence" -> w <> lit "script" -> w <> lit "test" -> w <> lit "end" ->
  ~ schema_reserved w.
Proof. intros ? ? ? ? ? ? ? (k & t & H & ->). cbn in H. repeat (destruct H as [H|H]; [inversion H; subst; congruence|]). destruct H. Qed.
Lemma word_iff w t : word_token E w t <-> w <> [] /\ kw w = Some t.
Proof.
  unfold keyword_or_word. split.
  - intros H. inversion H as [k u H1|w' n H1 H2 H3|w' H1 H2 H3 H4]; subst.
    + cbn in H1. repeat (destruct H1 as [H1|H1]; [inversion H1; subst; split; [discriminate|reflexivity]|]). destruct H1.
    + split; auto. words w H1. now rewrite H3.
    + split; auto. words w H1. rewrite H2. destruct w as [|c u]; [now elim H3|]. rewrite digit_first in H4. destruct ((48 <=? c) && (c <=? 57)); [now elim H4|reflexivity].
  - intros [H0 H]. revert H. repeat (match goal with |- context [str_eqb w ?k] => destruct (str_eqb_spec w k) as [->|]; [intros H; inversion H; apply WtKey; cbn; tauto|] end).
    assert (R : ~ schema_reserved w) by (apply not_reserved; auto).
    destruct (parse64 E w) as [n'|] eqn:P; [intros H; inversion H; now apply WtNumber|]. destruct w as [|c u]; [now elim H0|].
    pose proof (digit_first c u) as D. destruct ((48 <=? c) && (c <=? 57)); [discriminate|]. intros H; inversion H. apply WtName; auto. rewrite D. discriminate.
Qed.
Lemma spoiled_iff w : spoiled E w <-> w <> [] /\ kw w = None.
Proof.
  unfold keyword_or_word, spoiled. split.
  - intros (H1 & H2 & H3). split; [destruct H3 as (c & u & -> & _); discriminate|]. words w H1. rewrite H2. destruct H3 as (c & u & -> & H3). replace ((48 <=? c) && (c <=? 57)) with true; [reflexivity|].
    symmetry. apply (digit_first c u). exists c, u. auto.
  - intros [H0 H]. revert H. repeat (match goal with |- context [str_eqb w ?k] => destruct (str_eqb_spec w k) as [->|]; [discriminate|] end).
    destruct (parse64 E w) eqn:P; [discriminate|]. destruct w as [|c u]; [now elim H0|]. intros H. split; [now apply not_reserved|]. split; auto. apply digit_first. destruct ((48 <=? c) && (c <=? 57)); [reflexivity|discriminate].
Qed.
Lemma tokens_of w ws : word_tokens E w ws <-> ws = sflush E w.
Proof.
  unfold sflush. split.
  - intros H. inversion H as [|w' H1|w' t H1]; subst; [reflexivity| |].
    + apply spoiled_iff in H1 as [H1 H2]. destruct w; [now elim H1|]. now rewrite H2.
    + apply word_iff in H1 as [H1 H2]. destruct w; [now elim H1|]. now rewrite H2.
  - intros ->. destruct w as [|c u]; [constructor|]. destruct (kw (c :: u)) eqn:K; [apply WsWord, word_iff|apply WsSpoiled, spoiled_iff]; (split; [discriminate|auto]).
Qed.

(** ** The kinds that are never made *)
Definition made (t : stoken) : Prop := k_kind t <> KAssertionBlock /\ k_kind t <> KFoundIn.
Lemma made_word w t : word_token E w t -> made t.
Proof.
  intros H. inversion H as [k u H1|w' n H1 H2 H3|w' H1 H2 H3 H4]; subst; [|split; discriminate|split; discriminate].
  cbn in H1. repeat (destruct H1 as [H1|H1]; [inversion H1; subst; split; discriminate|]). destruct H1.
Qed.
Lemma made_flush w : Forall made (sflush E w).
Proof. pose proof (proj2 (tokens_of w (sflush E w)) eq_refl) as H. inversion H as [|w' H1|w' t H1]; subst; [constructor|constructor|constructor; [eapply made_word; eauto|constructor]]. Qed.
Lemma made_tk k : k <> KAssertionBlock -> k <> KFoundIn -> forall x, made (mkStok k x).
Proof. intros; split; auto. Qed.
Lemma kind_eqb_spec a b : reflect (a = b) (kind_eqb a b).
Proof. destruct a, b; constructor; (reflexivity || discriminate). Qed.

(** ** Steps of the loop *)
Definition go (f : nat) (x : outcome (list N * list N * mode * list stoken)) : outcome (list stoken) :=
  '(s, b, m, toks) <- x ;; loop f s m b toks.
Lemma loop_step f c s p toks : p <> [] \/ whitespace c = false -> loop (S f) (c :: s) MPlain p toks = go f (arm E s c p toks).
Proof. intros H. cbn [tokenize_loop resume bind]. destruct p, (whitespace c); cbn [andb]; (reflexivity || (destruct H as [H|H]; [now elim H|discriminate])). Qed.
Lemma loop_blank f c s m toks : whitespace c = true -> loop (S f) (c :: s) m [] toks = loop f s m [] toks.
Proof. intros H. cbn [tokenize_loop]. now rewrite H. Qed.
Lemma loop_blanks sp m toks : blank sp -> forall f s, loop (length sp + f) (sp ++ s) m [] toks = loop f s m [] toks.
Proof. induction 1 as [|c sp H B IH]; intros f s; [reflexivity|]. cbn [length app]. change (S (length sp) + f)%nat with (S (length sp + f)). rewrite loop_blank by auto. apply IH. Qed.
Lemma loop_ends sp m toks f : blank sp -> loop (length sp + S f) sp m [] toks = Ok toks.
Proof. intros B. pose proof (loop_blanks sp m toks B (S f) []) as K. rewrite app_nil_r in K. now rewrite K. Qed.
Ltac nope c H2 := repeat (match goal with |- context [c =? ?k] => replace (c =? k) with false by (symmetry; apply N.eqb_neq; intros ->; apply H2; cbn; tauto) end).
Lemma arm_letter s c p toks : letter c -> arm E s c p toks = Ok (s, p ++ [c], MPlain, toks).
Proof. intros [H1 H2]. unfold arm, ssingle. rewrite H1. unfold signs in H2. nope c H2. reflexivity. Qed.
Lemma loop_letter f c s p toks : letter c -> loop (S f) (c :: s) MPlain p toks = loop f s MPlain (p ++ [c]) toks.
Proof. intros H. rewrite loop_step by (right; apply H). rewrite arm_letter by auto. reflexivity. Qed.
Lemma arm_blank s c p toks : whitespace c = true -> p <> [] ->
  arm E s c p toks = match kw p with Some t => Ok (s, [], MPlain, toks ++ [t]) | None => Ok (s, p, MPlain, toks) end.
Proof. intros H1 H2. unfold arm. rewrite H1. destruct p; [now elim H2|reflexivity]. Qed.
Lemma loop_spells p a w : spells E p a w -> forall f s toks, loop (length a + f) (a ++ s) MPlain p toks = loop f s MPlain w toks.
Proof.
  induction 1 as [v|v c s w H S IH|v c s w H Hc S IH]; intros f r toks; [reflexivity| |]; cbn [length app]; change (Datatypes.S (length s) + f)%nat with (Datatypes.S (length s + f)).
  - rewrite loop_letter by auto. apply IH.
  - apply spoiled_iff in H as [H1 H2]. rewrite loop_step by auto. rewrite arm_blank, H2 by auto. apply IH.
Qed.

Lemma until_run q body : ~ In q body -> forall c s buffer, (c :: s) = body ++ q :: skipn (length body) s -> (length body <= length s)%nat ->
  read_until q s c buffer = match skipn (length body) s with [] => Panic | d :: s => Ok (buffer ++ body, d, s) end.
Proof.
  induction body as [|b body IH]; intros Hn c s buffer H L.
  - cbn in H. inversion H; subst. cbn [length skipn]. rewrite app_nil_r. destruct s; [reflexivity|]. cbn [read_until]. now rewrite N.eqb_refl.
  - cbn [app] in H. injection H as -> Hs. destruct s as [|d s]; [cbn in L; lia|]. cbn [skipn length] in Hs, L |- *.
    cbn [read_until]. destruct (N.eqb_spec b q) as [->|]; [elim Hn; now left|]. rewrite IH; [now rewrite <- app_assoc| | |lia]; auto. intros Hi. apply Hn. now right.
Qed.
Lemma until_reads q body d s buffer : ~ In q body -> forall c r, c :: r = body ++ q :: d :: s -> read_until q r c buffer = Ok (buffer ++ body, d, s).
Proof.
  intros Hn c r H. assert (L : length (c :: r) = length (body ++ q :: d :: s)) by now rewrite H. rewrite app_length in L. cbn [length] in L.
  assert (K : skipn (length body) r = d :: s).
  { change (skipn (length body) r) with (skipn (Datatypes.S (length body)) (c :: r)). rewrite H, skipn_app.
    replace (Datatypes.S (length body) - length body)%nat with 1%nat by lia. rewrite skipn_all2 by lia. reflexivity. }
  rewrite (until_run q body Hn); [now rewrite K| |lia]. now rewrite K.
Qed.
Lemma block_reads body s : ~ In 93 body -> forall c r buffer, c :: r = body ++ 93 :: s -> read_block r c buffer = Ok (buffer ++ body, s).
Proof.
  induction body as [|b body IH]; intros Hn c r buffer H; cbn [app] in H; injection H as -> Hr.
  - subst. rewrite app_nil_r. destruct s; reflexivity.
  - assert (Hb : b =? 93 = false) by (apply N.eqb_neq; intros ->; apply Hn; now left). destruct r as [|d r]; [destruct body; discriminate|].
    cbn [read_block]. rewrite Hb. rewrite IH; [now rewrite <- app_assoc| |auto]. intros Hi. apply Hn. now right.
Qed.

Lemma last_made toks : (1 <= length toks)%nat -> Forall made toks -> exists t, nth_error (rev toks) 0 = Some t /\ made t.
Proof.
  intros L F. destruct (rev toks) as [|t r] eqn:Q; [apply (f_equal (@length _)) in Q; rewrite rev_length in Q; cbn in Q; lia|].
  exists t. split; [reflexivity|]. rewrite Forall_forall in F. apply F, in_rev. rewrite Q. now left.
Qed.
Lemma at_made toks : (2 <= length toks)%nat -> Forall made toks -> exists t, subU (lenN toks) 2 = Ok (lenN toks - 2) /\ at_ toks (lenN toks - 2) = Ok t /\ made t.
Proof.
  intros L F. unfold subU, lenN. rewrite (proj2 (N.leb_le 2 _)) by lia. unfold at_, nthN, lenN.
  rewrite (proj2 (N.ltb_lt _ _)) by lia. destruct (nth_error toks (N.to_nat (N.of_nat (length toks) - 2))) as [t|] eqn:Q.
  - exists t. split; [reflexivity|]. split; [reflexivity|]. rewrite Forall_forall in F. apply F. eapply nth_error_In; eauto.
  - apply nth_error_None in Q. lia.
Qed.

Lemma arm_open s p toks : (1 <= length toks)%nat -> Forall made toks -> arm E s 91 p toks = Ok (s, [], MScript, toks ++ sflush E p ++ [tk KOpenSquare]).
Proof.
  intros L F. destruct (last_made toks L F) as (t & Ht & _ & M). unfold arm. change (whitespace 91) with false. cbn [N.eqb Pos.eqb]. rewrite Ht. cbn [unwrap bind].
  destruct (kind_eqb_spec (k_kind t) KFoundIn); [contradiction|reflexivity].
Qed.
Lemma arm_paren s p toks : (2 <= length toks)%nat -> Forall made toks -> arm E s 40 p toks = Ok (s, [], MPlain, toks ++ sflush E p ++ [tk KOpenParen]).
Proof.
  intros L F. destruct (at_made toks L F) as (t & H1 & H2 & M & _). unfold arm. change (whitespace 40) with false. cbn [N.eqb Pos.eqb]. rewrite H1. cbn [bind].
  rewrite H2. cbn [bind]. destruct (kind_eqb_spec (k_kind t) KAssertionBlock); [contradiction|reflexivity].
Qed.
Definition one_signs := [(93, KCloseSquare); (41, KCloseParen); (33, KExclamation); (125, KCloseCurly); (59, KSemiColon); (58, KColon); (44, KComma)].
Lemma arm_sign s c k p toks : In (c, k) one_signs -> arm E s c p toks = Ok (s, [], MPlain, toks ++ sflush E p ++ [tk k]) /\ whitespace c = false /\ made (tk k).
Proof. intros H. unfold one_signs in H. cbn in H. repeat (destruct H as [H|H]; [inversion H; subst; split; [reflexivity|split; [reflexivity|split; discriminate]]|]). destruct H. Qed.

Ltac made_all := repeat (apply Forall_app; split); auto using made_flush; repeat (constructor; [split; discriminate|]); auto.
Ltac len := repeat rewrite ?app_length; cbn [length]; lia.

Lemma sreads_runs n p s ts : sreads E n p s ts -> forall f toks, length toks = n -> Forall made toks -> (length s < f)%nat -> loop f s MPlain p toks = Ok (toks ++ ts).
Proof.
  induction 1 as
    [n p s w Hs | n c s ts Hc H IH | n p a w t c s ts Hs Ht Hc H IH | n p a w ws c k s ts Hs Hw Hi H IH | n p a w ws s ts Hs Hw Hn H IH
    | n p a w ws s ts Hs Hw H IH | n p a w ws d s ts Hs Hw Hd H IH | n p a w ws Hs Hw | n p a w ws sp body s ts Hs Hw Hn Hb Hf Hi H IH
    | n p a w ws sp Hs Hw Hn Hb | n p a w ws sp body s ts Hs Hw Hb Hf Hi He H IH | n p a w ws sp Hs Hw Hb
    | n p a w ws sp body s ts Hs Hw Hb Hf Hi He H IH | n p a w ws sp Hs Hw Hb]; intros f toks Hl Hm L;
    try (apply tokens_of in Hw; subst ws).
  - replace f with (length s + S (f - length s - 1))%nat by lia. pose proof (loop_spells p s w Hs (S (f - length s - 1)) [] toks) as K. rewrite app_nil_r in K. rewrite K. cbn. now rewrite app_nil_r.
  - destruct f; [lia|]. cbn [length] in L. rewrite loop_blank by auto. apply IH; auto; lia.
  - rewrite app_length in L. cbn [length] in L. replace f with (length a + S (f - length a - 1))%nat by lia. rewrite (loop_spells p a w Hs).
    pose proof (made_word _ _ Ht). apply word_iff in Ht as [W1 W2]. rewrite loop_step by auto. rewrite arm_blank, W2 by auto. cbn [go bind]. rewrite IH; [now rewrite <- app_assoc|len|made_all|lia].
  - rewrite app_length in L. cbn [length] in L. replace f with (length a + S (f - length a - 1))%nat by lia. rewrite (loop_spells p a w Hs).
    destruct (arm_sign s c k w toks Hi) as (A1 & A2 & A3). rewrite loop_step by auto. rewrite A1. cbn [go bind]. rewrite IH; [now rewrite <- !app_assoc|len| |lia].
    made_all.
  - rewrite app_length in L. cbn [length] in L. replace f with (length a + S (f - length a - 1))%nat by lia. rewrite (loop_spells p a w Hs).
    rewrite loop_step by auto. rewrite arm_paren by (auto; lia). cbn [go bind]. rewrite IH; [now rewrite <- !app_assoc|len|made_all|lia].
  - rewrite app_length in L. cbn [length] in L. replace f with (length a + S (f - length a - 1))%nat by lia. rewrite (loop_spells p a w Hs).
    rewrite loop_step by auto. unfold arm. change (whitespace 61) with false. cbn [N.eqb Pos.eqb go bind]. rewrite IH; [now rewrite <- !app_assoc|len|made_all|lia].
  - rewrite app_length in L. cbn [length] in L. replace f with (length a + S (f - length a - 1))%nat by lia. rewrite (loop_spells p a w Hs).
    rewrite loop_step by auto. unfold arm. change (whitespace 61) with false. cbn [N.eqb Pos.eqb]. apply N.eqb_neq in Hd. rewrite Hd. cbn [go bind].
    rewrite IH; [now rewrite <- !app_assoc|len|made_all|cbn [length]; lia].
  - rewrite app_length in L. cbn [length] in L. replace f with (length a + S (S (f - length a - 2)))%nat by lia. rewrite (loop_spells p a w Hs).
    rewrite loop_step by auto. reflexivity.
  - rewrite app_length in L. cbn [length] in L. rewrite !app_length in L. cbn [length] in L.
    replace f with (length a + S (length sp + S (f - length a - length sp - 2)))%nat by lia. rewrite (loop_spells p a w Hs).
    rewrite loop_step by auto. rewrite arm_open by (auto; lia). cbn [go bind]. rewrite loop_blanks by auto.
    assert (X : exists c r, body ++ 93 :: s = c :: r /\ whitespace c = false).
    { destruct body as [|b body]; [exists 93, s; auto|]. exists b, (body ++ 93 :: s). split; [reflexivity|]. eapply Hf; reflexivity. }
    destruct X as (c & r & Q & Wc). rewrite Q. cbn [tokenize_loop]. rewrite Wc. cbn [andb resume]. rewrite (block_reads body s Hi c r []) by auto. cbn [bind app].
    destruct (arm_sign s 93 KCloseSquare [] ((toks ++ sflush E w ++ [tk KOpenSquare]) ++ [mkStok KScript body])) as (A1 & _ & _); [cbn; tauto|]. rewrite A1. cbn [bind sflush app].
    rewrite IH; [rewrite <- !app_assoc; reflexivity|len|made_all|lia].
  - rewrite app_length in L. cbn [length] in L. replace f with (length a + S (length sp + S (f - length a - length sp - 2)))%nat by lia. rewrite (loop_spells p a w Hs).
    rewrite loop_step by auto. rewrite arm_open by (auto; lia). cbn [go bind]. now rewrite loop_ends.
  - rewrite app_length in L. cbn [length] in L. rewrite !app_length in L. cbn [length] in L.
    replace f with (length a + S (length sp + S (f - length a - length sp - 2)))%nat by lia. rewrite (loop_spells p a w Hs).
    rewrite loop_step by auto. unfold arm at 1. change (whitespace 34) with false. cbn [N.eqb Pos.eqb go bind]. rewrite loop_blanks by auto.
    assert (X : exists c r, body ++ 34 :: s = c :: r /\ whitespace c = false).
    { destruct body as [|b body]; [exists 34, s; auto|]. exists b, (body ++ 34 :: s). split; [reflexivity|]. eapply Hf; reflexivity. }
    destruct X as (c & r & Q & Wc). rewrite Q. cbn [tokenize_loop]. rewrite Wc. cbn [andb resume]. destruct s as [|d s]; [now elim He|].
    rewrite (until_reads 34 body d s [] Hi c r) by auto. cbn [bind app]. cbn [length] in L.
    assert (G : forall T, loop (S (f - length a - length sp - 2)) (d :: s) MPlain [34] T = go (f - length a - length sp - 2) (arm E s d [34] T)) by (intros; apply loop_step; left; discriminate).
    unfold go in G. rewrite <- G. rewrite IH; [rewrite <- !app_assoc; reflexivity|len|made_all|cbn [length]; lia].
  - rewrite app_length in L. cbn [length] in L. replace f with (length a + S (length sp + S (f - length a - length sp - 2)))%nat by lia. rewrite (loop_spells p a w Hs).
    rewrite loop_step by auto. unfold arm. change (whitespace 34) with false. cbn [N.eqb Pos.eqb go bind]. now rewrite loop_ends.
  - rewrite app_length in L. cbn [length] in L. rewrite !app_length in L. cbn [length] in L.
    replace f with (length a + S (length sp + S (f - length a - length sp - 2)))%nat by lia. rewrite (loop_spells p a w Hs).
    rewrite loop_step by auto. unfold arm at 1. change (whitespace 123) with false. cbn [N.eqb Pos.eqb go bind]. rewrite loop_blanks by auto.
    assert (X : exists c r, body ++ 125 :: s = c :: r /\ whitespace c = false).
    { destruct body as [|b body]; [exists 125, s; auto|]. exists b, (body ++ 125 :: s). split; [reflexivity|]. eapply Hf; reflexivity. }
    destruct X as (c & r & Q & Wc). rewrite Q. cbn [tokenize_loop]. rewrite Wc. cbn [andb resume]. destruct s as [|d s]; [now elim He|].
    rewrite (until_reads 125 body d s [] Hi c r) by auto. cbn [bind app]. cbn [length] in L.
    assert (G : forall T, loop (S (f - length a - length sp - 2)) (d :: s) MPlain [125] T = go (f - length a - length sp - 2) (arm E s d [125] T)) by (intros; apply loop_step; left; discriminate).
    unfold go in G. rewrite <- G. rewrite IH; [rewrite <- !app_assoc; reflexivity|len|made_all|cbn [length]; lia].
  - rewrite app_length in L. cbn [length] in L. replace f with (length a + S (length sp + S (f - length a - length sp - 2)))%nat by lia. rewrite (loop_spells p a w Hs).
    rewrite loop_step by auto. unfold arm. change (whitespace 123) with false. cbn [N.eqb Pos.eqb go bind]. now rewrite loop_ends.
Qed.

(** ** The converse *)
Lemma sreads_letter n p c s ts : letter c -> sreads E n (p ++ [c]) s ts -> sreads E n p (c :: s) ts.
Proof.
  intros Hc H. inversion H; subst; try (now destruct p); rewrite ?app_comm_cons;
    try match goal with S : spells E (p ++ [c]) ?a ?w |- _ => apply (SpLetter E p c a w Hc) in S end; try now (econstructor; eauto).
Qed.
Lemma sreads_spoiled n p c s ts : spoiled E p -> whitespace c = true -> sreads E n p s ts -> sreads E n p (c :: s) ts.
Proof.
  intros Hp Hc H. assert (N0 : p <> []) by (destruct Hp as (_ & _ & (x & u & -> & _)); discriminate).
  inversion H; subst; try (now elim N0); rewrite ?app_comm_cons;
    try match goal with S : spells E p ?a ?w |- _ => apply (SpBlank E p c a w Hp Hc) in S end; try now (econstructor; eauto).
Qed.

Lemma until_found q s : forall c buffer text d r, read_until q s c buffer = Ok (text, d, r) -> exists body, text = buffer ++ body /\ c :: s = body ++ q :: d :: r /\ ~ In q body.
Proof.
  induction s as [|x s IH]; intros c buffer text d r H; [discriminate|]. cbn [read_until] in H. destruct (N.eqb_spec c q) as [->|Hc].
  - inversion H; subst. exists []. rewrite app_nil_r. auto.
  - apply IH in H as (body & -> & Q & Hn). exists (c :: body). rewrite <- app_assoc. split; [reflexivity|]. split; [cbn; now rewrite Q|]. intros [->|Hi]; auto.
Qed.
Lemma block_found s : forall c buffer text r, read_block s c buffer = Ok (text, r) -> exists body, text = buffer ++ body /\ c :: s = body ++ 93 :: r /\ ~ In 93 body.
Proof.
  induction s as [|x s IH]; intros c buffer text r H; cbn [read_block] in H; destruct (N.eqb_spec c 93) as [->|Hc]; try discriminate.
  - inversion H; subst. exists []. rewrite app_nil_r. auto.
  - inversion H; subst. exists []. rewrite app_nil_r. auto.
  - apply IH in H as (body & -> & Q & Hn). exists (c :: body). rewrite <- app_assoc. split; [reflexivity|]. split; [cbn; now rewrite Q|]. intros [->|Hi]; auto.
Qed.
Lemma blanks_split s : exists sp r, s = sp ++ r /\ blank sp /\ no_blank_first r.
Proof.
  induction s as [|c s (sp & r & -> & B & F)]; [exists [], []; repeat split; [constructor|intros c u H; discriminate]|].
  destruct (whitespace c) eqn:W; [exists (c :: sp), r; repeat split; auto; constructor; auto|].
  exists [], (c :: sp ++ r). repeat split; [constructor|]. intros x u H. now inversion H; subst.
Qed.
Lemma letter_dec c : {letter c} + {whitespace c = true} + {whitespace c = false /\ In c signs}.
Proof.
  unfold letter. destruct (whitespace c); [left; right; reflexivity|]. destruct (in_dec N.eq_dec c signs) as [H|H]; [right; auto|left; left; auto].
Qed.

Lemma runs_sreads : forall n s f p toks x, (length s < n)%nat -> (length s < f)%nat -> Forall made toks -> loop f s MPlain p toks = Ok x -> exists ts, sreads E (length toks) p s ts.
Proof.
  induction n as [|n IH]; intros s f p toks x Ln Lf Hm H; [lia|]. destruct f as [|f]; [lia|]. destruct s as [|c s]; [eexists; econstructor; constructor|]. cbn [length] in Ln, Lf.
  destruct (letter_dec c) as [[Hc|Hc]|[Hw Hi]].
  - rewrite loop_letter in H by auto. apply IH in H as (ts & H); [|lia|lia|auto]. exists ts. now apply sreads_letter.
  - destruct p as [|p0 p].
    { rewrite loop_blank in H by auto. apply IH in H as (ts & H); [|lia|lia|auto]. exists ts. now apply SrBlank. }
    rewrite loop_step in H by (left; discriminate). rewrite arm_blank in H by (auto; discriminate). destruct (kw (p0 :: p)) as [t|] eqn:K; cbn [go bind] in H.
    + assert (W : word_token E (p0 :: p) t) by (apply word_iff; split; [discriminate|auto]). pose proof (made_word _ _ W).
      apply IH in H as (ts & H); [|lia|lia|made_all]. rewrite app_length in H. cbn [length] in H. rewrite Nat.add_1_r in H. exists (t :: ts). apply (SrWord E _ _ [] (p0 :: p)); auto. constructor.
    + apply IH in H as (ts & H); [|lia|lia|auto]. exists ts. apply sreads_spoiled; auto. apply spoiled_iff. split; [discriminate|auto].
  - rewrite loop_step in H by auto. pose proof (proj2 (tokens_of p (sflush E p)) eq_refl) as Wp. pose proof (SpEnd E p) as Sp.
    assert (One : forall k, In (c, k) one_signs -> exists ts, sreads E (length toks) p (c :: s) ts).
    { intros k Hk. destruct (arm_sign s c k p toks Hk) as (A1 & _ & A3). rewrite A1 in H. cbn [go bind] in H. apply IH in H as (ts & H); [|lia|lia|made_all].
      rewrite !app_length in H. cbn [length] in H. rewrite Nat.add_assoc in H. exists (sflush E p ++ tk k :: ts). now apply (SrSign E _ p [] p (sflush E p) c k). }
    unfold signs in Hi. cbn [In] in Hi. repeat match type of Hi with _ = c \/ _ => destruct Hi as [Hi|Hi] end; try contradiction; try subst c; try now (eapply One; cbn; tauto).
    + clear One. unfold arm in H. change (whitespace 61) with false in H. cbn [N.eqb Pos.eqb] in H. destruct s as [|d s]; [eexists; eapply (SrAssignEnd E _ p [] p); eauto|].
      cbn [length] in Ln, Lf. destruct (N.eqb_spec d 61) as [->|Hd]; cbn [go bind] in H.
      * apply IH in H as (ts & H); [|lia|lia|made_all]. rewrite !app_length in H. cbn [length] in H. rewrite Nat.add_assoc in H. eexists. eapply (SrEqual E _ p [] p); eauto.
      * apply IH in H as (ts & H); [|cbn [length]; lia|cbn [length]; lia|made_all]. rewrite !app_length in H. cbn [length] in H. rewrite Nat.add_assoc in H. eexists. eapply (SrAssign E _ p [] p); eauto.
    + clear One. destruct toks as [|t0 toks]; [discriminate|]. rewrite arm_open in H by (auto; cbn; lia). cbn [go bind] in H.
      destruct (blanks_split s) as (sp & r & -> & B & F). rewrite app_length in Ln, Lf. replace f with (length sp + (f - length sp))%nat in H by lia. rewrite loop_blanks in H by auto.
      destruct r as [|c r]; [rewrite app_nil_r; eexists; eapply (SrBlockEnd E _ p [] p); eauto; cbn; lia|]. cbn [length] in Ln, Lf. destruct (f - length sp)%nat as [|g] eqn:Q; [lia|].
      cbn [tokenize_loop] in H. rewrite (F c r eq_refl) in H. cbn [andb resume] in H. destruct (read_block r c []) as [[text r']| |] eqn:R; try discriminate. cbn [bind] in H.
      apply block_found in R as (body & -> & R & Hn). cbn [app] in H.
      match type of H with context [arm E r' 93 [] ?T] => destruct (arm_sign r' 93 KCloseSquare [] T) as (A1 & _ & _); [cbn; tauto|] end. rewrite A1 in H. cbn [bind] in H.
      assert (Lr : length (c :: r) = (length body + S (length r'))%nat) by (rewrite R, app_length; reflexivity). cbn [length] in Lr.
      apply IH in H as (ts & H); [|lia|lia|inversion Hm; subst; apply Forall_app; split; [constructor; auto; made_all|made_all]]. exists (sflush E p ++ tk KOpenSquare :: mkStok KScript body :: tk KCloseSquare :: ts). rewrite R. apply (SrBlock E _ p [] p); auto; [cbn; lia| |].
      * intros x' u Hu. destruct body as [|b body]; [discriminate|]. inversion Hu; subst. cbn in R. inversion R; subst. eapply F; reflexivity.
      * match type of H with sreads _ ?x _ _ _ => match goal with |- sreads _ ?y _ _ _ => replace y with x by (rewrite !app_length; cbn [length sflush]; rewrite ?app_length; cbn [length]; lia) end end. exact H.
    + clear One. destruct (le_lt_dec 2 (length toks)) as [Lt|Lt].
      * rewrite arm_paren in H by auto. cbn [go bind] in H. apply IH in H as (ts & H); [|lia|lia|made_all]. rewrite !app_length in H. cbn [length] in H. rewrite Nat.add_assoc in H. eexists. eapply (SrParen E _ p [] p); eauto.
      * exfalso. unfold arm in H. change (whitespace 40) with false in H. cbn [N.eqb Pos.eqb] in H. unfold subU, lenN in H. rewrite (proj2 (N.leb_gt 2 _)) in H by lia. discriminate.
    + clear One. unfold arm in H. change (whitespace 34) with false in H. cbn [N.eqb Pos.eqb go bind] in H.
      destruct (blanks_split s) as (sp & r & -> & B & F). rewrite app_length in Ln, Lf. replace f with (length sp + (f - length sp))%nat in H by lia. rewrite loop_blanks in H by auto.
      destruct r as [|c r]; [rewrite app_nil_r; eexists; eapply (SrStringEnd E _ p [] p); eauto|]. cbn [length] in Ln, Lf. destruct (f - length sp)%nat as [|g] eqn:Q; [lia|].
      cbn [tokenize_loop] in H. rewrite (F c r eq_refl) in H. cbn [andb resume] in H. destruct (read_until 34 r c []) as [[[text d] r']| |] eqn:R; try discriminate. cbn [bind] in H.
      apply until_found in R as (body & -> & R & Hn). cbn [app] in H.
      assert (G : forall T, loop (S g) (d :: r') MPlain [34] T = go g (arm E r' d [34] T)) by (intros; apply loop_step; left; discriminate).
      unfold go in G. rewrite <- G in H.
      assert (Lr : length (c :: r) = (length body + S (S (length r')))%nat) by (rewrite R, app_length; reflexivity). cbn [length] in Lr.
      apply IH in H as (ts & H); [|cbn [length]; lia|cbn [length]; lia|made_all]. exists (sflush E p ++ mkStok KString body :: ts). rewrite R. apply (SrString E _ p [] p); auto; [|discriminate|].
      * intros x' u Hu. destruct body as [|b body]; [discriminate|]. inversion Hu; subst. cbn in R. inversion R; subst. eapply F; reflexivity.
      * rewrite !app_length in H. cbn [length] in H. exact H.
    + clear One. unfold arm in H. change (whitespace 123) with false in H. cbn [N.eqb Pos.eqb go bind] in H.
      destruct (blanks_split s) as (sp & r & -> & B & F). rewrite app_length in Ln, Lf. replace f with (length sp + (f - length sp))%nat in H by lia. rewrite loop_blanks in H by auto.
      destruct r as [|c r]; [rewrite app_nil_r; eexists; eapply (SrCalcEnd E _ p [] p); eauto|]. cbn [length] in Ln, Lf. destruct (f - length sp)%nat as [|g] eqn:Q; [lia|].
      cbn [tokenize_loop] in H. rewrite (F c r eq_refl) in H. cbn [andb resume] in H. destruct (read_until 125 r c []) as [[[text d] r']| |] eqn:R; try discriminate. cbn [bind] in H.
      apply until_found in R as (body & -> & R & Hn). cbn [app] in H.
      assert (G : forall T, loop (S g) (d :: r') MPlain [125] T = go g (arm E r' d [125] T)) by (intros; apply loop_step; left; discriminate).
      unfold go in G. rewrite <- G in H.
      assert (Lr : length (c :: r) = (length body + S (S (length r')))%nat) by (rewrite R, app_length; reflexivity). cbn [length] in Lr.
      apply IH in H as (ts & H); [|cbn [length]; lia|cbn [length]; lia|made_all]. exists (sflush E p ++ tk KOpenCurly :: mkStok KCalculation body :: ts). rewrite R. apply (SrCalc E _ p [] p); auto; [|discriminate|].
      * intros x' u Hu. destruct body as [|b body]; [discriminate|]. inversion Hu; subst. cbn in R. inversion R; subst. eapply F; reflexivity.
      * rewrite !app_length in H. cbn [length] in H. replace (length toks + length (sflush E p) + 2)%nat with (length toks + (length (sflush E p) + 1) + 1)%nat by lia. exact H.
Qed.

Theorem schema_tokens_exact code ts : tokenize E code = Ok ts <-> sreads E 0 [] code ts.
Proof.
  unfold tokenize. split.
  - intros H. destruct (runs_sreads (S (length code)) code (S (length code)) [] [] ts) as (ts' & H'); [lia|lia|constructor|auto|].
    pose proof (sreads_runs 0 [] code ts' H' (S (length code)) [] eq_refl (Forall_nil _)) as K. rewrite H in K. assert (ts = ts') by (injection K; [auto|lia]). now subst.
  - intros H. rewrite (sreads_runs 0 [] code ts H) by (auto; lia). reflexivity.
Qed.
End W.
