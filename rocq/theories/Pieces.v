(** Proofs for [PieceSpec]. *)
From Coq Require Import Ascii String NArith List Bool Lia.
From Verif Require Import Prelude PreludeFacts InstrModel ComponentModel CalcModel BurnModel SchemaModel SchemaSpec PieceSpec.
From Verif Require BurnSpec ScriptsSpec.
Import ListNotations.
Local Open Scope N_scope.

Lemma found_nil code : found_in code [].
Proof. exists [], code. reflexivity. Qed.
Lemma found_refl code : found_in code code.
Proof. exists [], []. rewrite app_nil_r. reflexivity. Qed.
Lemma found_trans a b c : found_in b a -> found_in c b -> found_in c a.
Proof. intros (x & y & ->) (u & v & ->). exists (u ++ x), (y ++ v). rewrite <- !app_assoc. reflexivity. Qed.
Lemma found_r code x p : found_in code x -> found_in (p ++ code) x.
Proof. intros H. apply (found_trans _ _ _ H). exists p, []. rewrite app_nil_r. reflexivity. Qed.
Lemma found_l code x p : found_in code x -> found_in (code ++ p) x.
Proof. intros H. apply (found_trans _ _ _ H). exists [], p. reflexivity. Qed.
Lemma found_cons code x c : found_in code x -> found_in (c :: code) x.
Proof. apply (found_r code x [c]). Qed.

(** ** Script texts *)
Lemma value_found q raw v : BurnSpec.value q raw v -> found_in raw v.
Proof. unfold BurnSpec.value. destruct q; [intros ->; apply found_refl | intros (sp & -> & _); apply found_r, found_refl]. Qed.
Lemma arguments_found q a vs : BurnSpec.arguments q a vs -> Forall (found_in a) vs.
Proof.
  induction 1 as [q raw v _ V | q raw v s vs _ V _ IH].
  - constructor; [| constructor]. apply found_l. eapply value_found; eassumption.
  - constructor; [apply found_l; eapply value_found; eassumption |]. eapply Forall_impl; [| exact IH]. intros x Hx. apply found_r, found_cons, Hx.
Qed.
Lemma unclosed_found q a vs : BurnSpec.unclosed q a vs -> Forall (found_in a) vs.
Proof.
  induction 1 as [q raw _ | q raw v s vs _ V _ IH]; [constructor |].
  constructor; [apply found_l; eapply value_found; eassumption |]. eapply Forall_impl; [| exact IH]. intros x Hx. apply found_r, found_cons, Hx.
Qed.

Definition btold (code : list N) (t : btoken) : Prop := found_in code (bt_value t).
Lemma btold_more code code' ts : (forall x, found_in code x -> found_in code' x) -> Forall (btold code) ts -> Forall (btold code') ts.
Proof. intros H. apply Forall_impl. intros t. apply H. Qed.
Lemma args_told code vs : Forall (found_in code) vs -> Forall (btold code) (BurnSpec.args vs).
Proof. induction 1; constructor; assumption. Qed.
Lemma reads_told E code ts : BurnSpec.reads E code ts -> Forall (btold code) ts.
Proof.
  induction 1 as [| c s ts _ _ IH | w t c s ts _ W _ _ IH | w _ | a vs s ts A _ IH | a vs A | c t s ts _ _ IH | c t s ts _ _ IH | c d s ts _ _ _ IH | c t d s ts _ _ _ IH].
  - constructor.
  - eapply btold_more; [intros x; apply found_cons | exact IH].
  - constructor; [| eapply btold_more; [intros x; apply found_r | exact IH]]. unfold btold. destruct W; cbn [btok bt_value]; [apply found_nil | apply found_l, found_refl | apply found_l, found_refl].
  - constructor.
  - apply Forall_app. split.
    + apply args_told. eapply Forall_impl; [| apply (arguments_found _ _ _ A)]. intros x Hx. apply found_cons, found_l, Hx.
    + eapply btold_more; [intros x Hx; apply found_cons, found_r, Hx | exact IH].
  - apply args_told. eapply Forall_impl; [| apply (unclosed_found _ _ _ A)]. intros x Hx. apply found_cons, Hx.
  - constructor; [apply found_nil |]. eapply btold_more; [intros x; apply found_cons | exact IH].
  - constructor; [apply found_nil |]. eapply btold_more; [intros x Hx; apply found_cons, found_cons, Hx | exact IH].
  - constructor; [apply found_nil |]. eapply btold_more; [intros x; apply found_cons | exact IH].
  - constructor; [apply found_nil |]. eapply btold_more; [intros x Hx; apply found_cons, found_cons, Hx | exact IH].
Qed.
Lemma told_args code vs : Forall (btold code) (BurnSpec.args vs) -> forall v, In v vs -> found_in code v.
Proof. intros H v Hv. rewrite Forall_forall in H. apply (H (mkBtok BArgument v)). unfold BurnSpec.args. apply in_map. exact Hv. Qed.

Definition steps_found (code : list N) (l : list step) : Prop := forall st v, In st l -> In v (switches st) -> found_in code v.
Lemma steps_cons code op vs l : (forall v, In v vs -> found_in code v) -> steps_found code l -> steps_found code (mkStep op 0 vs :: l).
Proof. intros H1 H2 st v [<- | Hs] Hv; [apply H1; exact Hv | eapply H2; eassumption]. Qed.
Lemma body_found code o ts l o' r : ScriptsSpec.body_reads o ts l o' r -> Forall (btold code) ts -> steps_found code l /\ Forall (btold code) r.
Proof.
  induction 1; intros F; repeat match goal with
    | H : Forall (btold _) (_ :: _) |- _ => apply Forall_cons_iff in H; destruct H
    | H : Forall (btold _) (_ ++ _) |- _ => apply Forall_app in H; destruct H
    end; try (split; [intros st v [] | first [constructor | assumption]]; fail); try (apply IHbody_reads; assumption);
  (destruct IHbody_reads as [I1 I2]; [assumption |]; split; [| assumption]).
  - apply steps_cons; [apply told_args; assumption | assumption].
  - destruct b; apply steps_cons; try assumption; intros v [].
  - apply steps_cons; [intros v [] | assumption].
  - apply steps_cons; [intros v [] | assumption].
  - apply steps_cons; [apply told_args; assumption | assumption].
  - apply steps_cons; [apply told_args; assumption | assumption].
Qed.
Lemma parameters_found code ts ps : ScriptsSpec.parameters_of ts ps -> Forall (btold code) ts -> forall v, In v ps -> found_in code v.
Proof.
  induction 1 as [| t ts vs _ _ IH | t ts vs _ _ IH]; intros F v Hv; [destruct Hv | |]; apply Forall_cons_iff in F; destruct F as [F1 F2]; [| auto].
  destruct Hv as [<- | Hv]; [exact F1 | auto].
Qed.
Lemma name_found code t n : ScriptsSpec.name_of t n -> btold code t -> found_in code n.
Proof. intros [(_ & ->) | (_ & ->)] H; [exact H | apply found_nil]. Qed.
Lemma scripts_found code o ts l : ScriptsSpec.scripts_read o ts l -> Forall (btold code) ts -> forall s, In s l -> script_found code s.
Proof.
  induction 1 as [o | o t ts scs _ _ IH | o d n name head ps b ts l o' r scs _ NM PA _ B _ IH | o d n name head ps _ NM PA]; intros F s Hs.
  - destruct Hs.
  - apply Forall_cons_iff in F. destruct F. auto.
  - apply Forall_cons_iff in F. destruct F as [_ F]. apply Forall_cons_iff in F. destruct F as [Fn F]. apply Forall_app in F. destruct F as [Fh F]. apply Forall_cons_iff in F. destruct F as [_ F].
    destruct (body_found code _ _ _ _ _ B F) as [S1 S2]. destruct Hs as [<- | Hs]; [| auto].
    split; [eapply name_found; eassumption |]. split; [eapply parameters_found; eassumption |]. split; [exact S1 | split; reflexivity].
  - apply Forall_cons_iff in F. destruct F as [_ F]. apply Forall_cons_iff in F. destruct F as [Fn Fh]. destruct Hs as [<- | []].
    split; [eapply name_found; eassumption |]. split; [eapply parameters_found; eassumption |]. split; [intros st v [] | split; reflexivity].
Qed.
Lemma script_more code code' s : (forall x, found_in code x -> found_in code' x) -> script_found code s -> script_found code' s.
Proof. intros H (H1 & H2 & H3 & H4 & H5). repeat split; eauto. Qed.
Lemma text_scripts_found E code l : text_scripts E code l -> forall s, In s l -> script_found code s.
Proof. intros (ts & R & S) s. eapply scripts_found; [exact S | eapply reads_told; exact R]. Qed.
Lemma script_new_found code : script_found code script_new.
Proof. repeat split; try apply found_nil; [intros v [] | intros st v []]. Qed.

(** ** Schema texts *)
Section Tokens.
Context (E : fenv).

Lemma spoiled_digit v : spoiled E v -> starts_with_digit v.
Proof. intros (_ & _ & H). exact H. Qed.
Lemma digit_app v c : starts_with_digit v -> starts_with_digit (v ++ c).
Proof. intros (d & u & -> & H). exists d, (u ++ c). auto. Qed.
Lemma spells_digit v s w : spells E v s w -> starts_with_digit v -> starts_with_digit w.
Proof. induction 1; auto. intros H'. apply IHspells, digit_app, H'. Qed.
Lemma spells_whole v s w : spells E v s w -> ~ starts_with_digit w -> w = v ++ s.
Proof.
  induction 1 as [v | v c s w _ _ IH | v c s w P _ SP IH]; intros D; [rewrite app_nil_r; reflexivity | rewrite (IH D), <- app_assoc; reflexivity |].
  destruct D. eapply spells_digit; [exact SP | apply spoiled_digit, P].
Qed.

Definition told (code : list N) (t : stoken) : Prop := (k_kind t = KNumericLiteral /\ exists n, k_text t = show64 E n) \/ found_in code (k_text t).
Definition usual (t : stoken) : Prop := k_kind t <> KAssertion /\ k_kind t <> KAssertionBlock.
Definition fair (code : list N) (t : stoken) : Prop := told code t /\ usual t.
Lemma fair_more code code' ts : (forall x, found_in code x -> found_in code' x) -> Forall (fair code) ts -> Forall (fair code') ts.
Proof. intros H. apply Forall_impl. intros t [[T | T] U]; split; try assumption; [left | right]; auto. Qed.
Lemma word_fair p a w t : spells E p a w -> word_token E w t -> fair (p ++ a) t.
Proof.
  intros S W. destruct W as [k t Hin | w n _ _ P | w _ _ _ D].
  - split; [right; apply found_nil |]. cbn in Hin. repeat (destruct Hin as [Hin | Hin]; [injection Hin as <- <-; split; discriminate |]). destruct Hin.
  - split; [left; split; [reflexivity | exists n; reflexivity] | split; discriminate].
  - split; [right; cbn [k_text]; rewrite <- (spells_whole _ _ _ S D); apply found_refl | split; discriminate].
Qed.
Lemma words_fair p a w ws : spells E p a w -> word_tokens E w ws -> Forall (fair (p ++ a)) ws.
Proof. intros S W. destruct W; constructor; [| constructor]. eapply word_fair; eassumption. Qed.
Lemma sign_fair code k : k <> KAssertion -> k <> KAssertionBlock -> fair code (tk k).
Proof. intros A B. split; [right; apply found_nil | split; assumption]. Qed.

Lemma word_square w t : word_token E w t -> k_kind t <> KOpenSquare.
Proof. intros [k t' Hin | |]; try discriminate. cbn in Hin. repeat (destruct Hin as [Hin | Hin]; [injection Hin as <- <-; discriminate |]). destruct Hin. Qed.
Lemma words_square w ws : word_tokens E w ws -> Forall (fun t => k_kind t <> KOpenSquare) ws.
Proof. intros [| |w' t W]; repeat constructor. eapply word_square; exact W. Qed.

(** What stands after an opening square bracket is no number. *)
Fixpoint bracketed (code : list N) (ts : list stoken) : Prop :=
  match ts with
  | [] => True
  | o :: r => (k_kind o = KOpenSquare -> forall x u, r = x :: u -> found_in code (k_text x)) /\ bracketed code r
  end.
Lemma bracketed_more code code' ts : (forall x, found_in code x -> found_in code' x) -> bracketed code ts -> bracketed code' ts.
Proof. intros H. induction ts as [| t ts IH]; cbn [bracketed]; [auto |]. intros [B1 B2]. split; [intros K x u R; eauto | auto]. Qed.
Lemma bracketed_cons code t ts : k_kind t <> KOpenSquare -> bracketed code ts -> bracketed code (t :: ts).
Proof. intros K B. split; [intros X; destruct (K X) | exact B]. Qed.
Lemma bracketed_words code ws ts : Forall (fun t => k_kind t <> KOpenSquare) ws -> bracketed code ts -> bracketed code (ws ++ ts).
Proof. induction 1; intros B; [exact B |]. apply bracketed_cons; auto. Qed.
Lemma bracketed_app code a b : bracketed code (a ++ b) -> bracketed code b.
Proof. induction a as [| x a IH]; [auto | intros [_ B]; auto]. Qed.

Lemma sreads_fair n p s ts : sreads E n p s ts -> Forall (fair (p ++ s)) ts /\ bracketed (p ++ s) ts.
Proof.
  induction 1 as [n p s w _ | n c s ts _ _ IH | n p a w t c s ts S W _ _ IH | n p a w ws c k s ts S W HIN _ IH | n p a w ws s ts S W _ _ IH | n p a w ws s ts S W _ IH
    | n p a w ws d s ts S W _ _ IH | n p a w ws S W | n p a w ws sp body s ts S W _ _ _ _ _ IH | n p a w ws sp S W _ _ | n p a w ws sp body s ts S W _ _ _ _ _ IH
    | n p a w ws sp S W _ | n p a w ws sp body s ts S W _ _ _ _ _ IH | n p a w ws sp S W _].
  - split; constructor.
  - destruct IH as [I1 I2]. cbn [app] in *. split; [eapply fair_more; [intros x; apply found_cons | exact I1] | eapply bracketed_more; [intros x; apply found_cons | exact I2]].
  - destruct IH as [I1 I2]. cbn [app] in I1, I2. rewrite app_assoc.
    assert (L : forall x, found_in s x -> found_in ((p ++ a) ++ c :: s) x) by (intros x Hx; apply found_r, found_cons, Hx).
    split; [constructor; [| eapply fair_more; [exact L | exact I1]] | apply bracketed_cons; [eapply word_square; exact W | eapply bracketed_more; [exact L | exact I2]]].
    assert (F := word_fair _ _ _ _ S W). destruct F as [[T | T] U]; (split; [| exact U]); [left; exact T | right; apply found_l, T].
  - destruct IH as [I1 I2]. cbn [app] in I1, I2. rewrite app_assoc.
    assert (L : forall x, found_in s x -> found_in ((p ++ a) ++ c :: s) x) by (intros x Hx; apply found_r, found_cons, Hx).
    assert (K : k <> KAssertion /\ k <> KAssertionBlock /\ k <> KOpenSquare).
    { cbn in HIN. repeat (destruct HIN as [HIN | HIN]; [injection HIN as <- <-; repeat split; discriminate |]). destruct HIN. }
    destruct K as (K1 & K2 & K3). split.
    + apply Forall_app. split; [eapply fair_more; [| eapply words_fair; eassumption]; intros x; apply found_l |]. constructor; [apply sign_fair; assumption | eapply fair_more; [exact L | exact I1]].
    + apply bracketed_words; [eapply words_square; exact W |]. apply bracketed_cons; [exact K3 | eapply bracketed_more; [exact L | exact I2]].
  - destruct IH as [I1 I2]. cbn [app] in I1, I2. rewrite app_assoc.
    assert (L : forall x, found_in s x -> found_in ((p ++ a) ++ 40 :: s) x) by (intros x Hx; apply found_r, found_cons, Hx). split.
    + apply Forall_app. split; [eapply fair_more; [| eapply words_fair; eassumption]; intros x; apply found_l |]. constructor; [apply sign_fair; discriminate | eapply fair_more; [exact L | exact I1]].
    + apply bracketed_words; [eapply words_square; exact W |]. apply bracketed_cons; [discriminate | eapply bracketed_more; [exact L | exact I2]].
  - destruct IH as [I1 I2]. cbn [app] in I1, I2. rewrite app_assoc.
    assert (L : forall x, found_in s x -> found_in ((p ++ a) ++ 61 :: 61 :: s) x) by (intros x Hx; apply found_r, found_cons, found_cons, Hx). split.
    + apply Forall_app. split; [eapply fair_more; [| eapply words_fair; eassumption]; intros x; apply found_l |]. constructor; [apply sign_fair; discriminate | eapply fair_more; [exact L | exact I1]].
    + apply bracketed_words; [eapply words_square; exact W |]. apply bracketed_cons; [discriminate | eapply bracketed_more; [exact L | exact I2]].
  - destruct IH as [I1 I2]. cbn [app] in I1, I2. rewrite app_assoc.
    assert (L : forall x, found_in (d :: s) x -> found_in ((p ++ a) ++ 61 :: d :: s) x) by (intros x Hx; apply found_r, found_cons, Hx). split.
    + apply Forall_app. split; [eapply fair_more; [| eapply words_fair; eassumption]; intros x; apply found_l |]. constructor; [apply sign_fair; discriminate | eapply fair_more; [exact L | exact I1]].
    + apply bracketed_words; [eapply words_square; exact W |]. apply bracketed_cons; [discriminate | eapply bracketed_more; [exact L | exact I2]].
  - rewrite app_assoc. split; [eapply fair_more; [| eapply words_fair; eassumption]; intros x; apply found_l |].
    rewrite <- (app_nil_r ws). apply bracketed_words; [eapply words_square; exact W | exact I].
  - destruct IH as [I1 I2]. cbn [app] in I1, I2. rewrite app_assoc.
    assert (L : forall x, found_in s x -> found_in ((p ++ a) ++ 91 :: sp ++ body ++ 93 :: s) x) by (intros x Hx; apply found_r, found_cons, found_r, found_r, found_cons, Hx).
    assert (B : found_in ((p ++ a) ++ 91 :: sp ++ body ++ 93 :: s) body) by (apply found_r, found_cons, found_r, found_l, found_refl). split.
    + apply Forall_app. split; [eapply fair_more; [| eapply words_fair; eassumption]; intros x; apply found_l |]. constructor; [apply sign_fair; discriminate |].
      constructor; [split; [right; exact B | split; discriminate] |]. constructor; [apply sign_fair; discriminate | eapply fair_more; [exact L | exact I1]].
    + apply bracketed_words; [eapply words_square; exact W |]. split; [intros _ x u X; injection X as <- _; exact B |].
      apply bracketed_cons; [discriminate |]. apply bracketed_cons; [discriminate | eapply bracketed_more; [exact L | exact I2]].
  - rewrite app_assoc. split.
    + apply Forall_app. split; [eapply fair_more; [| eapply words_fair; eassumption]; intros x; apply found_l |]. constructor; [apply sign_fair; discriminate | constructor].
    + apply bracketed_words; [eapply words_square; exact W |]. split; [intros _ x u X; discriminate X | exact I].
  - destruct IH as [I1 I2]. cbn [app] in I1, I2. rewrite app_assoc.
    assert (L : forall x, found_in (34 :: s) x -> found_in ((p ++ a) ++ 34 :: sp ++ body ++ 34 :: s) x) by (intros x Hx; apply found_r, found_cons, found_r, found_r, Hx).
    assert (B : found_in ((p ++ a) ++ 34 :: sp ++ body ++ 34 :: s) body) by (apply found_r, found_cons, found_r, found_l, found_refl). split.
    + apply Forall_app. split; [eapply fair_more; [| eapply words_fair; eassumption]; intros x; apply found_l |].
      constructor; [split; [right; exact B | split; discriminate] | eapply fair_more; [exact L | exact I1]].
    + apply bracketed_words; [eapply words_square; exact W |]. apply bracketed_cons; [discriminate | eapply bracketed_more; [exact L | exact I2]].
  - rewrite app_assoc. split; [eapply fair_more; [| eapply words_fair; eassumption]; intros x; apply found_l |].
    rewrite <- (app_nil_r ws). apply bracketed_words; [eapply words_square; exact W | exact I].
  - destruct IH as [I1 I2]. cbn [app] in I1, I2. rewrite app_assoc.
    assert (L : forall x, found_in (125 :: s) x -> found_in ((p ++ a) ++ 123 :: sp ++ body ++ 125 :: s) x) by (intros x Hx; apply found_r, found_cons, found_r, found_r, Hx).
    assert (B : found_in ((p ++ a) ++ 123 :: sp ++ body ++ 125 :: s) body) by (apply found_r, found_cons, found_r, found_l, found_refl). split.
    + apply Forall_app. split; [eapply fair_more; [| eapply words_fair; eassumption]; intros x; apply found_l |]. constructor; [apply sign_fair; discriminate |].
      constructor; [split; [right; exact B | split; discriminate] | eapply fair_more; [exact L | exact I1]].
    + apply bracketed_words; [eapply words_square; exact W |]. do 2 (apply bracketed_cons; [discriminate |]). eapply bracketed_more; [exact L | exact I2].
  - rewrite app_assoc. split.
    + apply Forall_app. split; [eapply fair_more; [| eapply words_fair; eassumption]; intros x; apply found_l |]. constructor; [apply sign_fair; discriminate | constructor].
    + apply bracketed_words; [eapply words_square; exact W |]. apply bracketed_cons; [discriminate | exact I].
Qed.

(** ** Components *)
Definition second_told (code x : list N) : Prop := found_in code x \/ exists n, x = show64 E n.
Lemma told_second code t : told code t -> second_told code (k_text t).
Proof. intros [(_ & n & H) | H]; [right; exists n; exact H | left; exact H]. Qed.
Lemma name_told code t : told code t -> is KIdentifier t -> found_in code (k_text t).
Proof. unfold is. intros [(K & _) | H] I; [rewrite K in I; discriminate I | exact H]. Qed.

Lemma rel_found code b v ts v' : rel_body b v ts v' -> Forall (fair code) ts -> found_in code (fst v) -> second_told code (snd v) -> found_in code (fst v') /\ second_told code (snd v').
Proof.
  induction 1; intros F V1 V2; auto.
  - apply Forall_cons_iff in F. destruct F as [_ F]. auto.
  - apply Forall_cons_iff in F. destruct F as [[F1 _] F]. apply Forall_cons_iff in F. destruct F as [_ F]. apply Forall_cons_iff in F. destruct F as [[F2 _] F].
    apply IHrel_body; [exact F | apply name_told; assumption | apply told_second; exact F2].
  - apply Forall_cons_iff in F. destruct F as [_ F]. auto.
Qed.
Lemma occ_found code v ts v' : occ_body v ts v' -> Forall (fair code) ts -> found_in code v -> found_in code v'.
Proof.
  induction 1; intros F V; auto.
  - apply Forall_cons_iff in F. destruct F as [_ F]. auto.
  - apply Forall_cons_iff in F. destruct F as [_ F]. apply Forall_cons_iff in F. destruct F as [_ F]. apply Forall_cons_iff in F. destruct F as [[F1 _] F]. apply IHocc_body; [exact F | apply name_told; assumption].
Qed.
Lemma test_found code b v ts v' : test_body E b v ts v' -> Forall (fair code) ts -> bracketed code ts -> script_found code (fst v) -> snd v = [] -> script_found code (fst v') /\ snd v' = [].
Proof.
  induction 1; intros F B V1 V2; auto.
  - apply Forall_cons_iff in F. destruct F as [_ F]. destruct B as [_ B]. auto.
  - do 4 (apply Forall_cons_iff in F; destruct F as [_ F]). destruct B as (_ & _ & BO & _ & B). apply IHtest_body; [exact F | exact B | | exact V2].
    cbn [fst]. eapply script_more; [| eapply text_scripts_found; [eassumption | left; reflexivity]]. intros y Hy. apply (found_trans _ _ _ Hy). eapply BO; [eassumption | reflexivity].
  - apply Forall_cons_iff in F. destruct F as [(_ & _ & F) _]. contradiction.
  - apply Forall_cons_iff in F. destruct F as [(_ & _ & F) _]. contradiction.
Qed.

Definition component_found (code : list N) (c : component) : Prop :=
  match c with
  | CTable n | CValueList n => found_in code n
  | CRelationship a b => found_in code a /\ second_told code b
  | COccurrence n t => found_in code n /\ found_in code t
  | CScripts l => forall s, In s l -> script_found code s
  | CTest n s l => found_in code n /\ script_found code s /\ l = []
  end.
Lemma bracketed_front code a b : bracketed code (a ++ b) -> bracketed code a.
Proof. induction a as [| x a IH]; [intros _; exact I |]. cbn [app bracketed]. intros [B1 B2]. split; [| auto]. intros K y u ->. eapply B1; [exact K | reflexivity]. Qed.
Lemma component_reads_found code b ts c : component_reads E b ts c -> Forall (fair code) ts -> bracketed code ts -> component_found code c.
Proof.
  intros R F B. destruct R as [b w n body fin _ N _ _ | b w n body fin _ N _ _ | b w c body v fin _ _ R _ | b w n body v fin _ N O _ | w c o x q l _ _ O T _ | b w n body v fin _ N T _]; cbn [component_found];
    apply Forall_cons_iff in F; destruct F as [_ F]; apply Forall_cons_iff in F; destruct F as [[F0 _] F].
  - apply name_told; assumption.
  - apply name_told; assumption.
  - apply Forall_app in F. destruct F as [F _]. eapply rel_found; [exact R | exact F | apply found_nil | left; apply found_nil].
  - split; [apply name_told; assumption |]. apply Forall_app in F. destruct F as [F _]. eapply occ_found; [exact O | exact F | apply found_nil].
  - destruct B as (_ & _ & BO & _). intros s Hs. eapply script_more; [| eapply text_scripts_found; eassumption]. intros y Hy. apply (found_trans _ _ _ Hy). eapply BO; [exact O | reflexivity].
  - split; [apply name_told; assumption |]. apply Forall_app in F. destruct F as [F _]. destruct B as (_ & _ & B). apply bracketed_front in B.
    eapply test_found; [exact T | exact F | exact B | apply script_new_found | reflexivity].
Qed.
Lemma program_found code ts cs : program E ts cs -> Forall (fair code) ts -> bracketed code ts -> Forall (component_found code) cs.
Proof.
  induction 1 as [| a c b cs C _ IH | a c C]; intros F B.
  - constructor.
  - apply Forall_app in F. destruct F as [F1 F2]. constructor; [eapply component_reads_found; [exact C | exact F1 | eapply bracketed_front; exact B] | apply IH; [exact F2 | eapply bracketed_app; exact B]].
  - constructor; [eapply component_reads_found; eassumption | constructor].
Qed.

Lemma consecutive_in {V} first (l : list V) m k v : consecutive first l m -> nget m k = Some v -> In v l.
Proof.
  intros (_ & C1 & C2) H. destruct (N.lt_ge_cases k first) as [L | L]; [rewrite (C2 k L) in H; discriminate H |].
  apply (nth_error_In l (N.to_nat (k - first))). rewrite <- C1, N2Nat.id. replace (first + (k - first)) with k by lia. exact H.
Qed.
Lemma holds_found code cs f : holds cs f -> Forall (component_found code) cs -> file_found E code f.
Proof.
  intros (H1 & H2 & H3 & HT & HV & HS & HO & (_ & HR) & HX) F. rewrite Forall_forall in F. constructor; try assumption.
  - intros k t K. apply (consecutive_in _ _ _ _ _ HT), in_flat_map in K. destruct K as ([n | n | a b | n t' | l | n s l] & C & K); try destruct K as [<- | []]; try destruct K.
    split; [apply (F _ C) | repeat split].
  - intros k r K. apply HR in K. destruct K as (before & a & b & after & -> & _ & -> & _). apply (F (CRelationship a b)). apply in_elt.
  - intros k l K. apply (consecutive_in _ _ _ _ _ HV), in_flat_map in K. destruct K as ([n | n | a b | n t' | l' | n s l'] & C & K); try destruct K as [<- | []]; try destruct K.
    split; [apply (F _ C) | repeat split].
  - intros k s K. apply (consecutive_in _ _ _ _ _ HS), in_flat_map in K. destruct K as ([n | n | a b | n t' | l' | n s' l'] & C & K); try destruct K. apply (F _ C). exact K.
  - intros k o K. apply (consecutive_in _ _ _ _ _ HO), in_flat_map in K. destruct K as ([n | n | a b | n t' | l' | n s' l'] & C & K); try destruct K as [<- | []]; try destruct K.
    destruct (F _ C) as [F1 F2]. repeat split; assumption.
  - intros t K. rewrite HX in K. apply in_flat_map in K. destruct K as ([n | n | a b | n t' | l' | n s' l'] & C & K); try destruct K as [<- | []]; try destruct K.
    destruct (F _ C) as (F1 & F2 & F3). cbn [te_name te_script te_assertions te_account te_user]. auto.
Qed.
Lemma schema_found code ts cs f : sreads E 0 [] code ts -> program E ts cs -> holds cs f -> file_found E code f.
Proof. intros R P H. apply sreads_fair in R. destruct R as [F B]. eapply holds_found; [exact H |]. eapply program_found; eassumption. Qed.
End Tokens.
