(** Structured scripts as texts. *)
From Coq Require Import Ascii String NArith List Bool Arith Lia.
From Verif Require Import Prelude PreludeFacts InstrModel ComponentModel CalcModel BurnModel VmSpec BurnSpec BurnLex BurnParse.
Import ListNotations.
Local Open Scope N_scope.

Section T.
Context (E : fenv).

Lemma value_same v : argument_ok v -> value false v v.
Proof. intros (_ & H & _). exists []. auto. Qed.
Lemma commas_read vs : vs <> [] -> Forall argument_ok vs -> arguments false (commas vs ++ [41]) vs.
Proof.
  induction vs as [|v vs IH]; intros Hn F; [now elim Hn|]. inversion F as [|? ? Hv F']; subst. destruct vs as [|u vs].
  - cbn [commas]. apply AsLast; [apply Hv|now apply value_same].
  - change (commas (v :: u :: vs)) with (v ++ 44 :: commas (u :: vs)). rewrite <- app_assoc. cbn [app]. apply AsMore; [apply Hv|now apply value_same|].
    replace (open_after false v) with false by (symmetry; apply Hv). apply IH; [discriminate|auto].
Qed.
Lemma parens_read vs s ts : Forall argument_ok vs -> reads E s ts -> reads E (in_parens vs ++ s) (args vs ++ ts).
Proof.
  intros F H. destruct vs as [|v vs]; [exact H|]. unfold in_parens. change (lit "(") with [40]. change (lit ")") with [41]. cbn [app]. rewrite <- !app_assoc. cbn [app].
  replace (commas (v :: vs) ++ 41 :: s) with ((commas (v :: vs) ++ [41]) ++ s) by (now rewrite <- app_assoc). apply RdArgs; auto. apply commas_read; [discriminate|auto].
Qed.
(** What follows a word directly. *)
Definition stops (s : list N) : Prop := match s with [] => False | c :: _ => ~ word_char c end.
Lemma stops_break c s : In c breaks -> stops (c :: s).
Proof. intros H [_ K]. now apply K. Qed.
Lemma word_read w t s ts : is_word w -> word_reads E w t -> stops s -> reads E s ts -> reads E (w ++ s) (t :: ts).
Proof. intros W R S H. destruct s as [|c s]; [destruct S|]. now apply RdWord. Qed.
Lemma parens_stop vs s : stops s -> stops (in_parens vs ++ s).
Proof. intros H. destruct vs; [exact H|]. apply stops_break. cbn. tauto. Qed.
Lemma key_word k t : In (k, t) keywords -> is_word (lit k).
Proof.
  intros H. assert (G : forall w, w <> [] /\ forallb (fun c => negb (whitespace c) && negb (existsb (N.eqb c) breaks)) w = true -> is_word w).
  { intros w [H1 H2]. split; auto. rewrite forallb_forall in H2. apply Forall_forall. intros c Hc. apply H2 in Hc as Hb. apply andb_true_iff in Hb as [B1 B2].
    split; [now destruct (whitespace c)|]. intros Hi. assert (existsb (N.eqb c) breaks = true) by (apply existsb_exists; exists c; split; auto; apply N.eqb_refl). now rewrite H0 in B2. }
  apply G. cbn in H. repeat (destruct H as [H|H]; [inversion H; subst; split; [discriminate|reflexivity]|]). destruct H.
Qed.
Lemma key_read k t s ts : In (k, t) keywords -> stops s -> reads E s ts -> reads E (lit k ++ s) (btok t :: ts).
Proof. intros H S R. apply word_read; auto; [eapply key_word; eauto|now constructor]. Qed.
Lemma name_read w s ts : name_ok E w -> stops s -> reads E s ts -> reads E (w ++ s) (mkBtok BIdentifier w :: ts).
Proof. intros (H1 & H2 & H3) S R. apply word_read; auto. now constructor. Qed.
Lemma punct_read c t s ts : In (c, t) [(123, BOpenBracket); (125, BCloseBracket); (44, BComma); (59, BSemiColon); (43, BPlus); (45, BMinus); (42, BMultiply); (47, BDivide); (38, BAmpersand)] ->
  reads E s ts -> reads E ([c] ++ s) (btok t :: ts).
Proof. apply RdPunct. Qed.
Ltac key := apply key_read; [cbn; tauto| |].
Ltac punct := match goal with |- reads _ (lit ?c ++ _) _ => let x := eval vm_compute in (lit c) in change (lit c) with x end; apply punct_read; [cbn; tauto|].
Ltac stop := try apply parens_stop; apply stops_break; cbn; tauto.

Lemma text_reads :
  (forall p, writable E p -> forall s ts, reads E s ts -> reads E (text p ++ s) (tokens p ++ ts)) /\
  (forall m, writable_branches E m -> forall s ts, reads E s ts -> reads E (branch_text m ++ s) (branch_tokens m ++ ts)).
Proof.
  apply src_mut.
  - intros _ s ts H. exact H.
  - intros w vs r IH (H1 & H2 & H3) s ts H. cbn [text tokens]. rewrite <- !app_assoc. cbn [app]. apply name_read; auto; [stop|].
    rewrite <- app_assoc. apply parens_read; auto. punct. now apply IH.
  - intros b IH1 r IH2 (H1 & H2) s ts H. cbn [text tokens]. rewrite <- !app_assoc. cbn [app]. key; [stop|]. punct. rewrite <- app_assoc. apply IH1; auto.
    punct. now apply IH2.
  - intros vs b IH1 m IH2 r IH3 (H1 & H2 & H3 & H4) s ts H. cbn [text tokens]. rewrite <- !app_assoc. cbn [app]. key; [stop|].
    rewrite <- app_assoc. apply parens_read; auto. cbn [app]. punct. rewrite <- app_assoc. apply IH1; auto. cbn [app]. punct. rewrite <- app_assoc. apply IH2; auto.
  - intros _ s ts H. exact H.
  - intros b IH H1 s ts H. cbn [branch_text branch_tokens]. rewrite <- !app_assoc. cbn [app]. key; [stop|]. punct. rewrite <- app_assoc. apply IH; auto. cbn [app]. now punct.
  - intros vs b IH1 m IH2 (H1 & H2 & H3) s ts H. cbn [branch_text branch_tokens]. rewrite <- !app_assoc. cbn [app]. key; [stop|].
    rewrite <- app_assoc. apply parens_read; auto. cbn [app]. punct. rewrite <- app_assoc. apply IH1; auto. cbn [app]. punct. now apply IH2.
Qed.
Lemma definition_reads d s ts : writable_definition E d -> reads E s ts -> reads E (definition_text d ++ s) (definition_tokens d ++ ts).
Proof.
  destruct d as [[name ps] p]. intros (H1 & H2 & H3) H. cbn [definition_text definition_tokens]. rewrite <- !app_assoc. cbn [app]. key; [intros [K _]; discriminate|].
  change (lit " ") with [32]. cbn [app]. apply RdSpace; [reflexivity|]. apply name_read; auto; [stop|]. rewrite <- app_assoc. apply parens_read; auto. cbn [app]. punct.
  rewrite <- app_assoc. apply (proj1 text_reads); auto. cbn [app]. now punct.
Qed.
Theorem definitions_read ds : Forall (writable_definition E) ds -> reads E (concat (map definition_text ds)) (concat (map definition_tokens ds)).
Proof. induction 1 as [|d ds H F IH]; [constructor|]. cbn [map concat]. now apply definition_reads. Qed.
End T.
